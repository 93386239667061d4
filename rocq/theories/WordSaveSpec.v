(** * Specification vocabulary for the objects of class WordExtractor *)
From Coq Require Import Reals QArith.
From Verif Require Import PyBase PyDict PyText CountLemmas WordModel WordSpec WordSaveModel.
Open Scope Z_scope.
(** a training with [num_for_pruning = nfp] prunes while it reads [sents]: some sentence whose number is a multiple of nfp has at least two words *)
Definition prunes (nfp : Z) (sents : list str) : Prop := 0 < nfp /\ exists k s, nth_error sents k = Some s /\ Z.of_nat k mod nfp = 0 /\ (2 <= length (split s))%nat.
(** which extractors have something in them that pickle does not take, from the calls and how they ended *)
Definition taint (P : nat -> Prop) (call : wop * outcome) (i : nat) : Prop :=
  match call with
  | (WTrain j c nfp _, Done) | (WTrain j c nfp _, Raised _) => if (i =? j)%nat && (0 <? c_len c) then c_fails c <> None /\ prunes nfp (c_yields c) else P i
  | (WLoad j _, Done) => i <> j /\ P i
  | _ => P i
  end.
Fixpoint calls (W : world) (ops : list wop) : list (wop * outcome) :=
  match ops with [] => [] | o :: ops' => (o, snd (wstep W o)) :: calls (fst (wstep W o)) ops' end.
Definition tainted (ops : list wop) : nat -> Prop := fold_left taint (calls wempty ops) (fun _ => False).
(** no call of [ops] saves to [name] *)
Definition untouched (name : str) (ops : list wop) : Prop := forall i, ~ In (WSave i name) ops.
(** an extractor of some history *)
Definition extractor (e : ext) : Prop := exists ops i, nth_error (w_exts (wrun wempty ops)) i = Some e.
(** the attributes of an extractor under the keys of a saved file, in the order in which load asks for them *)
Inductive value := VInt (z : Z) | VNum (q : Q) | VBool (b : bool) | VCounter (d : dict str Z).
Definition attributes : list (str * (ext -> value)) :=
  [(u "max_left_length", fun e => VInt (max_left (e_x e))); (u "max_right_length", fun e => VInt (max_right (e_x e))); (u "min_frequency", fun e => VInt (min_freq (e_x e)));
   (u "verbose_points", fun e => VInt (e_verbose e)); (u "min_cohesion_forward", fun e => VNum (min_cohesion_forward (e_th e))); (u "min_cohesion_backward", fun e => VNum (min_cohesion_backward (e_th e)));
   (u "max_droprate_leftside_frequency", fun e => VNum (max_droprate (e_th e))); (u "min_left_branching_entropy", fun e => VNum (min_left_be (e_th e)));
   (u "min_right_branching_entropy", fun e => VNum (min_right_be (e_th e))); (u "min_left_accessor_variety", fun e => VInt (min_left_av (e_th e)));
   (u "min_right_accessor_variety", fun e => VInt (min_right_av (e_th e))); (u "remove_subwords", fun e => VBool (remove_subwords (e_th e)));
   (u "L", fun e => VCounter (wL (e_x e))); (u "R", fun e => VCounter (wR (e_x e))); (u "aL", fun e => VCounter (waL (e_x e))); (u "aR", fun e => VCounter (waR (e_x e)))].
(** all the keys that load asks for, in order; the first [i] of them bring [brought i] attributes *)
Definition asked : list str := u "configuration" :: map fst (firstn 12 attributes) ++ u "data" :: map fst (skipn 12 attributes).
Definition brought (i : nat) : nat := if (i <=? 13)%nat then (i - 1)%nat else (i - 2)%nat.
(** the attributes that load asks for first are those of [f], the other ones those of [e] *)
Definition mixed (n : nat) (f e e' : ext) : Prop := forall m k g, nth_error attributes m = Some (k, g) -> g e' = if (m <? n)%nat then g f else g e.
