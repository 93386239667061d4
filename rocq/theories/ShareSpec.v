(** * Specification for C93: which operations change which of the caller's objects *)
From Coq Require Import List ZArith Bool.
Import ListNotations.
From Verif Require Import PyBase PyDict UtilsModel PredModel ShareModel.
Open Scope Z_scope.

(** pools a program can reach from sets and counters of its own *)
Definition reachable (D : dflts) (P : pool) : Prop := exists ss cs ops, P = prun D (mkPool ss cs []) ops.

(** the word [wn] with its count stays in the counter [r] under one logged operation *)
Definition keeps (r : nat) (wn : str * Z) (e : pop * outcome) : bool :=
  match e with
  | (_, Invalid) => true
  | (PTrain _ r' m _, _) => negb (r' =? r)%nat || (m <=? snd wn)
  | (PCover r' es, _) => negb (r' =? r)%nat || negb (mem (fst wn) es)
  | _ => true
  end.
Definition trains (r : nat) (e : pop * outcome) : bool :=
  match e with (_, Invalid) => false | (PTrain _ r' _ _, _) => (r' =? r)%nat | _ => false end.

(** the operation adds to the set [r]: the caller itself, or the training of an extractor that learns endings and was given [r] *)
Definition adds_to (P : pool) (r : nat) (op : pop) : Prop :=
  match op with
  | PUpdate r' _ => r' = r
  | PTrain k _ _ _ => exists x, nth_error (exts P) k = Some x /\ x_ee x = true /\ x_eomis x = r
  | _ => False
  end.

(** the sets an extractor holds *)
Definition holds (x : px) (r : nat) : Prop := r = x_josas x \/ r = x_adj x \/ r = x_verb x \/ r = x_eomis x.
(** the operation is not one of extractor [k] and does not touch the objects [k] holds *)
Definition foreign (P : pool) (k : nat) (op : pop) : Prop :=
  exists x, nth_error (exts P) k = Some x /\
  (forall r, holds x r -> ~ adds_to P r op) /\
  match op with
  | PTrain j r _ _ => j <> k /\ x_counter x <> Some r
  | PExtract j _ _ => j <> k
  | PCover r _ => x_counter x <> Some r
  | _ => True
  end.
Fixpoint all_foreign (D : dflts) (P : pool) (k : nat) (ops : list pop) : Prop :=
  match ops with [] => True | op :: ops => foreign P k op /\ all_foreign D (fst (pstep D P op)) k ops end.
