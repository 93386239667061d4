(** * Specification vocabulary for the word and phrase extractors *)
From Coq Require Import Reals QArith.
From Verif Require Import PyBase PyDict PyText CountLemmas WordModel.
Open Scope Z_scope.

(** [e.startswith(w)], [e.endswith(w)] *)
Definition starts_with (w e : str) : bool := eqb (firstn (length w) e) w.
Definition ends_with (w e : str) : bool := eqb (rev (firstn (length w) (rev e))) w.
Definition eojeols (sents : list str) : list str := concat (map split sents).
Definition count {A} (p : A -> bool) (l : list A) : Z := Z.of_nat (length (filter p l)).
(** number of eojeol occurrences of length at least 2 that start with [w] *)
Definition n_prefix (w : str) (sents : list str) : Z := count (fun e => (2 <=? length e)%nat && starts_with w e) (eojeols sents).
(** number of eojeol occurrences of length at least 2 that end with [w] and are longer than [w] *)
Definition n_suffix (w : str) (sents : list str) : Z :=
  count (fun e => (2 <=? length e)%nat && (length w <? length e)%nat && ends_with w e) (eojeols sents).
(** a string of length between 1 and [m] *)
Definition len_in (w : str) (m : Z) : bool := (1 <=? length w)%nat && (Z.of_nat (length w) <=? m).
(** what survives the minimum frequency *)
Definition at_least (mf n : Z) : Z := if mf <=? n then n else 0.

(** the eojeols of a sentence with their neighbour, the sentence being closed to a ring; sentences of one eojeol have no neighbours *)
Definition ring_next (ws : list str) : list (str * str) :=
  if (length ws <=? 1)%nat then [] else map (fun i => (nth i ws [], nth ((i + 1) mod length ws) ws [])) (seq 0 (length ws)).
Definition neighbours (sents : list str) : list (str * str) := concat (map (fun s => ring_next (split s)) sents).
(** number of times [w], as a whole eojeol or as a proper suffix of length at most [mr], is followed by an eojeol beginning with [c] *)
Definition n_before (mr : Z) (w : str) (c : N) (sents : list str) : Z :=
  count (fun p => (eqb (fst p) w || (len_in w mr && (length w <? length (fst p))%nat && ends_with w (fst p))) && (hd 0 (snd p) =? c)%N) (neighbours sents).
(** number of times [w], as a whole eojeol or as a proper prefix of length at most [ml], comes after an eojeol ending in [c] *)
Definition n_after (ml : Z) (w : str) (c : N) (sents : list str) : Z :=
  count (fun p => (eqb (snd p) w || (len_in w ml && (length w <? length (snd p))%nat && starts_with w (snd p))) && (last (fst p) 0 =? c)%N) (neighbours sents).

(** ** Training histories: any sequence of [train] calls; a call that raises changes nothing *)
Record tcall := mkCall { c_sents : list str; c_pruning : Z; c_cumulate : bool }.
Definition tstep (x : wx) (c : tcall) : wx := match train x (c_sents c) (c_pruning c) (c_cumulate c) with Ok y => y | Err _ => x end.
Definition thistory (x : wx) (cs : list tcall) : wx := fold_left tstep cs x.
Definition trained (x : wx) : Prop := exists ml mr mf cs, x = thistory (wx_new ml mr mf) cs.

(** ** Shannon entropy (natural logarithm) of a list of counts *)
Definition shannon (ns : list Z) : R :=
  let s := IZR (fold_right Z.add 0 ns) in (- fold_right Rplus 0 (map (fun n => IZR n / s * ln (IZR n / s)) ns))%R.

(** ** WordExtractor.extract *)
(** a word passes every threshold *)
Definition meets {T} (lt : T -> T -> bool) (th : thresholds T) (mf : Z) (w : str) (s : scores T) : Prop :=
  lt (left_branching_entropy s) (min_left_be th) = false /\ lt (right_branching_entropy s) (min_right_be th) = false /\
  min_left_av th <= left_accessor_variety s /\ min_right_av th <= right_accessor_variety s /\
  (mf <= leftside_frequency s \/ mf <= rightside_frequency s) /\
  ((2 <= length w)%nat -> lt (cohesion_forward s) (min_cohesion_forward th) = false /\ lt (cohesion_backward s) (min_cohesion_backward th) = false).
(** share of the occurrences of [w] that continue as [w'], 0 when [w] is not frequent *)
Definition droprate (freq_w : Z) (freq_w' : Z) : Q := if freq_w =? 0 then 0%Q else (inject_Z freq_w' / inject_Z freq_w)%Q.
(** [w] is dropped in favour of a one character longer passing word *)
Definition subsumed {T} (lt : T -> T -> bool) (th : thresholds T) (x : wx) (ss : dict str (scores T)) (w : str) : Prop :=
  exists w' s', In (w', s') ss /\ removelast w' = w /\ meets lt th (min_freq x) w' s' /\ (max_droprate th < droprate (fst (frequency x w)) (leftside_frequency s'))%Q.

(** ** Bigram *)
(** the adjacent pairs of all tokenised sentences *)
Fixpoint adjacent {A} (ws : list A) : list (A * A) :=
  match ws with a :: ((b :: _) as t) => (a, b) :: adjacent t | _ => [] end.
Definition n_bigram (tokenizer : str -> list str) (b : str * str) (sents : list str) : Z :=
  count (fun p => eqb (fst p) (fst b) && eqb (snd p) (snd b)) (concat (map (fun s => adjacent (tokenizer s)) sents)).
