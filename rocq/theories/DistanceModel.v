(** * Model of soynlp/hangle/_distance.py *)
From Coq Require Import Reals QArith.
From Verif Require Import PyBase PyDict HangleModel.
Open Scope Z_scope.

(** ** The dynamic programme, hangle/_distance.py:18-28 and 46-56.
    The two functions contain the same loops; they differ only in the
    substitution cost. Python numbers are represented by integers counting
    multiples of 1/[U] ([U] = 1 for plain integers, 3 for the jamo distance whose
    costs are multiples of 1/3): float rounding is not modelled. *)
Section DP.
  Context {A : Type}.
  Variable U : Z.                   (* the number 1 *)
  Variable sub : A -> A -> Z.       (* get_cost / get_jamo_cost *)

  (** inner loop (lines 21-25): [prev] is previous_row\[j:\], [left] is current_row\[j\] *)
  Fixpoint lev_row (c1 : A) (s2 : list A) (prev : list Z) (left : Z) : list Z :=
    match s2, prev with
    | c2 :: s2', p0 :: ((p1 :: _) as prev') =>
      let insertions := p1 + U in
      let deletions := left + U in
      let substitutions := p0 + sub c1 c2 in
      let v := Z.min (Z.min insertions deletions) substitutions in
      v :: lev_row c1 s2' prev' v
    | _, _ => []
    end.
  (** outer loop (lines 19-26) *)
  Fixpoint lev_rows (i : nat) (s1 s2 : list A) (prev : list Z) : list Z :=
    match s1 with
    | [] => prev
    | c1 :: s1' =>
      let first := Z.of_nat (i + 1) * U in
      lev_rows (i + 1) s1' s2 (first :: lev_row c1 s2 prev first)
    end.
  (** lines 12-28 *)
  Definition lev_core (s1 s2 : list A) : Z :=
    match s2 with
    | [] => Z.of_nat (length s1) * U
    | _ => last (lev_rows 0 s1 s2 (map (fun j => Z.of_nat j * U) (seq 0 (length s2 + 1)))) 0
    end.
End DP.

(** hangle/_distance.py:15-16; [cost] is the optional dict argument, entries in multiples of 1/[U] *)
Definition get_cost {A} `{EqB A} (U : Z) (cost : dict (A * A) Z) (c1 c2 : A) : Z :=
  if eqb c1 c2 then 0 else dgetd cost (c1, c2) U.

(** hangle/_distance.py:7-28. When [len(s1) < len(s2)] the recursive call
    [levenshtein(s2, s1)] does not pass [cost]. *)
Definition levenshtein_u {A} `{EqB A} (U : Z) (s1 s2 : list A) (cost : dict (A * A) Z) : Z :=
  if (length s1 <? length s2)%nat then lev_core U (get_cost U []) s2 s1
  else lev_core U (get_cost U cost) s1 s2.
Definition levenshtein {A} `{EqB A} (s1 s2 : list A) : Z := levenshtein_u 1 s1 s2 [].

Definition triple_list (t : N * N * N) : list N := let '(a, b, c) := t in [a; b; c].

(** hangle/_distance.py:37-44, in thirds: 1 is 3 thirds, levenshtein(..)/3 is that many thirds *)
Definition get_jamo_cost (c1 c2 : N) : Z :=
  if N.eqb c1 c2 then 0 else
  match decompose c1, decompose c2 with
  | Some t1, Some t2 => levenshtein (triple_list t1) (triple_list t2)
  | _, _ => 3
  end.
(** hangle/_distance.py:30-56; the result in thirds *)
Definition jamo_levenshtein3 (s1 s2 : str) : Z :=
  if (length s1 <? length s2)%nat then lev_core 3 get_jamo_cost s2 s1
  else lev_core 3 get_jamo_cost s1 s2.

(** hangle/_distance.py:70-76 with the default [unitfy=set]. The result is 1 for an empty argument. *)
Definition jaccard_distance (s1 s2 : str) : Q :=
  match s1, s2 with
  | [], _ => 1
  | _, [] => 1
  | _, _ =>
    let a := nodup N.eq_dec s1 in
    let b := nodup N.eq_dec s2 in
    let inter := filter (fun c => mem c b) a in
    let union := nodup N.eq_dec (a ++ b) in
    1 - inject_Z (Z.of_nat (length inter)) / inject_Z (Z.of_nat (length union))
  end.

(** collections.Counter on a string *)
Definition counter (s : str) : dict N Z :=
  fold_left (fun d c => dset d c (dgetd d c 0 + 1)) s [].

(** hangle/_distance.py:58-68 with the default [unitfy=Counter]; floats are exact reals *)
Definition cosine_distance (s1 s2 : str) : R :=
  match s1, s2 with
  | [], _ => 2
  | _, [] => 2
  | _, _ =>
    let d1 := counter s1 in
    let d2 := counter s2 in
    let prod := (fold_left (fun acc kv => acc + snd kv * dgetd d2 (fst kv) 0) d1 0)%Z in
    let sq (d : dict N Z) := (fold_left (fun acc f => acc + f * f) (dvals d) 0)%Z in
    1 - IZR prod / sqrt (IZR (sq d1 * sq d2)%Z)
  end%R.
