(** * Property theorems for the string distances of soynlp.hangle (C08 - C11) *)
From Coq Require Import Reals QArith.
From Verif Require Import PyBase PyDict HangleModel DistanceModel DistanceSpec CountLemmas DistanceProofs DistanceProofs2.
Open Scope Z_scope.

(** C08 *)
Theorem C08_levenshtein_is_edit_distance : forall s t : str,
  least_cost 1 (fun x y => if N.eqb x y then 0 else 1) s t (levenshtein s t).
Proof. exact (fun s t => levenshtein_least s t). Qed.
Print Assumptions C08_levenshtein_is_edit_distance.

Theorem C08_levenshtein_metric : forall s t v : str,
  0 <= levenshtein s t /\
  (levenshtein s t = 0 <-> s = t) /\
  levenshtein s t = levenshtein t s /\
  levenshtein s v <= levenshtein s t + levenshtein t v /\
  Z.abs (Z.of_nat (length s) - Z.of_nat (length t)) <= levenshtein s t <= Z.of_nat (Nat.max (length s) (length t)).
Proof.
  exact (fun s t v => conj (Z.le_trans _ _ _ (Z.abs_nonneg _) (proj1 (levenshtein_bounds s t)))
    (conj (levenshtein_zero_iff s t) (conj (levenshtein_sym s t)
    (conj (levenshtein_tri s t v) (levenshtein_bounds s t))))).
Qed.
Print Assumptions C08_levenshtein_metric.

Example C08_nonvacuous : levenshtein (u "가나다라") (u "나다마라") = 2 /\ levenshtein (u "") (u "abc") = 3.
Proof. vm_compute. auto. Qed.

(** C09: costs are given in multiples of 1/U *)
Theorem C09_custom_cost_when_first_is_longer : forall U (s t : str) (cost : dict (N * N) Z),
  (length t <= length s)%nat ->
  least_cost U (fun x y => if N.eqb x y then 0 else match dget cost (x, y) with Some v => v | None => U end) s t
    (levenshtein_u U s t cost).
Proof. exact (fun U s t cost => levenshtein_custom U s t cost). Qed.
Print Assumptions C09_custom_cost_when_first_is_longer.

Theorem C09_cost_ignored_when_first_is_shorter : forall U (s t : str) (cost : dict (N * N) Z),
  (length s < length t)%nat ->
  least_cost U (fun x y => if N.eqb x y then 0 else U) s t (levenshtein_u U s t cost).
Proof. exact (fun U s t cost => levenshtein_custom_ignored U s t cost). Qed.
Print Assumptions C09_cost_ignored_when_first_is_shorter.

(** the naive claim "the cost table is always honoured" is false *)
Theorem C09_cost_always_honoured_refuted : exists (s t : str) (cost : dict (N * N) Z),
  ~ least_cost 10 (fun x y => if N.eqb x y then 0 else match dget cost (x, y) with Some v => v | None => 10 end) s t
      (levenshtein_u 10 s t cost).
Proof.
  exists (u "가"), (u "나다"), [((ch "가", ch "나"), 1)]. intros [_ L].
  assert (A : forall c : N -> N -> Z, c (ch "가") (ch "나") = 1 -> align 10 c (u "가") (u "나다") 11).
  { intros c E. replace 11 with (0 + 10 + c (ch "가") (ch "나")) by (rewrite E; reflexivity).
    change (u "가") with [ch "가"]. change (u "나다") with [ch "나"; ch "다"].
    apply al_sub, al_ins, al_nil. }
  specialize (L 11 (A _ eq_refl)). revert L. vm_compute. intros L. apply L. reflexivity.
Qed.
Print Assumptions C09_cost_always_honoured_refuted.

Example C09_nonvacuous : levenshtein_u 10 (u "가다") (u "나라") [((ch "가", ch "나"), 1)] = 11 /\
  levenshtein_u 10 (u "가다") (u "나") [((ch "가", ch "나"), 1)] = 11 /\ levenshtein_u 10 (u "가") (u "나다") [((ch "가", ch "나"), 1)] = 20.
Proof. vm_compute. auto. Qed.

(** C10: results and costs in thirds; substituting two distinct Korean characters costs the
    edit distance of their jamo triples, any other substitution 3 thirds *)
Theorem C10_jamo_least_alignment : forall s t : str,
  least_cost 3 (fun x y => if N.eqb x y then 0 else
     match decompose x, decompose y with
     | Some (a, b, c), Some (d, e, f) => levenshtein [a; b; c] [d; e; f]
     | _, _ => 3 end) s t (jamo_levenshtein3 s t).
Proof.
  intros s t. destruct (jamo_least s t) as [A1 A2].
  split.
  - eapply align_ext; [|exact A1]. intros x y. unfold get_jamo_cost. destruct (N.eqb x y), (decompose x) as [[[? ?] ?]|], (decompose y) as [[[? ?] ?]|]; reflexivity.
  - intros k K. apply A2. eapply align_ext; [|exact K]. intros x y. unfold get_jamo_cost. destruct (N.eqb x y), (decompose x) as [[[? ?] ?]|], (decompose y) as [[[? ?] ?]|]; reflexivity.
Qed.
Print Assumptions C10_jamo_least_alignment.

Theorem C10_jamo_metric : forall s t v : str,
  (jamo_levenshtein3 s t = 0 <-> s = t) /\
  jamo_levenshtein3 s t = jamo_levenshtein3 t s /\
  jamo_levenshtein3 s v <= jamo_levenshtein3 s t + jamo_levenshtein3 t v /\
  0 <= jamo_levenshtein3 s t <= 3 * levenshtein s t.
Proof. exact (fun s t v => conj (jamo_zero_iff s t) (conj (jamo_sym s t) (conj (jamo_tri s t v) (jamo_le_lev s t)))). Qed.
Print Assumptions C10_jamo_metric.

Example C10_nonvacuous : jamo_levenshtein3 (u "아버지") (u "어머니") = 3 /\ jamo_levenshtein3 (u "가a") (u "각b") = 4.
Proof. vm_compute. auto. Qed.

(** C11 *)
Theorem C11_jaccard_exact : forall (s1 s2 : str) (I Un : list N), s1 <> [] -> s2 <> [] ->
  NoDup I -> (forall c, In c I <-> In c s1 /\ In c s2) ->
  NoDup Un -> (forall c, In c Un <-> In c s1 \/ In c s2) ->
  jaccard_distance s1 s2 = (1 - inject_Z (Z.of_nat (length I)) / inject_Z (Z.of_nat (length Un)))%Q
  /\ (0 < length Un)%nat.
Proof. exact (fun s1 s2 I Un a b c d e f => match jaccard_exact s1 s2 I Un a b c d e f with conj p (conj q _) => conj p q end). Qed.
Print Assumptions C11_jaccard_exact.

Theorem C11_jaccard_properties : forall s1 s2 : str, s1 <> [] -> s2 <> [] ->
  (0 <= jaccard_distance s1 s2 <= 1)%Q /\ jaccard_distance s1 s2 = jaccard_distance s2 s1 /\
  ((jaccard_distance s1 s2 == 0)%Q <-> forall c, In c s1 <-> In c s2) /\
  ((jaccard_distance s1 s2 == 1)%Q <-> forall c, In c s1 -> ~ In c s2).
Proof. exact jaccard_props. Qed.
Print Assumptions C11_jaccard_properties.

(** [occ c s] is the number of occurrences of [c] in [s]; [L] any duplicate-free list covering both strings *)
Theorem C11_cosine_exact : forall (s1 s2 L : str), s1 <> [] -> s2 <> [] -> NoDup L ->
  (forall c, In c s1 -> In c L) -> (forall c, In c s2 -> In c L) ->
  cosine_distance s1 s2 =
   (1 - IZR (Zsum (fun c => occ c s1 * occ c s2)%Z L) /
        sqrt (IZR (Zsum (fun c => occ c s1 * occ c s1) L * Zsum (fun c => occ c s2 * occ c s2) L)%Z))%R.
Proof. exact cosine_exact. Qed.
Print Assumptions C11_cosine_exact.

Theorem C11_cosine_properties : forall s1 s2 : str, s1 <> [] -> s2 <> [] ->
  (0 <= cosine_distance s1 s2 <= 1)%R /\ cosine_distance s1 s2 = cosine_distance s2 s1 /\
  cosine_distance s1 s1 = 0%R /\
  (cosine_distance s1 s2 = 1%R <-> forall c, In c s1 -> ~ In c s2).
Proof. exact cosine_props. Qed.
Print Assumptions C11_cosine_properties.

Theorem C11_empty_string : forall s : str,
  jaccard_distance [] s = 1%Q /\ jaccard_distance s [] = 1%Q /\ cosine_distance [] s = 2%R /\ cosine_distance s [] = 2%R.
Proof. intros [|c s]; repeat split; reflexivity. Qed.
Print Assumptions C11_empty_string.

Example C11_nonvacuous : (jaccard_distance (u "가나가") (u "나다") == 2 # 3)%Q.
Proof. vm_compute. reflexivity. Qed.
