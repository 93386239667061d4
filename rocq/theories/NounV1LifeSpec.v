(** * Specification vocabulary for the life of an LRNounExtractor (version 1) *)
From Coq Require Import QArith Reals.
From Verif Require Import PyBase PyDict PyText UtilsModel UtilsSpec NounModel NounSpec VectorizerSpec NounV1Model NounV1Spec NounV1LifeModel.
Open Scope Z_scope.

(** a corpus that is accepted and can be read once, and one that can also be read a second time *)
Definition accepted (k : corpus2) : bool := match k_len k with Some n => 0 <? n | None => false end.
Definition whole (p : pass) : bool := match p_fails p with None => true | Some _ => false end.
Definition read_once (k : corpus2) : bool := accepted k && whole (k_first k).
Definition read_twice (k : corpus2) : bool := read_once k && whole (k_second k).
(** the corpus and the threshold a call trains with *)
Definition trains (k : vcall) : option (corpus2 * Z) := match k with VTrain k mf => Some (k, mf) | VTrainExtract k _ mf _ => Some (k, mf) | _ => None end.
(** the last training of a history whose corpus has the property *)
Definition last_with (P : corpus2 -> bool) (ks : list vcall) : option (corpus2 * Z) :=
  fold_left (fun o k => match trains k with Some (k, mf) => if P k then Some (k, mf) else o | None => o end) ks None.

(** what is learnt: l is a frequent beginning in the first iteration, r empty or a frequent ending in it, and l ++ r occurs n times in the second one *)
Definition learnt_pair (c : v1conf) (pre : str -> str) (k : corpus2) (mf : Z) (l r : str) (n : Z) : Prop :=
  in_graph (v_lm c) (v_rm c) mf (space_words pre (p_yields (k_first k))) l r /\ n = occurrences (l ++ r) (map pre (p_yields (k_second k))) /\ 0 < n.
(** the count of a frequent beginning of the first iteration, 0 for any other string *)
Definition learnt_count (c : v1conf) (pre : str -> str) (k : corpus2) (mf : Z) (l : str) (n : Z) : Prop :=
  left_count (v_lm c) mf (space_words pre (p_yields (k_first k))) l n.

(** scores and frequencies, given the pairs [G] that are known *)
Definition known (G : str -> str -> Z -> Prop) (w : str) (fs : list (str * Z)) : Prop := NoDup (map fst fs) /\ forall r n, In (r, n) fs <-> r <> [] /\ G w r n.
Definition scored (c : v1conf) (G : str -> str -> Z -> Prop) (nouns : dict str (Q * Q)) (ms : Q) (w : str) (v : Q * Q) : Prop :=
  exists fs, known G w fs /\ ((v_minf c < Z.of_nat (length fs) /\ v1_score (v_coef c) w fs v) \/ (Z.of_nat (length fs) <= v_minf c /\ best_split (v_coef c) nouns ms w v)).
Definition scored_noun (c : v1conf) (G : str -> str -> Z -> Prop) (ms : Q) (C : str -> Prop) (w : str) : Prop :=
  C w /\ (2 <= length w)%nat /\ exists v, scored c G [] 0%Q w v /\ (ms <= fst v)%Q.
Definition unclaimed (G : str -> str -> Z -> Prop) (noun : str -> Prop) (w : str) (n : Z) : Prop :=
  exists rows, NoDup (map fst rows) /\
    (forall r k, In (r, k) rows <-> G w r k /\ ~ exists w' r' k', noun w' /\ (length w < length w')%nat /\ w' ++ r' = w ++ r /\ G w' r' k') /\
    n = fold_right Z.add 0 (map snd rows).
(** the table that extract returns *)
Definition extracted_table (c : v1conf) (G : str -> str -> Z -> Prop) (count : str -> Z) (ms : Q) (C : str -> Prop) (D : dict str (Z * Q * Q)) : Prop :=
  NoDup (dkeys D) /\ let noun := scored_noun c G ms C in let final := fun w => noun w /\ ~ v1_removal (v_coef c) count ms noun w in
  (forall w, dget D w <> None <-> final w) /\
  forall w n s k, dget D w = Some (n, s, k) -> scored c G [] 0%Q w (s, k) /\ unclaimed G final w n.
