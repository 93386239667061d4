(** * Specification vocabulary for the extraction of domain-specific josa (positive features) *)
From Coq Require Import QArith Reals.
From Verif Require Import PyBase PyDict UtilsModel NounModel NounSpec WordSpec JosaModel.
Open Scope Z_scope.

(** the nouns the extraction relies on: the predicted words whose two numbers reach the thresholds *)
Definition good_noun (th : jth) (scores : dict str (Q * Q)) (w : str) : Prop := exists a b, dget scores w = Some (a, b) /\ (j_noun_score th <= a)%Q /\ (j_noun_freq th <= b)%Q.
(** r is itself a noun and a josa: only the shortest noun that r properly begins with is looked at *)
Definition noun_and_josa (noun josa : str -> Prop) (r : str) : Prop :=
  exists a b, r = a ++ b /\ a <> [] /\ b <> [] /\ noun a /\ (forall a' c, a = a' ++ c -> a' <> [] -> c <> [] -> ~ noun a') /\ josa b.
(** l and a beginning of r together are a noun *)
Definition makes_noun (noun : str -> Prop) (l r : str) : Prop := exists a b, r = a ++ b /\ a <> [] /\ noun (l ++ a).
(** the role of a left part l of r *)
Inductive jcls := JPos | JNeg | JUnk.
Definition jcls_eqb (a b : jcls) : bool := match a, b with JPos, JPos | JNeg, JNeg | JUnk, JUnk => true | _, _ => false end.
Inductive jclass (noun josa : str -> Prop) (r l : str) : jcls -> Prop :=
| jc_neg : noun_and_josa noun josa r \/ makes_noun noun l r -> jclass noun josa r l JNeg
| jc_pos : ~ noun_and_josa noun josa r -> ~ makes_noun noun l r -> noun l -> jclass noun josa r l JPos
| jc_unk : ~ noun_and_josa noun josa r -> ~ makes_noun noun l r -> ~ noun l -> jclass noun josa r l JUnk.
Definition jweight (ks : list jcls) (fs : list (str * Z)) (k : jcls) : Z :=
  fold_right Z.add 0 (map (fun p : jcls * (str * Z) => if jcls_eqb (fst p) k then snd (snd p) else 0) (combine ks fs)).
(** the left parts of r of at least two characters, with the counts of the eojeols *)
Definition left_parts (lm rm : Z) (f : dict str Z) (r : str) (fs : list (str * Z)) : Prop :=
  NoDup fs /\ forall l n, In (l, n) fs <-> r <> [] /\ (2 <= length l)%nat /\ in_limits lm rm l r /\ dget f (l ++ r) = Some n.
(** their last characters, each with the sum of the counts *)
Definition last_chars (fs : list (str * Z)) (lc : list (N * Z)) : Prop :=
  NoDup lc /\ forall x n, In (x, n) lc <-> (exists l m, In (l ++ [x], m) fs) /\ n = fold_right Z.add 0 (map snd (filter (fun lm => eqb (last (fst lm) 0%N) x) fs)).
(** the test of r with the left parts fs: score v1 and frequency v2 *)
Definition josa_test (th : jth) (noun josa : str -> Prop) (r : str) (fs : list (str * Z)) (v : Q * Z) : Prop :=
  exists ks lc ns, Forall2 (jclass noun josa r) (map fst fs) ks /\ last_chars fs lc /\ (NoDup ns /\ forall l n, In (l, n) ns <-> In (l, n) fs /\ noun l) /\
    j_lastchar th <= Z.of_nat (length lc) /\ (j_last_entropy th <= shannon (map snd lc))%R /\ (j_noun_entropy th <= shannon (map snd ns))%R /\
    let pos := jweight ks fs JPos in let neg := jweight ks fs JNeg in
    fst v = (if pos + neg =? 0 then 0%Q else (inject_Z (pos - neg) / inject_Z (pos + neg))%Q) /\ snd v = pos /\
    (j_pos_score th <= fst v)%Q /\ j_pos_freq th <= pos.
(** r is a domain feature, given the set of josa *)
Definition josa_feature (th : jth) (scores : dict str (Q * Q)) (lm rm : Z) (f : dict str Z) (known ignore : list str) (josa : str -> Prop) (r : str) (v : Q * Z) : Prop :=
  ~ In r known /\ ~ In r ignore /\ ~ good_noun th scores r /\
  (exists xs, NoDup xs /\ (forall l n, In (l, n) xs <-> good_noun th scores l /\ in_limits lm rm l r /\ dget f (l ++ r) = Some n) /\ xs <> [] /\ j_pos_freq th <= fold_right Z.add 0 (map snd xs)) /\
  exists fs, left_parts lm rm f r fs /\ josa_test th (good_noun th scores) josa r fs v.
(** e ends with r *)
Definition ends_b (r e : str) : bool := eqb e (firstn (length e - length r) e ++ r).
