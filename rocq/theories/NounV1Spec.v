(** * Specification vocabulary for LRNounExtractor (version 1) *)
From Coq Require Import QArith Reals.
From Verif Require Import PyBase PyDict PyText PyFile UtilsModel UtilsSpec NounModel NounSpec VectorizerSpec NounV1Model.
Open Scope Z_scope.

(** the words of the corpus, cut at spaces *)
Definition space_words (pre : str -> str) (sents : list str) : list str := filter (fun t => negb (eqb t [])) (concat (map (fun s => split_on SP (pre s)) sents)).
(** l is a frequent beginning: at least mf words begin with it *)
Definition frequent_left (lm mf : Z) (T : list str) (l : str) (n : Z) : Prop :=
  l <> [] /\ Z.of_nat (length l) <= lm /\ 0 < n /\ mf <= n /\ how_many (fun t => exists r, t = l ++ r) T (Z.to_nat n).
(** r is a frequent ending, shorter than the limit *)
Definition frequent_right (rm mf : Z) (T : list str) (r : str) : Prop :=
  r <> [] /\ Z.of_nat (length r) < rm /\ exists n, (0 < n)%nat /\ mf <= Z.of_nat n /\ how_many (fun t => exists l, l <> [] /\ t = l ++ r) T n.
(** the pair (l, r) belongs to the graph *)
Definition in_graph (lm rm mf : Z) (T : list str) (l r : str) : Prop := (exists n, frequent_left lm mf T l n) /\ (r = [] \/ frequent_right rm mf T r).

(** the right parts that count: features with a coefficient that no longer feature covers *)
Definition has_longer_coef (coef : dict str Q) (word r : str) : Prop := exists a b, word = a ++ b /\ b <> [] /\ dget coef (b ++ r) <> None.
Definition counted (coef : dict str Q) (word : str) (rc : str * Z) (q : Q) : Prop := dget coef (fst rc) = Some q /\ ~ has_longer_coef coef word (fst rc).
(** (score, proportion) of a word with the right parts fs: the weighted mean of the coefficients *)
Definition v1_score (coef : dict str Q) (word : str) (fs : list (str * Z)) (v : Q * Q) : Prop :=
  exists ks us, (NoDup ks /\ forall rc q, In (rc, q) ks <-> In rc fs /\ counted coef word rc q) /\
    (NoDup us /\ forall rc, In rc us <-> In rc fs /\ dget coef (fst rc) = None) /\
    let norm := Qsum (map (fun x => inject_Z (snd (fst x))) ks) in let unknown := Qsum (map (fun rc => inject_Z (snd rc)) us) in
    (fst v == (if Qeq_bool norm 0 then 0 else Qsum (map (fun x => inject_Z (snd (fst x)) * snd x) ks) / norm))%Q /\
    (snd v == (if Qeq_bool (norm + unknown) 0 then 0 else norm / (norm + unknown)))%Q.
(** removal: a final full stop or comma, or a shorter noun followed by a feature whose coefficient exceeds the threshold, unless the word
    holds together better than the word without its last character: (c(w)/c(w1))^(1/(n-1)) >= (c(w-)/c(w1))^(1/(n-2)), in whole numbers *)
Definition holds_together (count : str -> Z) (w : str) : Prop :=
  count (firstn 1 w) = 0 \/ count (removelast w) ^ Z.of_nat (length w - 1) <= count w ^ Z.of_nat (length w - 2) * count (firstn 1 w).
Definition v1_removal (coef : dict str Q) (count : str -> Z) (ms : Q) (noun : str -> Prop) (w : str) : Prop :=
  (exists a, w = a ++ u "." \/ w = a ++ u ",") \/
  ((3 <= length w)%nat /\ ~ holds_together count w /\ exists l r, w = l ++ r /\ (2 <= length l)%nat /\ r <> [] /\ noun l /\ (ms < dgetd coef r 0%Q)%Q).

(** the count of a frequent beginning, 0 for any other string *)
Definition left_count (lm mf : Z) (T : list str) (l : str) (n : Z) : Prop := frequent_left lm mf T l n \/ (n = 0 /\ forall m, ~ frequent_left lm mf T l m).
(** (l, r) is in the graph, and the word l ++ r occurs n times *)
Definition graph_pair (lm rm mf : Z) (pre : str -> str) (sents : list str) (l r : str) (n : Z) : Prop :=
  in_graph lm rm mf (space_words pre sents) l r /\ n = occurrences (l ++ r) (map pre sents) /\ 0 < n.
(** what follows the word, with counts *)
Definition followers (lm rm mf : Z) (pre : str -> str) (sents : list str) (w : str) (fs : list (str * Z)) : Prop :=
  NoDup (map fst fs) /\ forall r n, In (r, n) fs <-> r <> [] /\ graph_pair lm rm mf pre sents w r n.
(** the prediction without a table of nouns: more than min_num_of_features followers are needed *)
Definition v1_result (c : v1conf) (mf : Z) (pre : str -> str) (sents : list str) (w : str) (v : Q * Q) : Prop :=
  exists fs, followers (v_lm c) (v_rm c) mf pre sents w fs /\
    ((v_minf c < Z.of_nat (length fs) /\ v1_score (v_coef c) w fs v) \/ (Z.of_nat (length fs) <= v_minf c /\ (fst v == 0)%Q /\ (snd v == 0)%Q)).
(** the words scored at least ms *)
Definition v1_noun (c : v1conf) (mf : Z) (pre : str -> str) (sents : list str) (ms : Q) (C : str -> Prop) (w : str) : Prop :=
  C w /\ (2 <= length w)%nat /\ exists v, v1_result c mf pre sents w v /\ (ms <= fst v)%Q.
(** the occurrences of w that are not claimed by a longer noun *)
Definition v1_frequency (lm rm mf : Z) (pre : str -> str) (sents : list str) (noun : str -> Prop) (w : str) (n : Z) : Prop :=
  exists rows, NoDup (map fst rows) /\
    (forall r k, In (r, k) rows <-> graph_pair lm rm mf pre sents w r k /\
       ~ exists w' r' k', noun w' /\ (length w < length w')%nat /\ w' ++ r' = w ++ r /\ graph_pair lm rm mf pre sents w' r' k') /\
    n = fold_right Z.add 0 (map snd rows).

(** ** prediction with a table of nouns *)
Definition tuple_le (a b : Q * Q) : Prop := (fst a < fst b)%Q \/ ((fst a == fst b)%Q /\ (snd a <= snd b)%Q).
Definition larger_tuple (a b v : Q * Q) : Prop := (v = a /\ tuple_le b a) \/ (v = b /\ ~ tuple_le b a).
(** the word splits after e characters into a noun and a noun, or a noun and a feature whose coefficient exceeds the threshold *)
Definition split_score (coef : dict str Q) (nouns : dict str (Q * Q)) (ms : Q) (word : str) (e : nat) (v : Q * Q) : Prop :=
  exists l r a, word = l ++ r /\ l <> [] /\ r <> [] /\ length l = e /\ dget nouns l = Some a /\
    ((exists b, dget nouns r = Some b /\ larger_tuple a b v) \/ (dget nouns r = None /\ v = (dgetd coef r 0%Q, 0%Q) /\ (ms < dgetd coef r 0)%Q)).
Definition best_split (coef : dict str Q) (nouns : dict str (Q * Q)) (ms : Q) (word : str) (v : Q * Q) : Prop :=
  (v = (0, 0)%Q /\ forall e x, ~ split_score coef nouns ms word e x) \/
  exists e, split_score coef nouns ms word e v /\ forall e' x, split_score coef nouns ms word e' x -> (fst x <= fst v)%Q /\ ((e' < e)%nat -> (fst x < fst v)%Q).

(** ** coefficient files *)
Definition coef_entry (float_of : str -> option Q) (line r : str) (q : Q) : Prop :=
  exists s, strip line = r ++ 9%N :: s /\ ~ In 9%N r /\ ~ In 9%N s /\ float_of s = Some q.
(** an entry of the file that precedes every malformed line *)
Definition readable_entry (float_of : str -> option Q) (content r : str) (q : Q) : Prop :=
  exists a line b, file_lines content = a ++ line :: b /\ coef_entry float_of line r q /\ forall l, In l a -> exists r' q', coef_entry float_of l r' q'.
