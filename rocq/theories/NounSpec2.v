(** * Specification vocabulary: coverage, compounds and the whole extraction of LRNounExtractor_v2 *)
From Coq Require Import QArith.
From Verif Require Import PyBase PyDict UtilsModel UtilsSpec TokenizerModel TokenizerSpec NounModel NounSpec.
Open Scope Z_scope.

(** the eojeol e is explained by a noun of the table: it begins with a noun candidate in the table and, for nouns of one syllable, goes on with a positive
    or common feature or ends *)
Definition explained {S} (c : nconf) (lm rm : Z) (f : dict str Z) (nouns : dict str S) (e : str) : Prop :=
  exists w r, e = w ++ r /\ in_limits lm rm w r /\ noun_candidate c lm rm f w /\ dget nouns w <> None /\
    ((2 <= length w)%nat \/ r = [] \/ In r (pos_f c) \/ In r (common_f c)).

(** a noun the decomposer knows: predicted with a score above the threshold, of at least two characters *)
Definition known_part (scores : dict str (Z * Q)) (ms : Q) (w : str) : Prop := exists p, dget scores w = Some p /\ (ms < snd p)%Q /\ (2 <= length w)%nat.
(** ts is the cut of the word that the max-score tokenizer makes with the known parts, each scored with its length *)
Definition noun_cut (scores : dict str (Z * Q)) (ms : Q) (w : str) (ts : list tok) : Prop :=
  tiles w 0 ts /\ exists D, (forall t q, dget D t = Some q <-> known_part scores ms t /\ q = inject_Z (Z.of_nat (length t))) /\ greedy D 0 10 w (map pos (filter multi ts)).
(** nouns followed by a positive feature *)
Definition nouns_and_josa (features : list str) (scores : dict str (Z * Q)) (ms : Q) (ts : list tok) (parts : list str) (j : str) : Prop :=
  map tw ts = parts ++ [j] /\ (2 <= length parts)%nat /\ Forall (known_part scores ms) parts /\ In j features.
Definition all_nouns (scores : dict str (Z * Q)) (ms : Q) (ts : list tok) : Prop := Forall (fun t => known_part scores ms (tw t)) ts.

(** the words looked at as compounds, with their counts as whole eojeols *)
Definition compound_candidate (lm rm : Z) (f : dict str Z) (scores : dict str (Z * Q)) (ms : Q) (w : str) (n : Z) : Prop :=
  (4 <= length w)%nat /\ ~ known_part scores ms w /\ (exists r m, in_limits lm rm w r /\ dget f (w ++ r) = Some m) /\
  n = match dget f w with Some m => m | None => 0 end.
(** the word is cut into parts that make up the noun *)
Definition makes (features : list str) (scores : dict str (Z * Q)) (ms : Q) (w : str) (parts : list str) (noun : str) : Prop :=
  decompose_compound features (decomposer_scores scores ms) w = Ok parts /\ parts <> [w] /\ concat parts = noun.
(** the predicted score of a part, 0 if there is none *)
Definition part_score (scores : dict str (Z * Q)) (t : str) : Q := snd (dgetd scores t (0, 0%Q)).
(** the table of compounds: the count of a compound is the number of eojeols made of it, its score the best of the scores of its parts (at least 0) *)
Definition compound_table (features : list str) (scores : dict str (Z * Q)) (ms : Q) (lm rm : Z) (f : dict str Z) (comps : dict str (Q * Q)) : Prop :=
  forall noun, exists ws : list (str * Z), NoDup (map fst ws) /\
   (forall w n, In (w, n) ws <-> compound_candidate lm rm f scores ms w n /\ exists p, makes features scores ms w p noun) /\
   match dget comps noun with
   | None => ws = []
   | Some (score, count) => ws <> [] /\ count = inject_Z (fold_right Z.add 0 (map snd ws)) /\ (0 <= score)%Q /\
     (forall w n p t, In (w, n) ws -> makes features scores ms w p noun -> In t p -> (part_score scores t <= score)%Q) /\
     (score = 0%Q \/ exists w n p t, In (w, n) ws /\ makes features scores ms w p noun /\ In t p /\ part_score scores t = score)
   end.

(** ** what the three default post-processing steps remove *)
Definition detachable {S} (nouns : dict str S) (features : list str) (w : str) : Prop :=
  exists l r, w = l ++ r /\ (2 <= length l)%nat /\ (2 <= length r)%nat /\ dget nouns l <> None /\ In r features.
Definition noun_with_josa (josa suffix : list str) (lm rm : Z) (f : dict str Z) (nouns : dict str (Q * Q)) (w : str) (s : Q * Q) : Prop :=
  exists l r sl js, w = l ++ r /\ (2 <= length l)%nat /\ r <> [] /\ In r josa /\ ~ In r suffix /\ dget nouns l = Some sl /\ (fst s < fst sl)%Q /\
    NoDup js /\ (5 <= length js)%nat /\ forall j, In j js -> In j josa /\ in_limits lm rm l j /\ dget f (l ++ j) <> None.
(** the tables after merging and the frequency filter (n0), after detaching (n1) and after dropping features (n2), and the result *)
Record noun_tables := mkTables { n0 : dict str (Q * Q); n1 : dict str (Q * Q); n2 : dict str (Q * Q) }.
Definition extracted (josa suffix : list str) (c : nconf) (lm rm : Z) (f : dict str Z) (scores : dict str (Z * Q)) (comps : dict str (Q * Q)) (ms mf : Q)
    (t : noun_tables) (nouns : dict str (Q * Q)) : Prop := forall w s,
  (dget (n0 t) w = Some s <-> (mf <= fst s)%Q /\ (dget comps w = Some s \/
      dget comps w = None /\ exists p, dget scores w = Some p /\ (ms <= snd p)%Q /\ s = (inject_Z (fst p), snd p))) /\
  (dget (n1 t) w = Some s <-> dget (n0 t) w = Some s /\ ~ detachable (n0 t) (pos_f c) w) /\
  (dget (n2 t) w = Some s <-> dget (n1 t) w = Some s /\ ~ In w (pos_f c) /\ ~ In w (common_f c)) /\
  (dget nouns w = Some s <-> dget (n2 t) w = Some s /\ ~ noun_with_josa josa suffix lm rm f (n2 t) w s).
(** the eojeols left to the predicate extraction and the number of eojeols covered by nouns *)
Definition coverage {S} (c : nconf) (lm rm : Z) (f : dict str Z) (nouns : dict str S) (g : lrg) (k : Z) : Prop :=
  (forall l r n, seen_from_l g l r = Some n <-> in_limits lm rm l r /\ dget f (l ++ r) = Some n /\ ~ explained c lm rm f nouns (l ++ r)) /\
  exists es, NoDup (map fst es) /\ (forall e n, In (e, n) es <-> dget f e = Some n /\ explained c lm rm f nouns e) /\ k = fold_right Z.add 0 (map snd es).
