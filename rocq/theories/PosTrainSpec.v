(** * Specification vocabulary for the training of the part-of-speech extractors *)
From Coq Require Import QArith Reals.
From Verif Require Import PyBase PyDict PyText PyFile HangleSpec UtilsModel UtilsSpec NounModel NounSpec NounSpec2 LemmaModel LemmaSpec PredModel PredSpec3 PosModel PosTrainModel.
Open Scope Z_scope.

(** d holds the space-separated words of the preprocessed sentences that have at most [limit] characters and occur at least [least] times, with the numbers of their occurrences *)
Definition eojeol_table (pre : str -> str) (limit least : Z) (sents : list str) (d : dict str Z) : Prop :=
  NoDup (dkeys d) /\ forall w, let n := occurrences w (map pre sents) in
  dget d w = if (Z.of_nat (length w) <=? limit) && (Z.max 1 least <=? n) then Some n else None.
(** a line of one of the files, without surrounding white space *)
Definition listed_in (files : list str) (w : str) : Prop := exists content line, In content files /\ In line (file_lines content) /\ w = strip line.
(** no intermediate pruning takes place: words may be rare, or the corpus is not larger than the checkpoint *)
Definition unpruned (o : options) (sents : list str) : Prop := o_eojeol o <= 1 \/ Z.of_nat (length sents) <= 500000.
(** the resources: stems that end in a syllable, no blank line among the adverbs *)
Definition usable (r : resources) : Prop := (forall s, In s (r_adj r) \/ In s (r_verb r) -> good_stem s) /\
  forall line, In line (file_lines (r_adverbs r)) -> ~ Forall (fun c => is_space c = true) line.

(** ** nouns: the table of LRNounExtractor_v2 without compounds *)
Definition feature_sets (r : resources) (o : options) : nconf := load_predictor (r_pos r) (r_neg r) (o_noun_features o) (o_max_eojeol o).
(** the prediction of every candidate, made from the eojeols that no longer noun has taken *)
Definition predicted (c : nconf) (lm rm : Z) (f : dict str Z) (ms : Q) (scores : dict str (Z * Q)) : Prop :=
  (forall w, dget scores w <> None <-> noun_candidate c lm rm f w) /\
  forall w p, dget scores w = Some p -> exists fs, NoDup (map fst fs) /\ (forall q n, In (q, n) fs <-> left_for scores ms lm rm f w q n) /\ p = predict_features c w fs ms.
Definition learnt_nouns (pre : str -> str) (r : resources) (o : options) (sents : list str) (nouns : list str) : Prop :=
  exists f scores t table, eojeol_table pre 19 (o_eojeol o) sents f /\ predicted (feature_sets r o) 10 9 f (o_noun_score o) scores /\
    extracted (r_nj r) (r_suffix r) (feature_sets r o) 10 9 f scores [] (o_noun_score o) (o_noun_frequency o) t table /\ nouns = dkeys table.

(** ** adjectives and verbs *)
(** the endings: those of the resources and, if asked for, those EomiExtractor finds in the eojeols without nouns *)
Definition learnt_endings (o : options) (d : dict str Z) (p p1 : pconf) : Prop :=
  (p_josas p1 = p_josas p /\ p_adj p1 = p_adj p /\ p_verb p1 = p_verb p /\ p_stems p1 = p_stems p /\ p_nouns p1 = p_nouns p) /\
  (o_eomi o = false -> forall m, In m (p_eomis p1) <-> In m (p_eomis p)) /\
  (o_eomi o = true -> exists f g found, NoDup (dkeys f) /\ (forall w n, dget f w = Some n <-> dget d w = Some n /\ without_noun (p_nouns p) w) /\
     to_lrgraph (mkCounter f) 10 9 false = Ok g /\ eomi_extract (p_stems p) (p_nouns p) (o_eomi_features o) g None (o_eomi_score o) (o_eomi_frequency o) true = Ok (g, found) /\
     forall m, In m (p_eomis p1) <-> In m (p_eomis p) \/ dget found m <> None).
Definition learnt_predicators (pre : str -> str) (r : resources) (o : options) (sents : list str) (x : posx) : Prop :=
  exists d p p1 cands T p2 T', eojeol_table pre 15 (Z.max 2 (o_eojeol o)) sents d /\
    p = pred_new (x_nouns x) (x_josas x) (r_adj r) (r_verb r) (r_eomis r) /\ learnt_endings o d p p1 /\
    (forall w n, dget cands w = Some n <-> dget d w = Some n /\ o_predicator o < n /\ Forall syllable w) /\
    table_of p1 cands T /\ cleaned p1 T p2 T' /\ separated p2 T' (x_adj x) (x_verb x) /\ x_eomis x = p_eomis p2.
(** ** the whole *)
Definition trained_from (norm : str -> str) (r : resources) (o : options) (sents : list str) (x : posx) : Prop :=
  let pre := if o_normalized o then norm else fun s => s in
  eojeol_table pre 19 (o_eojeol o) sents (x_eoj x) /\
  learnt_nouns pre r o sents (x_nouns x) /\
  learnt_predicators norm r o sents x /\
  x_adjs x = r_adj r /\ x_verbs x = r_verb r /\
  (forall j, In j (x_josas x) <-> listed_in (r_pos r) j \/ (forall w, ~ listed_in (r_pos r) w) /\ In j (r_josas r)) /\
  (forall a, In a (x_adv x) <-> (exists line p q, In line (file_lines (r_adverbs r)) /\ line = p ++ a ++ q /\ Forall (fun c => is_space c = true) p /\ a <> [] /\ Forall (fun c => is_space c = false) a /\ (forall c q', q = c :: q' -> is_space c = true)) \/
                              exists p, In (p ++ u "하") (r_adj r ++ r_verb r) /\ a = p ++ u "히").
