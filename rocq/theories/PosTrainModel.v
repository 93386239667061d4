(** * Model of the training of the part-of-speech extractors: soynlp/pos/_news_pos.py:16-69, 95-140 (ChatPOSExtractor inherits it) *)
From Coq Require Import QArith Reals.
From Verif Require Import PyBase PyDict PyText PyFile UtilsModel NounModel JosaModel LemmaModel PredModel PosModel.
Open Scope Z_scope.

(** the files and tables that come with the package: noun predictor, josas and suffixes of the post-processing, josas, stems and endings of the
    predicator extractor, adverbs *)
Record resources := mkRes { r_pos : list str; r_neg : list str; r_nj : list str; r_suffix : list str; r_josas : list str; r_adj : list str; r_verb : list str; r_eomis : list str; r_adverbs : str }.
(** the options of the extractor and of train. Scores are exact rationals. *)
Record options := mkOpt { o_normalized : bool; o_eomi : bool; o_noun_features : Z; o_max_eojeol : Z; o_noun_score : Q; o_noun_frequency : Q; o_eojeol : Z;
                          o_predicator : Z; o_eomi_features : Z; o_eomi_score : Q; o_eomi_frequency : Z }.
(** 95-113: LRNounExtractor_v2 with its default lengths and checkpoint, without compounds and position features; the graph is not reset *)
Definition train_nouns (normalize : str -> str) (r : resources) (o : options) (sents : list str) : res (nstate * dict str (Q * Q)) :=
  do g <- train_sents normalize (o_normalized o) sents (o_eojeol o) 500000 10 9;
  noun_extract (r_nj r) (r_suffix r) josa_dom default_postprocessing false false (load_predictor (r_pos r) (r_neg r) (o_noun_features o) (o_max_eojeol o)) g (o_noun_score o) (o_noun_frequency o) false.
(** 115-140: the josas are the positive and the common features of the noun extractor, or the default ones when there are none; PredicatorExtractor keeps
    ensure_normalized=False, so it normalizes whatever the option says; no stems are learnt (so the thresholds of the stem extractor do not matter) *)
Definition train_predicators (normalize : str -> str) (r : resources) (o : options) (sents : list str) (c : nconf) (nouns : list str) : res (pconf * (dict str predicator * dict str predicator)) :=
  let josas := match pos_f c ++ common_f c with [] => r_josas r | js => js end in
  let p := pred_new nouns josas (r_adj r) (r_verb r) (r_eomis r) in
  do counter <- pred_train_sents normalize false sents (o_eojeol o);
  do p <- pred_learn p counter (o_eomi o) false (o_eomi_features o) (o_eomi_score o) (o_eomi_frequency o) 10 (1 / 2)%R (7 # 10) 100;
  do r <- pred_extract p counter [] (o_predicator o);
  Ok (fst r).
(** 41-69: the eojeols are those of the graph as it was trained *)
Definition pos_train (normalize : str -> str) (r : resources) (o : options) (sents : list str) : res posx :=
  do ns <- train_nouns normalize r o sents;
  let (st, nouns) := (ns : nstate * dict str (Q * Q)) in
  do pr <- train_predicators normalize r o sents (n_conf st) (dkeys nouns);
  let '(p, (adjectives, verbs)) := (pr : pconf * (dict str predicator * dict str predicator)) in
  do adverbs <- load_adverbs (r_adverbs r);
  do a1 <- stem_to_adverb (p_adj p) default_suffixs;
  do a2 <- stem_to_adverb (p_verb p) default_suffixs;
  do eojeols <- to_EojeolCounter (n_graph st) true;
  Ok (mkX (dkeys nouns) adjectives verbs (p_adj p) (p_verb p) (p_eomis p) (p_josas p) (adverbs ++ a1 ++ a2) (ec_counter eojeols)).
(** 22-39 *)
Definition pos_train_extract (chat : option (list str)) (normalize : str -> str) (r : resources) (o : options) (sents : list str) : res (posx * postags) :=
  do x <- pos_train normalize r o sents; pos_extract chat x.
