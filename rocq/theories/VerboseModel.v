(** * Model of extraction with progress messages: what verbose=True (the default of these classes) adds to noun/_noun_ver2.py,
    predicator/_predicator.py and pos/_news_pos.py. The messages are not modelled, the percentages computed for them are, because they can fail. *)
From Coq Require Import QArith Reals.
From Verif Require Import PyBase PyDict PyText PyFile UtilsModel NounModel JosaModel LemmaModel PredModel PosModel PosTrainModel.
Open Scope Z_scope.

(** 100 * part / whole: float division of integers *)
Definition percentage (part whole : Z) : res Q := if whole =? 0 then Err ZeroDivisionError else Ok (inject_Z (100 * part) / inject_Z whole)%Q.
Definition announce (verbose : bool) (part whole : Z) : res unit := if verbose then do _ <- percentage part whole; Ok tt else Ok tt.

(** _noun_ver2.py:243-304 with 628-634: the percentage is computed at the end of the flushing, after which only the graph is reset *)
Definition noun_extract_v (verbose : bool) (num : Z) (josa suffix : list str) (dom : dict str (Z * Q) -> lrg -> list str -> list str) (methods : list str)
    (extract_compound extract_pos_feature : bool) (c : nconf) (g : lrg) (ms : Q) (min_freq : Q) (reset : bool) : res (nstate * dict str (Q * Q)) :=
  do r <- noun_extract josa suffix dom methods extract_compound extract_pos_feature c g ms min_freq reset;
  do _ <- announce verbose (n_covered (fst r)) num; Ok r.
(** 189-199: [num_of_eojeols=-1] is the default and means that the eojeols of the graph are counted; a count of -1 is taken for the default *)
Definition train_lrgraph_num (g : lrg) (num : Z) : res (lrg * Z) := if num =? -1 then do ec <- to_EojeolCounter g false; Ok (g, ec_sum ec) else Ok (g, num).
(** 178-187: the number of eojeols of a counter is the sum it recorded *)
Definition train_counter_num (ec : ecounter) (max_left max_right : Z) : res (lrg * Z) := do g <- train_counter ec max_left max_right; train_lrgraph_num g (ec_sum ec).
Definition train_graph_num (g : lrg) : res (lrg * Z) := train_lrgraph_num g (-1).
(** 156-176 *)
Definition train_sents_num (normalize : str -> str) (ensure_normalized : bool) (sents : list str) (min_eojeol : Z) (checkpoint : Z) (max_left max_right : Z) : res (lrg * Z) :=
  do ec <- ec_new (if ensure_normalized then normalize else fun x => x) min_eojeol (max_left + max_right) checkpoint (Some sents);
  train_counter_num ec max_left max_right.

(** predicator/_predicator.py:236-247, 321-396: [count] is self._count_of_eojeols; the percentage is computed after the clean-up of the table *)
Definition pred_extract_v (verbose : bool) (c : pconf) (counter : dict str Z) (candidates : dict str Z) (min_freq : Z) : res (pconf * (dict str predicator * dict str predicator) * (Z * Z)) :=
  do r <- as_lemma_candidates c (match candidates with [] => default_candidates counter min_freq | _ => candidates end);
  let '(c', preds, covered) := r in
  do _ <- announce verbose (snd covered) (zsum (dvals counter));
  do av <- separate c' preds;
  Ok (c', av, covered).

(** pos/_news_pos.py:95-113: the extractor of nouns gets the same option *)
Definition train_nouns_v (verbose : bool) (normalize : str -> str) (r : resources) (o : options) (sents : list str) : res (nstate * dict str (Q * Q)) :=
  do gn <- train_sents_num normalize (o_normalized o) sents (o_eojeol o) 500000 10 9;
  noun_extract_v verbose (snd gn) (r_nj r) (r_suffix r) josa_dom default_postprocessing false false (load_predictor (r_pos r) (r_neg r) (o_noun_features o) (o_max_eojeol o)) (fst gn) (o_noun_score o) (o_noun_frequency o) false.
(** 115-140 *)
Definition train_predicators_v (verbose : bool) (normalize : str -> str) (r : resources) (o : options) (sents : list str) (c : nconf) (nouns : list str) : res (pconf * (dict str predicator * dict str predicator)) :=
  let josas := match pos_f c ++ common_f c with [] => r_josas r | js => js end in
  let p := pred_new nouns josas (r_adj r) (r_verb r) (r_eomis r) in
  do counter <- pred_train_sents normalize false sents (o_eojeol o);
  do p <- pred_learn p counter (o_eomi o) false (o_eomi_features o) (o_eomi_score o) (o_eomi_frequency o) 10 (1 / 2)%R (7 # 10) 100;
  do r <- pred_extract_v verbose p counter [] (o_predicator o);
  Ok (fst r).
(** 41-69 *)
Definition pos_train_v (verbose : bool) (normalize : str -> str) (r : resources) (o : options) (sents : list str) : res posx :=
  do ns <- train_nouns_v verbose normalize r o sents;
  let (st, nouns) := (ns : nstate * dict str (Q * Q)) in
  do pr <- train_predicators_v verbose normalize r o sents (n_conf st) (dkeys nouns);
  let '(p, (adjectives, verbs)) := (pr : pconf * (dict str predicator * dict str predicator)) in
  do adverbs <- load_adverbs (r_adverbs r);
  do a1 <- stem_to_adverb (p_adj p) default_suffixs;
  do a2 <- stem_to_adverb (p_verb p) default_suffixs;
  do eojeols <- to_EojeolCounter (n_graph st) true;
  Ok (mkX (dkeys nouns) adjectives verbs (p_adj p) (p_verb p) (p_eomis p) (p_josas p) (adverbs ++ a1 ++ a2) (ec_counter eojeols)).
(** 142-175 with 389-405: the frequencies of the tables relative to the sum of the eojeols; the tables returned are built from them afterwards without failing *)
Definition pos_extract_v (verbose : bool) (chat : option (list str)) (x : posx) : res (posx * postags) :=
  do r <- pos_extract chat x;
  do _ <- announce verbose (zsum (dvals (g_noun (snd r)))) (zsum (dvals (x_eoj x)));
  Ok r.
(** 22-39 *)
Definition pos_train_extract_v (verbose : bool) (chat : option (list str)) (normalize : str -> str) (r : resources) (o : options) (sents : list str) : res (posx * postags) :=
  do x <- pos_train_v verbose normalize r o sents; pos_extract_v verbose chat x.
