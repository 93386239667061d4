(** * Model of soynlp/noun/_noun_ver2.py (LRNounExtractor_v2) and soynlp/noun/_noun_postprocessing.py
    Python sets are lists without regard to order and multiplicity; where a set is iterated, the list order is the iteration order.
    Scores (floats) are rationals. Verbose output and log files ([logpath]) are not modelled. *)
From Coq Require Import QArith.
From Verif Require Import PyBase PyDict PySort PyText PyFile UtilsModel TokenizerModel.
Open Scope Z_scope.

(** ** feature sets *)
(** the predictor, _noun_ver2.py:20-56: feature sets, min_num_of_features, max_frequency_when_noun_is_eojeol *)
Record nconf := mkNconf { pos_f : list str; neg_f : list str; common_f : list str; min_nf : Z; max_eoj : Z }.

(** _noun_ver2.py:80-88: [{feature.strip() for feature in f}] over the files of all headers *)
Definition read_features (files : list str) : list str := concat (map (fun content => map strip (file_lines content)) files).
(** _noun_ver2.py:72-103, given the contents of the _pos and the _neg files *)
Definition load_predictor (pos_files neg_files : list str) (min_nf max_eoj : Z) : nconf :=
  let pos := read_features pos_files in let neg := read_features neg_files in
  let common := filter (fun f => mem f neg) pos in
  mkNconf (filter (fun f => negb (mem f common)) pos) (filter (fun f => negb (mem f common)) neg) common min_nf max_eoj.

(** _noun_ver2.py:105-139 *)
Definition append_features (c : nconf) (feature_type : str) (features : list str) : res nconf :=
  if eqb feature_type (u "pos") then
    let commons := filter (fun f => mem f (neg_f c)) features in
    Ok (mkNconf (pos_f c ++ filter (fun f => negb (mem f commons)) features) (neg_f c) (common_f c ++ commons) (min_nf c) (max_eoj c))
  else if eqb feature_type (u "neg") then
    let commons := filter (fun f => mem f (pos_f c)) features in
    Ok (mkNconf (pos_f c) (neg_f c ++ filter (fun f => negb (mem f commons)) features) (common_f c ++ commons) (min_nf c) (max_eoj c))
  else if eqb feature_type (u "common") then
    Ok (mkNconf (pos_f c) (neg_f c) (common_f c ++ features) (min_nf c) (max_eoj c))
  else Err ValueError.

(** _noun_ver2.py:42-50: a given [postprocessing] reaches [isinstance(postprocessing)], a TypeError *)
Definition default_postprocessing : list str := [u "detaching_features"; u "ignore_features"; u "ignore_NJ"].
Definition init_postprocessing (postprocessing : list str) : res (list str) :=
  match postprocessing with [] => Ok default_postprocessing | _ => Err TypeError end.

(** ** prediction *)
(** _noun_ver2.py:311-321 *)
Definition exist_longer_f (feats : list str) (word r : str) : bool :=
  existsb (fun e => mem (skipn e word ++ r) feats) (rev (seq 0 (length word))).

(** _noun_ver2.py:306-309 *)
Definition nonempty_features (c : nconf) (word : str) (features : list (str * Z)) : list str :=
  filter (fun r => (mem r (pos_f c) && negb (exist_longer_f (pos_f c) word r)) || (mem r (neg_f c) && negb (exist_longer_f (neg_f c) word r)))
    (map fst features).

(** the five counters pos, common, neg, unk, end *)
Record five := mkFive { f_pos : Z; f_common : Z; f_neg : Z; f_unk : Z; f_end : Z }.
(** _noun_ver2.py:384-406 *)
Definition predict_step (c : nconf) (word : str) (a : five) (rc : str * Z) : five :=
  let r := fst rc in let freq := snd rc in
  match r with
  | [] => mkFive (f_pos a) (f_common a) (f_neg a) (f_unk a) (f_end a + freq)
  | _ =>
    if exist_longer_f (pos_f c) word r then a else
    if exist_longer_f (neg_f c) word r then a else
    if mem r (common_f c) then mkFive (f_pos a) (f_common a + freq) (f_neg a) (f_unk a) (f_end a) else
    if mem r (pos_f c) then mkFive (f_pos a + freq) (f_common a) (f_neg a) (f_unk a) (f_end a) else
    if mem r (neg_f c) then mkFive (f_pos a) (f_common a) (f_neg a + freq) (f_unk a) (f_end a) else
    mkFive (f_pos a) (f_common a) (f_neg a) (f_unk a + freq) (f_end a)
  end.
Definition predict5 (c : nconf) (word : str) (features : list (str * Z)) : five :=
  fold_left (predict_step c word) features (mkFive 0 0 0 0 0).

(** _noun_ver2.py:361-369: [first_chars], a set of characters *)
Definition first_chars (c : nconf) (word : str) (features : list (str * Z)) : list char :=
  fold_left (fun s rc => match fst rc with
      | [] => s
      | x :: _ =>
        let r := fst rc in let known := mem r (pos_f c) || mem r (common_f c) in
        let s := if known then if exist_longer_f (pos_f c) word r then s else if mem x s then s else s ++ [x] else s in
        if known then s else if mem x s then s else s ++ [x]
      end) features [].

Definition qdiv (a b : Z) : Q := (inject_Z a / inject_Z b)%Q.
(** _noun_ver2.py:323-382, from the line [pos, common, ... = self._predict(word, features)] on *)
Definition predict_features (c : nconf) (word : str) (features : list (str * Z)) (min_noun_score : Q) : Z * Q :=
  let a := predict5 c word features in
  let pos := f_pos a in let common := f_common a in let neg := f_neg a in let unk := f_unk a in let end_ := f_end a in
  let base := pos + neg in
  let score := if base =? 0 then 0%Q else qdiv (pos - neg) base in
  let support := if Qle_bool min_noun_score score then pos + end_ + common else neg + end_ + common in
  let n_features := Z.of_nat (length (nonempty_features c word features)) in
  if n_features >? min_nf c then (support, score) else
  let sum_ := pos + common + neg + unk + end_ in
  if sum_ =? 0 then (support, 0%Q) else
  if (end_ >? max_eoj c) && (pos >=? neg) then (support, score) else
  if ((common >? 0) || (pos >? 0)) && Qle_bool (3 # 10) (qdiv end_ sum_) && (common >=? neg) then
    (pos + common + end_, qdiv (pos + common + end_) sum_) else
  if (2 <=? length (first_chars c word features))%nat then (pos + common + end_, qdiv (pos + common + end_) sum_) else
  (support, 0%Q).
(** _noun_ver2.py:323-382 *)
Definition noun_predict (c : nconf) (g : lrg) (word : str) (min_noun_score : Q) : Z * Q :=
  predict_features c word (get_r g word (-1)) min_noun_score.

(** _noun_ver2.py:408-431; [condition = None] for extraction *)
Definition noun_candidates (c : nconf) (g : lrg) (condition : option str) : dict str Z :=
  fold_left (fun d r => fold_left (fun d lc =>
      let l := fst lc in
      let ok := match condition with None => true | Some [] => true | Some p => eqb (firstn (length p) l) p end in
      if ok then dset d l (dgetd d l 0 + snd lc) else d) (get_l g r (-1)) d) (pos_f c) [].

(** [sorted(words, key=lambda x:-len(x))] *)
Definition longer_first (x y : str) : bool := (length y <=? length x)%nat.
Definition sort_len (ws : list str) : list str := sort longer_first ws.

(** _noun_ver2.py:448-455: remove every eojeol that begins with the word *)
Definition remove_rows (g : lrg) (word : str) (rows : list (str * Z)) : lrg :=
  fold_left (fun g rc => remove_eojeol g (word ++ fst rc) (snd rc)) rows g.
(** _noun_ver2.py:433-466 *)
Definition batch_step (c : nconf) (ms : Q) (st : lrg * dict str (Z * Q)) (word : str) : lrg * dict str (Z * Q) :=
  let g := fst st in
  let p := noun_predict c g word ms in
  ((if Qle_bool ms (snd p) then remove_rows g word (get_r g word (-1)) else g), dset (snd st) word p).
Definition batch_predict (c : nconf) (g : lrg) (cands : list str) (ms : Q) : lrg * dict str (Z * Q) :=
  fold_left (batch_step c ms) (sort_len cands) (g, []).

(** ** compounds *)
(** _noun_ver2.py:470-473: the scores of the decomposer, MaxScoreTokenizer(scores=noun_scores) with max_length 10, default_score 0 *)
Definition decomposer_scores (scores : dict str (Z * Q)) (ms : Q) : dict str Q :=
  map (fun p => (fst p, inject_Z (Z.of_nat (length (fst p)))))
    (filter (fun p => qltb ms (snd (snd p)) && (1 <? length (fst p))%nat) scores).
(** _noun_ver2.py:533-550; tokens is never empty *)
Definition parse_compound (pos : list str) (tokens : list tok) : option (list str) :=
  let init := removelast tokens in
  if existsb (fun t => Qle_bool (tsc t) 0) init then None else
  match rev tokens with
  | [] => None            (* tokens[-1] raises IndexError; a tokenized word has at least one token *)
  | t :: _ =>
    if (3 <=? length tokens)%nat && mem (tw t) pos then Some (map tw init) else
    if qltb 0 (tsc t) then Some (map tw tokens) else None
  end.
(** [self._compound_decomposer.tokenize(word, flatten=False)\[0\]] *)
Definition decompose_tokens (dscores : dict str Q) (word : str) : res (list tok) :=
  do ts <- ms_tokenize dscores 0 10 word;
  match ts with [] => Err IndexError | t :: _ => Ok t end.
(** _noun_ver2.py:526-531 *)
Definition decompose_compound (pos : list str) (dscores : dict str Q) (word : str) : res (list str) :=
  do ts <- decompose_tokens dscores word;
  Ok (match parse_compound pos ts with None | Some [] => [word] | Some parts => parts end).

(** _noun_ver2.py:475-476 *)
Definition compound_candidates (origin : dict str (dict str Z)) (dscores : dict str Q) : dict str Z :=
  map (fun p => (fst p, dgetd (snd p) [] 0)) (filter (fun p => (4 <=? length (fst p))%nat && negb (dmem dscores (fst p))) origin).
Record cstate := mkC { c_graph : lrg; c_cand : dict str Z; c_scores : dict str Q; c_counts : dict str Z; c_comps : dict str (list str) }.
(** [max] of a non-empty sequence *)
Definition qmax_of (l : list Q) : Q := match l with [] => 0%Q | x :: l' => qmax l' x end.
(** _noun_ver2.py:483-514: one candidate *)
Definition compound_step (pos : list str) (scores : dict str (Z * Q)) (dscores : dict str Q) (st : cstate) (wc : str * Z) : res cstate :=
  let word := fst wc in let count := snd wc in
  do tokens <- decompose_tokens dscores word;
  match parse_compound pos tokens with
  | None | Some [] => Ok st
  | Some parts =>
    let noun := concat parts in
    let score := qmax_of (map (fun t => snd (dgetd scores t (0, 0%Q))) parts) in
    let old := dgetd (c_scores st) noun 0%Q in
    let cand := fold_left (fun d e => let sub := firstn e word in if dmem d sub then dset d sub (dgetd d sub 0 - count) else d)
                  (seq 2 (length word - 2)) (c_cand st) in
    Ok (mkC (remove_eojeol (c_graph st) word 1) cand
          (dset (c_scores st) noun (if Qle_bool score old then old else score))
          (dset (c_counts st) noun (dgetd (c_counts st) noun 0 + count))
          (dset (c_comps st) noun parts))
  end.
Fixpoint foldM {A B} (f : A -> B -> res A) (l : list B) (a : A) : res A :=
  match l with [] => Ok a | x :: l' => do a' <- f a x; foldM f l' a' end.
(** _noun_ver2.py:468-524; the result of the method is (score, count) for each compound *)
Definition extract_compounds (pos : list str) (g : lrg) (scores : dict str (Z * Q)) (ms : Q) : res (cstate * dict str (Q * Q)) :=
  let dscores := decomposer_scores scores ms in
  match origin g with
  | None => Err AttributeError
  | Some o =>
    let cand := compound_candidates o dscores in
    do st <- foldM (compound_step pos scores dscores) (sort (fun x y => longer_first (fst x) (fst y)) cand) (mkC g cand [] [] []);
    Ok (st, map (fun p => (fst p, (snd p, inject_Z (dgetd (c_counts st) (fst p) 0)))) (c_scores st))
  end.

(** ** post-processing, noun/_noun_postprocessing.py *)
Section Post.
  Context {S : Type}.
  (** 25-53 with 21-23 *)
  Definition detach_removed (nouns : dict str S) (features : list str) (word : str) : bool :=
    negb (length word <=? 2)%nat &&
    existsb (fun e => let l := firstn e word in let r := skipn e word in
                      negb (length r <=? 1)%nat && (dmem nouns l && mem r features)) (seq 2 (length word - 2)).
  Definition detaching_features (nouns : dict str S) (features : list str) : dict str S * list str :=
    let removals := filter (detach_removed nouns features) (dkeys nouns) in
    (dfilter (fun w _ => negb (mem w removals)) nouns, removals).
  (** 55-70 *)
  Definition ignore_features (nouns : dict str S) (features : list str) : dict str S * list str :=
    let removals := filter (fun w => mem w features) (dkeys nouns) in
    (dfilter (fun w _ => negb (mem w removals)) nouns, removals).
End Post.
(** 72-103; [josaset] and [suffixset] are read from the files frequent_enrolled_josa.txt and frequent_noun_suffix.txt *)
Definition is_nj (josa suffix : list str) (nouns : dict str (Q * Q)) (o : dict str (dict str Z)) (min_num : Z) (word : str) (score : Q * Q) : bool :=
  negb (length word <=? 2)%nat &&
  existsb (fun i => let l := firstn i word in let r := skipn i word in
      match dget nouns l with
      | None => false
      | Some sl =>
        mem r josa && negb (mem r suffix) && negb (Qle_bool (fst sl) (fst score)) &&
        (min_num <=? Z.of_nat (length (filter (fun r => mem r josa) (dkeys (match dget o l with Some x => x | None => [] end)))))
      end) (seq 2 (length word - 2)).
Definition check_N_is_NJ (josa suffix : list str) (nouns : dict str (Q * Q)) (o : dict str (dict str Z)) (min_num : Z) : dict str (Q * Q) * list str :=
  let removals := map fst (filter (fun p => is_nj josa suffix nouns o min_num (fst p) (snd p)) nouns) in
  (dfilter (fun w _ => negb (mem w removals)) nouns, removals).

(** ** extraction *)
(** _noun_ver2.py:567-593, one method name. [lrgraph._lr_origin] of a frozen graph is None: AttributeError, but only if some split
    passes the tests before it, which is not decided here (the graph of an extractor is not frozen). *)
Definition post_step (josa suffix : list str) (c : nconf) (g : lrg) (nouns : dict str (Q * Q)) (method : str) : dict str (Q * Q) :=
  if eqb method (u "detaching_features") then fst (detaching_features nouns (pos_f c))
  else if eqb method (u "ignore_features") then fst (ignore_features nouns (pos_f c ++ common_f c))
  else if eqb method (u "ignore_NJ") then fst (check_N_is_NJ josa suffix nouns (match origin g with Some o => o | None => [] end) 5)
  else nouns.
Definition post_processing (josa suffix : list str) (c : nconf) (g : lrg) (methods : list str) (nouns : dict str (Q * Q)) : dict str (Q * Q) :=
  fold_left (post_step josa suffix c g) methods nouns.

(** _noun_ver2.py:597-626; [covered] is self._num_of_covered_eojeols *)
Definition cover_row (c : nconf) (word : str) (st : lrg * Z) (rc : str * Z) : lrg * Z :=
  let r := fst rc in
  if (1 <? length word)%nat || (eqb r [] || mem r (pos_f c) || mem r (common_f c))
  then (remove_eojeol (fst st) (word ++ r) (snd rc), snd st + snd rc) else st.
Definition cover_step {S} (c : nconf) (nouns : dict str S) (st : lrg * Z) (word : str) : lrg * Z :=
  if dmem nouns word then fold_left (cover_row c word) (get_r (fst st) word (-1)) st else st.
Definition check_covered {S} (c : nconf) (g : lrg) (nouns : dict str S) (covered : Z) : lrg * Z :=
  let g := reset_lrgraph g in
  fold_left (cover_step c nouns) (sort_len (dkeys (noun_candidates c g None))) (g, covered).

(** what an extraction leaves in the extractor: features, graph, number of covered eojeols *)
Record nstate := mkN { n_conf : nconf; n_graph : lrg; n_covered : Z }.
(** _noun_ver2.py:204-241 as called by extract (min_noun_score 0.3). [dom] stands for soynlp.noun._josa.extract_domain_pos_features
    with the default thresholds, applied to the prediction scores, the graph and the known features (modelled in JosaModel.v). *)
Definition extend_pos_features (dom : dict str (Z * Q) -> lrg -> list str -> list str) (c : nconf) (g : lrg) (cands : list str) : nconf * lrg :=
  let (g1, scores) := batch_predict c g cands (3 # 10) in
  let g2 := reset_lrgraph g1 in
  match append_features c (u "pos") (dom scores g2 (pos_f c)) with Ok c' => (c', g2) | Err _ => (c, g2) end.
(** _noun_ver2.py:243-304 *)
Definition noun_extract (josa suffix : list str) (dom : dict str (Z * Q) -> lrg -> list str -> list str) (methods : list str)
    (extract_compound extract_pos_feature : bool) (c : nconf) (g : lrg) (ms : Q) (min_freq : Q) (reset : bool) : res (nstate * dict str (Q * Q)) :=
  let cands := dkeys (noun_candidates c g None) in
  let (c, g) := if extract_pos_feature then extend_pos_features dom c g cands else (c, g) in
  let (g, scores) := batch_predict c g cands ms in
  do gc <- (if extract_compound then do r <- extract_compounds (pos_f c) g scores ms; Ok (c_graph (fst r), snd r) else Ok (g, []));
  let (g, compounds) := gc in
  let single := map (fun p => (fst p, (inject_Z (fst (snd p)), snd (snd p)))) (filter (fun p => Qle_bool ms (snd (snd p))) scores) in
  let nouns := fold_left (fun d p => dset d (fst p) (snd p)) compounds single in
  let nouns := dfilter (fun _ s => Qle_bool min_freq (fst s)) nouns in
  let nouns := post_processing josa suffix c g methods nouns in
  let (g, covered) := check_covered c g nouns 0 in
  let g := if reset then reset_lrgraph g else g in
  Ok (mkN c g covered, nouns).

(** _noun_ver2.py:178-199: training. [num_of_eojeols] is used for messages only. A graph is stored as it is (no copy). *)
Definition train_counter (ec : ecounter) (max_left max_right : Z) : res lrg := to_lrgraph ec max_left max_right false.
(** _noun_ver2.py:156-176; [ensure_normalized=True] selects the normalizing preprocessing, False the identity *)
Definition train_sents (normalize : str -> str) (ensure_normalized : bool) (sents : list str) (min_eojeol : Z) (checkpoint : Z) (max_left max_right : Z) : res lrg :=
  do ec <- ec_new (if ensure_normalized then normalize else fun x => x) min_eojeol (max_left + max_right) checkpoint (Some sents);
  train_counter ec max_left max_right.
