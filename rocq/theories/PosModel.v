(** * Model of soynlp/pos: _adverb.py, _news_pos.py (NewsPOSExtractor.extract), _chat_pos.py (ChatPOSExtractor.extract)
    Sets and lists of analyses are lists; printing is not modelled. *)
From Coq Require Import QArith.
From Verif Require Import PyBase PyDict PyText PyFile CountLemmas HangleModel TokenizerModel UtilsModel NounModel LemmaModel PredModel.
Open Scope Z_scope.

(** ** _adverb.py *)
(** 3-8, given the contents of the file *)
Definition load_adverbs (content : str) : res (list str) :=
  mapM (fun line => match split (strip line) with [] => Err IndexError | w :: _ => Ok w end) (file_lines content).
(** 10-15, for a list of stems; the suffixes are those of the caller or 히 *)
Definition stem_to_adverb (stems suffixs : list str) : res (list str) :=
  do ls <- mapM (fun stem => mapM (fun suffix => do c <- at_last stem; Ok (if N.eqb c "하"%ch then [removelast stem ++ suffix] else [])) suffixs) stems;
  Ok (concat (concat ls)).
Definition default_suffixs : list str := [u "히"].

(** ** the extractor: what train leaves in it *)
Record posx := mkX { x_nouns : list str; x_adj : dict str predicator; x_verb : dict str predicator; x_adjs : list str; x_verbs : list str;
                     x_eomis : list str; x_josas : list str; x_adv : list str; x_eoj : dict str Z }.
Notation counter := (dict str Z).
(** _news_pos.py:190-195 *)
Definition separate_lr (lset rset : str -> bool) (begin : nat) (word : str) : option (str * str) :=
  match filter (fun i => lset (firstn i word) && rset (skipn i word)) (seq begin (length word - begin)) with
  | [] => None
  | i :: _ => Some (firstn i word, skipn i word)
  end.
(** 197-200 *)
Definition cumulate (c : counter) (wcs : list (str * Z)) : counter := fold_left (fun c wc => dset c (fst wc) (dgetd c (fst wc) 0 + snd wc)) wcs c.
(** 202-203 *)
Definition unrecognized (eojeols : counter) (removed : str -> bool) : counter := dfilter (fun w _ => negb (removed w)) eojeols.
(** 205-218: [range(len(word) + 1, 0, -1)] *)
Fixpoint lemmatize_at (stems eomis : list str) (word : str) (is : list nat) : option (list (str * str)) :=
  match is with
  | [] => None
  | i :: is' =>
    match lemma_candidate [] (firstn i word) (skipn i word) with
    | Err _ => lemmatize_at stems eomis word is'
    | Ok lemmas => match filter (fun se : str * str => mem (fst se) stems && mem (snd se) eomis) lemmas with
                   | [] => lemmatize_at stems eomis word is'
                   | known => Some known
                   end
    end
  end.
Definition pos_lemmatize (stems eomis : list str) (word : str) : option (list (str * str)) := lemmatize_at stems eomis word (rev (seq 1 (length word + 1))).

(** 221-229; _chat_pos.py:102-113 *)
Definition check_suffix_prefix (chat : bool) (stem eomi : str) : res bool :=
  do c <- at_last stem;
  if chat && mem c (u "업닿땋") then Ok false else
  do e <- match eomi with [] => Err IndexError | e :: _ => Ok e end;
  let r := decompose e in
  match decompose c with
  | None => Err TypeError
  | Some (_, l1, l2) =>
    do hit <- (if mem l2 (u "ㄹㅂ") then match r with None => Err TypeError | Some (r0, _, _) => Ok (mem r0 (u "ㄴㄹㅁㅂ")) end else Ok false);
    if hit then Ok false else
    if N.eqb l1 "ㅡ"%ch && N.eqb l2 " "%ch then match r with None => Err TypeError | Some (r0, r1, _) => Ok (negb (N.eqb r0 "ㅇ"%ch && mem r1 (u "ㅓㅏ"))) end else Ok true
  end.
Fixpoint filterM {A} (f : A -> res bool) (l : list A) : res (list A) :=
  match l with [] => Ok [] | x :: l' => do b <- f x; do r <- filterM f l'; Ok (if b then x :: r else r) end.
(** max of the lengths of the stems *)
Definition max_stem (lemmas : list (str * str)) : res nat := match lemmas with [] => Err ValueError | _ => Ok (list_max (map (fun se : str * str => length (fst se)) lemmas)) end.
(** 234-245; _chat_pos.py:118-132: the analyses of a compound, None when the loop goes on *)
Definition compound_lemmas (chat : bool) (predicators : list str) (base : dict str predicator) (known_stems : list str) (word : str) : res (option (list (str * str))) :=
  match separate_lr (fun l => mem l predicators) (dmem base) 2 word with
  | None => Ok None
  | Some (l, r) =>
    let lemmas := match dget base r with Some p => map (fun se : str * str => (l ++ fst se, snd se)) (snd p) | None => [] end in
    do lemmas <- filterM (fun se => check_suffix_prefix chat (fst se) (snd se)) lemmas;
    let lemmas := filter (fun se : str * str => negb (mem (fst se) known_stems)) lemmas in
    do lemmas <- (match dget base word with
                  | Some p => if chat then do n <- max_stem (snd p); Ok (filter (fun se : str * str => (n <? length (fst se))%nat) lemmas) else Ok lemmas
                  | None => Ok lemmas
                  end);
    Ok (match lemmas with [] => None | _ => Some lemmas end)
  end.
Definition compounds_of (chat : bool) (eojeols : counter) (predicators : list str) (base : dict str predicator) (known_stems : list str) : res (dict str predicator) :=
  do ls <- mapM (fun wc : str * Z => do o <- compound_lemmas chat predicators base known_stems (fst wc); Ok (match o with Some ls => [(fst wc, (snd wc, ls))] | None => [] end)) eojeols;
  Ok (concat ls).
Definition stems_of (d : dict str predicator) : list str := concat (map (fun wp : str * predicator => map fst (snd (snd wp))) d).

(** ** _chat_pos.py: the repairs of the chat extractor *)
(** 144-159: the table of stems and endings, one count for each predicator *)
Definition stem_graph (compounds : dict str predicator) : graph :=
  fold_left (fun g (wp : str * predicator) => fold_left (fun g (se : str * str) => inc2 g (fst se) (snd se) (fst (snd wp))) (snd (snd wp)) g) compounds [].
Definition jaum_begin_prop (row : dict str Z) : Q :=
  let n := Zsum (fun rc : str * Z => match fst rc with [] => 0 | x :: _ => if mem x jaum_list then snd rc else 0 end) row in
  let sum_ := Zsum snd row in if sum_ =? 0 then 0%Q else (inject_Z n / inject_Z sum_)%Q.
Definition find_wrong_stem (compounds : dict str predicator) : list str :=
  map fst (filter (fun sr : str * dict str Z => Qle_bool (9 # 10) (jaum_begin_prop (snd sr))) (stem_graph compounds)).
(** 161-174 *)
Definition find_wrong_eomi (predicators compounds : dict str predicator) : list str :=
  let add := fun (sel : bool) (k : Z) (c : counter) => fold_left (fun c (wp : str * predicator) => if Bool.eqb (dmem compounds (fst wp)) sel then fold_left (fun c (se : str * str) => dset c (snd se) (dgetd c (snd se) 0 + k)) (snd (snd wp)) c else c) predicators c in
  map fst (filter (fun ec : str * Z => 0 <? snd ec) (add false (-1) (add true 1 []))).
(** 176-185 *)
Definition delete_wrong (predicators : dict str predicator) (wrong : list str) : dict str predicator :=
  concat (map (fun wp : str * predicator => match filter (fun se : str * str => negb (mem (fst se) wrong)) (snd (snd wp)) with [] => [] | ls => [(fst wp, (fst (snd wp), ls))] end) predicators).
(** 187-196 *)
Definition find_noun_phrase (nouns josas adjectives verbs : counter) : counter :=
  dfilter (fun noun _ => (2 <? length noun)%nat && existsb (fun i => let r := skipn i noun in dmem josas r || dmem adjectives r || dmem verbs r) (seq 1 (length noun - 1))) nouns.

(** _news_pos.py:220-249; _chat_pos.py:101-142, where the new stems are always none (line 140) *)
Definition parse_compounds (chat : bool) (eojeols : counter) (predicators : list str) (base : dict str predicator) (known_stems : list str) : res (dict str predicator * list str * counter) :=
  do cs <- compounds_of chat eojeols predicators base known_stems;
  let count := map (fun wp : str * predicator => (fst wp, fst (snd wp))) in
  Ok (if chat then let wrong := find_wrong_stem cs in let cs' := delete_wrong cs wrong in (cs', filter (fun s => negb (mem s wrong)) wrong, dfilter (fun w _ => dmem cs' w) (count cs))
      else (cs, stems_of cs, count cs)).

(** dict.update *)
Definition dupdate {V} (d e : dict str V) : dict str V := fold_left (fun d kv => dset d (fst kv) (snd kv)) e d.

(** 251-263 *)
Definition match_word (x : posx) : counter * (counter * counter * counter * counter) :=
  let sel := fun (m : str -> bool) => dfilter (fun w (_ : Z) => m w) (x_eoj x) in
  let nouns := sel (fun w => mem w (x_nouns x)) in let adjectives := sel (dmem (x_adj x)) in let verbs := sel (dmem (x_verb x)) in let adverbs := sel (fun w => mem w (x_adv x)) in
  (fold_left (fun e (rm : counter) => unrecognized e (dmem rm)) [nouns; adjectives; verbs; adverbs] (x_eoj x), (nouns, adjectives, verbs, adverbs)).
(** 269-275 *)
Definition match_process (eojeols nouns : counter) (rset : str -> bool) (rcounter : counter) (removals : list str) : counter * counter * list str :=
  let noun_r := concat (map (fun wc : str * Z => match separate_lr (dmem nouns) rset 2 (fst wc) with Some lr => [(lr, snd wc)] | None => [] end) eojeols) in
  (cumulate nouns (map (fun p : (str * str) * Z => (fst (fst p), snd p)) noun_r), cumulate rcounter (map (fun p : (str * str) * Z => (snd (fst p), snd p)) noun_r),
   removals ++ map (fun p : (str * str) * Z => fst (fst p) ++ snd (fst p)) noun_r).
(** 265-282 *)
Definition match_noun_and_word (eojeols nouns adjectives verbs : counter) (josas : list str) : counter * (counter * counter * counter * counter) :=
  let '(nouns, jc, rm) := match_process eojeols nouns (fun r => mem r josas) [] [] in
  let '(nouns, adjectives, rm) := match_process eojeols nouns (dmem adjectives) adjectives rm in
  let '(nouns, verbs, rm) := match_process eojeols nouns (dmem verbs) verbs rm in
  (unrecognized eojeols (fun w => mem w rm), (nouns, adjectives, verbs, jc)).
(** 284-315; _chat_pos.py:63-99 *)
Definition match_predicator_compounds (chat : bool) (x : posx) (eojeols adjectives verbs : counter) : res (posx * counter * counter * counter) :=
  let predicators := dkeys (x_adj x) ++ dkeys (x_verb x) in
  do a <- parse_compounds chat eojeols predicators (x_adj x) (x_verbs x ++ x_adjs x);
  let '(ca, sa, na) := a in
  let adj := dupdate (x_adj x) ca in let adjs := x_adjs x ++ sa in
  do v <- parse_compounds chat eojeols predicators (x_verb x) (x_verbs x ++ adjs);
  let '(cv, sv, nv) := v in
  let verb := dupdate (x_verb x) cv in let verbs_s := x_verbs x ++ sv in
  let adjectives := cumulate adjectives na in let verbs := cumulate verbs nv in
  let eomis := if chat then let wrong := find_wrong_eomi adj ca ++ find_wrong_eomi verb cv in filter (fun e => negb (mem e wrong)) (x_eomis x) else x_eomis x in
  Ok (mkX (x_nouns x) adj verb adjs verbs_s eomis (x_josas x) (x_adv x) (x_eoj x), unrecognized eojeols (fun w => dmem adjectives w || dmem verbs w), adjectives, verbs).
(** 317-346 *)
Definition lemmatize_eojeols (eojeols : counter) (stems eomis : list str) : dict str predicator :=
  concat (map (fun wc : str * Z => match pos_lemmatize stems eomis (fst wc) with Some ls => [(fst wc, (snd wc, ls))] | None => [] end) eojeols).
Definition lemmatizing_predicators (x : posx) (eojeols adjectives verbs : counter) : posx * counter * counter * counter :=
  let na := lemmatize_eojeols eojeols (x_adjs x) (x_eomis x) in let ca := dfilter (fun w _ => dmem na w) eojeols in
  let nv := lemmatize_eojeols eojeols (x_verbs x) (x_eomis x) in let cv := dfilter (fun w _ => dmem nv w) eojeols in
  (mkX (x_nouns x) (dupdate (x_adj x) na) (dupdate (x_verb x) nv) (x_adjs x) (x_verbs x) (x_eomis x) (x_josas x) (x_adv x) (x_eoj x),
   unrecognized (unrecognized eojeols (dmem ca)) (dmem cv), cumulate adjectives ca, cumulate verbs cv).
(** 349-356 *)
Definition syllable_noun_and_r (eojeols : counter) (st : counter * counter * list str) : counter * counter * list str :=
  fold_left (fun st (wc : str * Z) => let '(nouns, rc, rm) := st in let l := firstn 1 (fst wc) in let r := skipn 1 (fst wc) in
    if dmem rc r then (cumulate nouns [(l, snd wc)], cumulate rc [(r, snd wc)], rm ++ [fst wc]) else st) eojeols st.
(** 348-367 *)
Definition match_syllable_noun_and_r (eojeols nouns adjectives verbs josas : counter) : counter * (counter * counter * counter * counter) :=
  let '(nouns, adjectives, rm) := syllable_noun_and_r eojeols (nouns, adjectives, []) in
  let '(nouns, verbs, rm) := syllable_noun_and_r eojeols (nouns, verbs, rm) in
  let '(nouns, josas, rm) := syllable_noun_and_r eojeols (nouns, josas, rm) in
  (unrecognized eojeols (fun w => mem w rm), (nouns, adjectives, verbs, josas)).
(** 369-372 *)
Definition remove_irregular (x : posx) (eojeols : counter) : counter := unrecognized eojeols (fun w => mem w (x_josas x) || mem w (x_eomis x) || (length w =? 1)%nat).
(** 408-419 *)
Definition parse_compound (suffix : str -> bool) (tokens : list tok) : option str :=
  let init := removelast tokens in
  if existsb (fun t => Qle_bool (tsc t) 0) init then None else
  match rev tokens with
  | [] => None
  | t :: _ => if (3 <=? length tokens)%nat && suffix (tw t) then Some (concat (map tw init)) else
              if negb (Qle_bool (tsc t) 0) then Some (concat (map tw tokens)) else None
  end.
(** 421-432, 374-387; MaxScoreTokenizer with its default max_length 10 and default score 0 *)
Definition first_tokens (nouns : counter) (word : str) : res (list tok) :=
  do ts <- ms_tokenize (map (fun n => (n, 1%Q)) (filter (fun n => (1 <? length n)%nat) (dkeys nouns))) 0%Q 10 word;
  match ts with [] => Err IndexError | t :: _ => Ok t end.
Definition match_compound_nouns (eojeols nouns adjectives verbs josas : counter) : res (counter * counter) :=
  let suffix := fun w => dmem nouns w || dmem adjectives w || dmem verbs w || dmem josas w in
  do found <- mapM (fun wc : str * Z => do ts <- first_tokens nouns (fst wc); Ok (wc, parse_compound suffix ts)) eojeols;
  let hits := concat (map (fun p : (str * Z) * option str => match snd p with Some n => [(fst (fst p), (n, snd (fst p)))] | None => [] end) found) in
  let compounds := cumulate [] (map snd hits) in
  Ok (unrecognized eojeols (fun w => mem w (map fst hits)), cumulate nouns compounds).

(** 177-185: the lemma of a word without an entry is recomputed, and may be None *)
Definition as_predicator (count : counter) (lemma_dict : dict str predicator) (stems eomis : list str) : dict str (Z * option (list (str * str))) :=
  map (fun wc : str * Z => (fst wc, (snd wc, match dget lemma_dict (fst wc) with Some p => Some (snd p) | None => pos_lemmatize stems eomis (fst wc) end))) count.

(** the result of extract: Noun, Adjective, Verb, Adverb, Irrecognizable, ConfusedNouns; Eomi, Josa and the stems are those of the extractor. The counts of the josas are not reported. *)
Record postags := mkTags { g_noun : counter; g_adj : dict str (Z * option (list (str * str))); g_verb : dict str (Z * option (list (str * str))); g_adv : counter;
                           g_unknown : counter; g_confused : counter; g_josa : counter }.
(** 142-175 and 71-93; _chat_pos.py:23-61 with the josas read from its file. Returns the changed extractor and the tables. *)
Definition pos_extract (chat : option (list str)) (x : posx) : res (posx * postags) :=
  let is_chat := match chat with Some _ => true | None => false end in
  let x := match chat with Some josas => mkX (x_nouns x) (x_adj x) (x_verb x) (x_adjs x) (x_verbs x) (x_eomis x) josas (x_adv x) (x_eoj x) | None => x end in
  let '(e, (nouns, adjectives, verbs, adverbs)) := match_word x in
  let '(e, (nouns, adjectives, verbs, josas)) := match_noun_and_word e nouns adjectives verbs (x_josas x) in
  do s3 <- match_predicator_compounds is_chat x e adjectives verbs;
  let '(x, e, adjectives, verbs) := s3 in
  let '(x, e, adjectives, verbs) := lemmatizing_predicators x e adjectives verbs in
  let '(e, (nouns, adjectives, verbs, josas)) := match_syllable_noun_and_r e nouns adjectives verbs josas in
  let e := remove_irregular x e in
  do s7 <- (if is_chat then Ok (e, nouns) else match_compound_nouns e nouns adjectives verbs josas);
  let '(e, nouns) := s7 in
  let confused := dfilter (fun w _ => dmem adjectives w || dmem verbs w || dmem adverbs w) nouns in
  let confused := if is_chat then dupdate confused (find_noun_phrase nouns josas adjectives verbs) else confused in
  Ok (x, mkTags (unrecognized nouns (dmem confused)) (as_predicator adjectives (x_adj x) (x_adjs x) (x_eomis x)) (as_predicator verbs (x_verb x) (x_verbs x) (x_eomis x))
               adverbs e confused josas).
