(** * Model of soynlp/predicator/: _eomi.py, _stem.py, _adjective_vs_verb.py, _predicator.py
    A Python set is the list of its elements without duplicates in the order of iteration. Scores (floats) are rationals, entropies real
    numbers. Verbose output and log files are not modelled; the percentages of the messages are in VerboseModel.v, the sharing of the caller's set and counter objects in ShareModel.v. *)
From Coq Require Import QArith Reals.
From Verif Require Import PyBase PyDict PySort PyText PyFile CountLemmas HangleModel LemmaModel UtilsModel WordModel NounModel JosaModel.
Open Scope Z_scope.

Definition dedup (l : list str) : list str := setupdate [] l.

(** ** class EomiExtractor, _eomi.py:9-242 *)
(** _eomi.py:42: [{l for stem in self._stems for l in _conjugate_stem(stem)}] *)
Definition stem_surfaces_of (stems : list str) : res (list str) := do ls <- mapM conjugate_stem stems; Ok (dedup (concat ls)).
(** _eomi.py:131-135 *)
Definition eomi_longer (surf : list str) (l r : str) : bool := existsb (fun i => mem (l ++ firstn i r) surf) (seq 1 (length r)).
(** _eomi.py:137-138: [l\[0\]] of the empty string raises *)
Definition noun_verb (surf nouns : list str) (l : str) : res bool :=
  match l with [] => Err IndexError | x :: t => Ok (mem [x] nouns && mem t surf) end.
(** _eomi.py:140-144 *)
Definition stem_at_last (surf : list str) (l : str) : bool := existsb (fun i => mem (skipn (length l - i) l) surf) (seq 1 (length l - 1)).
(** _eomi.py:111-129 *)
Definition eomi_step (surf nouns : list str) (r : str) (a : Z * Z * Z) (lf : str * Z) : res (Z * Z * Z) :=
  let '(pos, neg, unk) := a in let l := fst lf in let freq := snd lf in
  if mem (l ++ r) nouns then Ok a else
  if eomi_longer surf l r then Ok a else
  if mem l surf then Ok (pos + freq, neg, unk) else
  do nv <- noun_verb surf nouns l;
  if nv then Ok (pos + freq, neg, unk) else
  if stem_at_last surf l then Ok (pos, neg, unk + freq) else Ok (pos, neg + freq, unk).
Definition eomi_predict3 (surf nouns : list str) (r : str) (features : list (str * Z)) : res (Z * Z * Z) :=
  foldM (eomi_step surf nouns r) features (0, 0, 0).
(** _eomi.py:146-148 *)
Definition eomi_refine (surf : list str) (r : str) (features : list (str * Z)) : list (str * Z) :=
  filter (fun lc => mem (fst lc) surf && negb (eomi_longer surf (fst lc) r)) features.
(** _eomi.py:87-109 *)
Definition eomi_predict (surf nouns : list str) (features : list (str * Z)) (r : str) (min_score : Q) (min_nf : Z) : res (Z * Q) :=
  do p <- eomi_predict3 surf nouns r features;
  let '(pos, neg, unk) := p in
  let base := pos + neg in
  let score := if base =? 0 then 0%Q else qdiv (pos - neg) base in
  let support := if Qle_bool min_score score then pos + unk else neg + unk in
  Ok (if min_nf <=? Z.of_nat (length (eomi_refine surf r features)) then (support, score) else (0, 0%Q)).
(** _eomi.py:150-171; the condition is a suffix of R *)
Definition eomi_candidates (surf : list str) (g : lrg) (condition : option str) : dict str Z :=
  fold_left (fun d l => fold_left (fun d rc =>
      let r := fst rc in
      let ok := match condition with None => true | Some [] => true | Some p => eqb (skipn (length r - length p) r) p end in
      if ok then dset d r (dgetd d r 0 + snd rc) else d) (get_r g l (-1)) d) surf [].
(** _eomi.py:193-197: remove the eojeols of an accepted ending *)
Definition eomi_remove (surf nouns : list str) (r : str) (g : lrg) (lc : str * Z) : res lrg :=
  do b <- (if mem (fst lc) surf then Ok true else noun_verb surf nouns (fst lc));
  Ok (if b then remove_eojeol g (fst lc ++ r) (snd lc) else g).
(** _eomi.py:179-197: one candidate *)
Definition eomi_batch_step (surf nouns : list str) (ms : Q) (mnf : Z) (st : lrg * dict str (Z * Q)) (r : str) : res (lrg * dict str (Z * Q)) :=
  let g := fst st in
  do p <- eomi_predict surf nouns (get_l g r (-1)) r ms mnf;
  do g' <- (if Qle_bool ms (snd p) then foldM (eomi_remove surf nouns r) (get_l g r (-1)) g else Ok g);
  Ok (g', dset (snd st) r p).
(** _eomi.py:173-205 *)
Definition eomi_batch (surf nouns : list str) (ms : Q) (mnf : Z) (g : lrg) (cands : list str) : res (lrg * dict str (Z * Q)) :=
  do st <- foldM (eomi_batch_step surf nouns ms mnf) (sort_len cands) (g, []);
  Ok (reset_lrgraph (fst st), snd st).
(** _eomi.py:209-210: ZeroDivisionError when the frequencies add up to zero *)
Definition merge_score (f0 s0 f1 s1 : Q) : option (Q * Q) :=
  if Qeq_bool (f0 + f1) 0 then None else Some ((f0 + f1)%Q, ((s0 * f0 + s1 * f1) / (f0 + f1))%Q).
(** _eomi.py:217-226: the candidates of one word; an exception ends the loop over them *)
Fixpoint eomi_merge (stems : list str) (count score : Q) (cands : list (str * str)) (d : dict str (Q * Q)) : dict str (Q * Q) :=
  match cands with
  | [] => d
  | (s, e) :: cs =>
    if mem s stems then
      let old := dgetd d e (0%Q, 0%Q) in
      match merge_score count score (fst old) (snd old) with
      | None => d
      | Some v => eomi_merge stems count score cs (dset d e v)
      end
    else eomi_merge stems count score cs d
  end.
(** _eomi.py:207-228 *)
Definition eomi_lemmatize (stems : list str) (g : lrg) (eomis : dict str (Z * Q)) : dict str (Q * Q) :=
  fold_left (fun d es => fold_left (fun d lc =>
      match lemma_candidate [] (fst lc) (fst es) with
      | Err _ => d
      | Ok cs => eomi_merge stems (inject_Z (snd lc)) (snd (snd es)) cs d
      end) (get_l g (fst es) (-1)) d) eomis [].
(** _eomi.py:35-85: the graph left behind and the endings with (frequency, score) *)
Definition eomi_extract (stems nouns : list str) (mnf : Z) (g : lrg) (condition : option str) (ms : Q) (min_freq : Z) (reset : bool) : res (lrg * dict str (Q * Q)) :=
  do surf <- stem_surfaces_of stems;
  do st <- eomi_batch surf nouns ms mnf g (dkeys (eomi_candidates surf g condition));
  let surfaces := dfilter (fun _ p => Qle_bool ms (snd p)) (snd st) in
  let g := reset_lrgraph (fst st) in
  let lemmas := dfilter (fun _ p => Qle_bool (inject_Z min_freq) (fst p) && Qle_bool ms (snd p)) (eomi_lemmatize stems g surfaces) in
  Ok ((if reset then reset_lrgraph g else g), lemmas).

(** ** class StemExtractor, _stem.py *)
Record sconf := mkSconf { st_L : list str; st_R : list str; st_eomis : list str; st_min_char : Z; st_min_entropy : R }.
(** _stem.py:21-25 *)
Definition stem_josa : list str := Eval vm_compute in
  map u ["거나"; "게"; "게는"; "게도"; "고"; "고도"; "고만"; "는"; "다"; "다가"; "서는"; "아"; "은"]%string.
(** _stem.py:52-61: the words of one stem and ending that occur; exceptions of [conjugate] are dropped *)
Definition conj_words (counter : str -> Z) (stem eomi : str) : list (str * str) :=
  match conjugate stem eomi false with
  | Err _ => []
  | Ok ws => map (fun w => (firstn (length stem) w, skipn (length stem) w))
               (filter (fun w => negb (counter w =? 0) && negb (length w <=? length stem)%nat) ws)
  end.
(** _stem.py:36-69 *)
Definition stem_tables (g : lrg) (stems eomis : list str) : list str * list str :=
  let counter := fun w => dgetd (flat_counter (lr g)) w 0 in
  let lrs := concat (map (fun s => concat (map (conj_words counter s) eomis)) stems) in
  (dedup (map fst lrs), dedup (map snd lrs)).
Definition stem_new (g : lrg) (stems eomis : list str) (min_char : Z) (min_entropy : R) : sconf :=
  let t := stem_tables g stems eomis in mkSconf (fst t) (snd t) eomis min_char min_entropy.
(** _stem.py:207-212 *)
Definition r_is_predicator (c : sconf) (r : str) : bool := existsb (fun i => mem (firstn i r) (st_L c) && mem (skipn i r) (st_R c)) (seq 1 (length r - 1)).
(** _stem.py:214-218 *)
Definition exist_longer_eomi (c : sconf) (l r : str) : bool := existsb (fun i => mem (skipn (length l - i) l ++ r) (st_R c)) (seq 1 (length l)).
(** _stem.py:168-183 *)
Definition stem_step (c : sconf) (l : str) (a : Z * Z * Z) (rf : str * Z) : Z * Z * Z :=
  let '(pos, neg, unk) := a in let r := fst rf in let freq := snd rf in
  if mem r stem_josa then a else
  match r with
  | [] => (pos, neg + freq, unk)
  | _ => if mem r (st_R c) then (pos + freq, neg, unk) else
         if r_is_predicator c r then (pos, neg + freq, unk) else
         if exist_longer_eomi c l r then (pos, neg + freq, unk) else (pos, neg, unk + freq)
  end.
Definition stem_predict3 (c : sconf) (l : str) (features : list (str * Z)) : Z * Z * Z := fold_left (stem_step c l) features (0, 0, 0).
(** _stem.py:185-190: the number of different first characters *)
Definition first_char_counts (features : list (str * Z)) : dict N Z :=
  fold_left (fun d rc => match fst rc with [] => d | x :: _ => dincr d x (snd rc) end) features [].
(** _stem.py:192-198 *)
Definition stem_entropy (cs : list Z) : res R := match cs with [] | [_] => Ok 0%R | _ => josa_entropy cs end.
(** _stem.py:200-205 *)
Definition select_pos (c : sconf) (l : str) (features : list (str * Z)) : list (str * Z) :=
  filter (fun rc => let r := fst rc in
    if mem r stem_josa || r_is_predicator c r || exist_longer_eomi c l r then false else mem r (st_R c)) features.
(** _stem.py:140-166 *)
Definition stem_predict (c : sconf) (features : list (str * Z)) (l : str) (min_score : Q) (min_freq : Z) : res (Q * Z) :=
  do e <- stem_entropy (map snd (select_pos c l features));
  let '(pos, neg, unk) := stem_predict3 c l features in
  let score := if pos + neg >? 0 then qdiv (pos - neg) (pos + neg) else 0%Q in
  let freq := if Qle_bool min_score score then pos else neg + unk in
  Ok (if (Z.of_nat (length (first_char_counts features)) <? st_min_char c) || (if Rlt_dec e (st_min_entropy c) then true else false) then (0%Q, 0)
      else if freq <? min_freq then (0%Q, freq) else (score, freq)).
(** _stem.py:77-86 *)
Definition stem_candidates (c : sconf) (g : lrg) (ignore : list str) (min_freq : Z) : dict str Z :=
  dfilter (fun _ n => n >=? min_freq)
    (fold_left (fun d r => fold_left (fun d lc =>
       if mem (fst lc) (st_L c) || mem (fst lc) ignore then d else dset d (fst lc) (dgetd d (fst lc) 0 + snd lc)) (get_l g r (-1)) d) (st_R c) []).
(** _stem.py:108-133: one candidate; the known L are kept apart (135-136 drops them) *)
Definition stem_batch_step (c : sconf) (g : lrg) (ms : Q) (mf : Z) (d : dict str (Q * Z)) (l : str) : res (dict str (Q * Z)) :=
  if mem l (st_L c) || mem l (st_R c) || (length l =? 1)%nat then Ok d else
  do x <- at_last l;
  if N.eqb x "다"%ch || dmem d l then Ok d else
  do p <- stem_predict c (get_r g l (-1)) l ms mf;
  Ok (if negb (Qle_bool ms (fst p)) || (snd p <? mf) then d else dset d l p).
Definition stem_batch (c : sconf) (g : lrg) (ms : Q) (mf : Z) (cands : list str) : res (dict str (Q * Z)) :=
  foldM (stem_batch_step c g ms mf) (sort_len cands) [].
(** _stem.py:221-245 *)
Definition is_stem_eomi (c : sconf) (ex : dict str (Q * Z)) (l : str) : bool :=
  existsb (fun i => (mem (firstn i l) (st_L c) || dmem ex (firstn i l)) && existsb (fun j => mem (slice i j l) (st_R c)) (seq (i + 1) (length l - i))) (seq 1 (length l - 1)).
Definition exist_subword (ex : dict str (Q * Z)) (l : str) : bool := existsb (fun i => dmem ex (firstn i l)) (seq 2 (length l - 2)).
Definition stem_post (c : sconf) (ex : dict str (Q * Z)) : dict str (Q * Z) * list str :=
  let removals := filter (fun l => is_stem_eomi c ex l || exist_subword ex l) (sort (fun x y : str => (length x <=? length y)%nat) (dkeys ex)) in
  (dfilter (fun l _ => negb (mem l removals)) ex, removals).
(** _stem.py:247-264: the surface's (score, frequency) is unpacked as (freq0, score0); an ending that is known is skipped *)
Fixpoint stem_merge (eomis : list str) (f0 s0 : Q) (cands : list (str * str)) (d : dict str (Q * Q)) : dict str (Q * Q) :=
  match cands with
  | [] => d
  | (s, e) :: cs =>
    if mem e eomis then stem_merge eomis f0 s0 cs d else
    let old := dgetd d s (0%Q, 0%Q) in
    match merge_score f0 s0 (fst old) (snd old) with None => d | Some v => stem_merge eomis f0 s0 cs (dset d s v) end
  end.
Definition to_stem (c : sconf) (g : lrg) (surfaces : dict str (Q * Z)) : dict str (Q * Q) :=
  fold_left (fun d lp => fold_left (fun d rc =>
      match lemma_candidate [] (fst lp) (fst rc) with
      | Err _ => d
      | Ok cs => stem_merge (st_eomis c) (fst (snd lp)) (inject_Z (snd (snd lp))) cs d
      end) (get_r g (fst lp) (-1)) d) surfaces [].
(** _stem.py:71-106 *)
Definition stem_extract (c : sconf) (g : lrg) (ignore : list str) (ms : Q) (mf : Z) : res (dict str (Q * Q)) :=
  do ex <- stem_batch c g ms mf (dkeys (stem_candidates c g ignore mf));
  Ok (to_stem c g (fst (stem_post c ex))).

(** ** _adjective_vs_verb.py *)
(** 44-46 *)
Definition conj_all (stem : str) (eomis : list str) : res (list str) :=
  do ls <- mapM (fun e => conjugate stem e false) eomis; Ok (dedup (concat ls)).
(** 4-18 *)
Definition conjugate_as_present (stem : str) : res (list str) :=
  do c <- at_last stem; do t <- parts_of c;
  conj_all stem (if N.eqb (snd t) " "%ch then [u "ㄴ다"; u "ㄴ다고"; u "고있는"] else [u "는다"; u "는다고"; u "고있는"]).
(** 20-33 *)
Definition conjugate_as_imperative (stem : str) : res (list str) :=
  do c <- at_last stem; do t <- parts_of c;
  conj_all stem (if N.eqb (snd (fst t)) "ㅓ"%ch || N.eqb (snd (fst t)) "ㅕ"%ch then [u "어라"] else [u "아라"]).
(** 35-42 *)
Definition pleasure_eomis : list str := Eval vm_compute in map u ["자"; "ㄹ까"; "ㄹ까봐"; "까"; "까봐"; "을까"; "을까봐"]%string.
Definition conjugate_as_pleasure (stem : str) : res (list str) := conj_all stem pleasure_eomis.
(** 48-59: true is 'Verb', false 'Adjective' *)
Definition adj_suffixes : list str := Eval vm_compute in map u ["같"; "답"; "롭"; "만하"; "스럽"; "시럽"; "이"; "아니"]%string.
Definition verb_suffixes : list str := Eval vm_compute in map u ["거리"; "당하"; "당허"; "시키"]%string.
Definition rule_classify (stem : str) : res (option bool) :=
  do c <- at_last stem;
  let two := last_two stem in
  Ok (if mem [c] adj_suffixes || mem two adj_suffixes then Some false
      else if mem [c] verb_suffixes || mem two verb_suffixes then Some true else None).

(** ** class PredicatorExtractor, _predicator.py *)
(** namedtuple Predicator: frequency and the set of lemmas *)
Notation predicator := (Z * list (str * str))%type (only parsing).
Record pconf := mkPconf { p_josas : list str; p_adj : list str; p_verb : list str; p_stems : list str; p_eomis : list str; p_nouns : list str }.
(** 76-84, 91-100: a dictionary file with words and frequencies *)
Fixpoint load_frequent (ls : list str) (min_freq : Z) : res (list str) :=
  match ls with
  | [] => Ok []
  | line :: ls' =>
    match split line with
    | [w; n] => do f <- parse_int n; do r <- load_frequent ls' min_freq; Ok (if f <? min_freq then r else w :: r)
    | _ => Err ValueError
    end
  end.
(** 102-112: [stem\[:-1\]], [stem\[:-2\]] *)
Definition parse_noun (nouns : list str) (stem : str) : option str :=
  if mem (removelast stem) nouns then Some (removelast stem) else
  if mem (but_last_two stem) nouns then Some (but_last_two stem) else None.
Definition remove_stem_prefix (stems nouns : list str) : list str :=
  let removals := concat (map (fun s => match parse_noun nouns s with Some n => [n] | None => [] end) stems) in
  dedup (filter (fun n => negb (mem n removals)) nouns).
(** 38-67, with given or loaded dictionaries *)
Definition pred_new (nouns josas adj verb eomis : list str) : pconf :=
  let stems := dedup (adj ++ verb) in
  mkPconf josas adj verb stems eomis (remove_stem_prefix stems nouns).
(** 218-229: only eojeols that are frequent enough are kept *)
Definition train_eojeols (counter : dict str Z) (min_freq : Z) : dict str Z := dfilter (fun _ n => n >=? min_freq) counter.
(** 194-216: the minimal frequency given by the caller is applied while counting, then the default 2 again *)
Definition pred_train_sents (normalize : str -> str) (ensure_normalized : bool) (sents : list str) (min_freq : Z) : res (dict str Z) :=
  do ec <- ec_new (if ensure_normalized then fun x => x else normalize) min_freq 15 0 (Some sents);
  Ok (train_eojeols (ec_counter ec) 2).
(** 163-172 *)
Definition pred_train_counter (ec : ecounter) (min_freq : Z) : dict str Z := train_eojeols (ec_counter ec) min_freq.
Definition pred_train_graph (g : lrg) (min_freq : Z) : dict str Z := train_eojeols (flat_counter (lr g)) min_freq.
(** 249-262 *)
Definition contains_noun (nouns : list str) (e : str) : bool := existsb (fun i => mem (firstn i e) nouns) (seq 2 (length e - 1)).
Definition predicator_graph (c : pconf) (counter : dict str Z) : res lrg :=
  to_lrgraph (mkCounter (dfilter (fun e _ => (1 <? length e)%nat && negb (contains_noun (p_nouns c) e)) counter)) 10 9 false.
(** 264-287, 293-315: new endings and stems are added to the known ones *)
Definition add_eomis (c : pconf) (new : list str) : pconf := mkPconf (p_josas c) (p_adj c) (p_verb c) (p_stems c) (setupdate (p_eomis c) new) (p_nouns c).
Definition add_stems (c : pconf) (new : list str) : pconf := mkPconf (p_josas c) (p_adj c) (p_verb c) (setupdate (p_stems c) new) (p_eomis c) (p_nouns c).
Definition pred_extract_eomi (c : pconf) (g : lrg) (mnf : Z) (ms : Q) (mf : Z) : res pconf :=
  do r <- eomi_extract (p_stems c) (p_nouns c) mnf g None ms mf true; Ok (add_eomis c (dkeys (snd r))).
Definition pred_extract_stem (c : pconf) (g : lrg) (min_char : Z) (min_entropy : R) (ms : Q) (mf : Z) : res pconf :=
  do r <- stem_extract (stem_new g (p_stems c) (p_eomis c) min_char min_entropy) g [] ms mf; Ok (add_stems c (dkeys r)).
(** 321-333 *)
Definition default_candidates (counter : dict str Z) (min_freq : Z) : dict str Z :=
  dfilter (fun e n => (n >? min_freq) && forallb character_is_complete_korean e) counter.
(** 348-353 *)
Definition is_noun_josa (c : pconf) (e : str) : bool := existsb (fun i => mem (firstn i e) (p_nouns c) && mem (skipn i e) (p_josas c)) (seq 1 (length e - 1)).
(** 370-376: the pairs of known stems and endings at all splits *)
Fixpoint lemma_pairs (c : pconf) (e : str) (acc : list (str * str)) (is : list nat) : res (list (str * str)) :=
  match is with
  | [] => Ok acc
  | i :: is' =>
    do cs <- lemma_candidate [] (firstn i e) (skipn i e);
    lemma_pairs c e (setupdate acc (filter (fun se => mem (fst se) (p_stems c) && mem (snd se) (p_eomis c)) cs)) is'
  end.
(** 378-381 *)
Fixpoint conj_back (e : str) (cands : list (str * str)) : res (list (str * str)) :=
  match cands with
  | [] => Ok []
  | (s, m) :: cs => do ws <- conjugate s m false; do r <- conj_back e cs; Ok (if mem e ws then (s, m) :: r else r)
  end.
(** 355-388: the table of lemmas, the words of every ending, the covered eojeols (number and count) *)
Record ptab := mkPtab { t_lemmas : dict str predicator; t_words : dict str (list str); t_num : Z; t_count : Z }.
Definition lemma_step (c : pconf) (st : ptab) (ec : str * Z) : res ptab :=
  let e := fst ec in
  if is_noun_josa c e then Ok st else
  do cands <- lemma_pairs c e [] (seq 1 (length e));
  do ls <- conj_back e cands;
  Ok (match ls with
      | [] => st
      | _ => mkPtab (dset (t_lemmas st) e (snd ec, ls))
               (fold_left (fun d se => dset d (snd se) (dgetd d (snd se) [] ++ [e])) ls (t_words st))
               (t_num st + 1) (t_count st + snd ec)
      end).
(** 399-406, 417-434: the words from which an ending is removed, and whether the ending itself is removed *)
Definition wrong_words (nouns : list str) (eomi : str) (ws : list str) : option (bool * list str) :=
  if (3 <=? length eomi)%nat then None else
  let two := filter (fun w => (length w =? 2)%nat) ws in
  let nouns2 := filter (fun w => mem w nouns) two in
  (* [prop < 0.5] with prop = nouns2 / two, or 0 *)
  if (length two =? 0)%nat || (2 * length nouns2 <? length two)%nat then None else
  if (length two =? length ws)%nat then Some (true, two)
  else Some (false, filter (fun w => (length w =? 2)%nat && mem w nouns || (length w =? 3)%nat && (length eomi =? 2)%nat) ws).
(** 451-460: one word *)
Definition drop_eomi (eomi : str) (d : dict str predicator) (w : str) : dict str predicator :=
  match dget d w with
  | None => d
  | Some p => if (length (snd p) =? 1)%nat then dpop d w else dset d w (fst p, filter (fun se => negb (eqb (snd se) eomi)) (snd p))
  end.
(** 398-462 *)
Definition remove_wrong (c : pconf) (lemmas : dict str predicator) (words : dict str (list str)) : pconf * dict str predicator :=
  let morphs := concat (map (fun ew => match wrong_words (p_nouns c) (fst ew) (snd ew) with Some (b, ws) => [(fst ew, (b, ws))] | None => [] end) words) in
  let removed := map fst (filter (fun m => fst (snd m)) morphs) in
  (mkPconf (p_josas c) (p_adj c) (p_verb c) (p_stems c) (filter (fun e => negb (mem e removed)) (p_eomis c)) (p_nouns c),
   fold_left (fun d m => fold_left (drop_eomi (fst m)) (snd (snd m)) d) morphs lemmas).
(** 346-396 *)
Definition lemma_table (c : pconf) (cands : dict str Z) : res ptab := foldM (lemma_step c) cands (mkPtab [] [] 0 0).
Definition as_lemma_candidates (c : pconf) (cands : dict str Z) : res (pconf * dict str predicator * (Z * Z)) :=
  do st <- lemma_table c cands;
  Ok (remove_wrong c (t_lemmas st) (t_words st), (t_num st, t_count st)).
(** 474-503: true for a verb *)
Definition lemma_is_verb {V} (c : pconf) (preds : dict str V) (stem : str) : res bool :=
  if mem stem (p_verb c) then Ok true else
  if mem stem (p_adj c) then Ok false else
  do a <- rule_classify stem;
  match a with
  | Some b => Ok b
  | None =>
    do s1 <- conjugate_as_present stem; do s2 <- conjugate_as_imperative stem; do s3 <- conjugate_as_pleasure stem;
    Ok (negb (length (filter (dmem preds) (setupdate (setupdate s1 s2) s3)) <=? 1)%nat)
  end.
Fixpoint split_lemmas {V} (c : pconf) (preds : dict str V) (ls : list (str * str)) : res (list (str * str) * list (str * str)) :=
  match ls with
  | [] => Ok ([], [])
  | l :: ls' => do b <- lemma_is_verb c preds (fst l); do r <- split_lemmas c preds ls';
                Ok (if b then (fst r, l :: snd r) else (l :: fst r, snd r))
  end.
(** 464-510 *)
Definition separate_step (c : pconf) (preds : dict str predicator) (st : dict str predicator * dict str predicator) (wp : str * predicator)
    : res (dict str predicator * dict str predicator) :=
  do s <- split_lemmas c preds (snd (snd wp));
  Ok ((match fst s with [] => fst st | _ => dset (fst st) (fst wp) (fst (snd wp), fst s) end),
      (match snd s with [] => snd st | _ => dset (snd st) (fst wp) (fst (snd wp), snd s) end)).
Definition separate (c : pconf) (preds : dict str predicator) : res (dict str predicator * dict str predicator) :=
  foldM (separate_step c preds) preds ([], []).
(** 236-247, 329-335: the candidates given by the caller, or the counted eojeols when there are none *)
Definition pred_extract (c : pconf) (counter : dict str Z) (candidates : dict str Z) (min_freq : Z) : res (pconf * (dict str predicator * dict str predicator) * (Z * Z)) :=
  do r <- as_lemma_candidates c (match candidates with [] => default_candidates counter min_freq | _ => candidates end);
  let '(c', preds, covered) := r in
  do av <- separate c' preds;
  Ok (c', av, covered).
(** 156-188: endings and stems are extracted from the eojeols that contain no noun *)
Definition pred_learn (c : pconf) (counter : dict str Z) (extract_eomi extract_stem : bool) (mnf : Z) (ems : Q) (emf : Z)
    (min_char : Z) (min_entropy : R) (sms : Q) (smf : Z) : res pconf :=
  if extract_eomi || extract_stem then
    do g <- predicator_graph c counter;
    do c <- (if extract_eomi then pred_extract_eomi c g mnf ems emf else Ok c);
    if extract_stem then pred_extract_stem c g min_char min_entropy sms smf else Ok c
  else Ok c.
