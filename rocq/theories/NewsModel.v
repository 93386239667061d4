(** * Model of soynlp/noun/_noun_news.py (NewsNounExtractor)
    Scores (floats) are rationals. Verbose output and the debugging prints are not modelled. *)
From Coq Require Import QArith.
From Verif Require Import PyBase PyDict PyText PyFile CountLemmas HangleModel UtilsModel NounModel NounV1Model.
Open Scope Z_scope.

(** NewsNounScore, _noun_news.py:5 *)
Record nscore := mkNS { ns_score : Q; ns_freq : Z; ns_fprop : Q; ns_eprop : Q; ns_npos : Z; ns_upos : Q }.
(** the configuration: r_scores, limits, josa_dictionary, _vdictionary *)
Record nwconf := mkNW { w_coef : dict str Q; w_lm : Z; w_rm : Z; w_josa : list str; w_verbs : list str }.
(** what training leaves in the extractor *)
Record nwstate := mkNWS { t_lr : dict str (dict str Z); t_rl : dict str (dict str Z); t_eoj : dict str Z; t_lc : dict str Z; t_rc : dict str Z }.
(** a value of noun_dictionary: a count (183, 211) or a score *)
Inductive nval := Count (c : Z) | Scored (s : nscore).

(** _noun_news.py:58-71: the dictionary files, given their contents; a file that cannot be opened is the same as an empty one *)
Definition load_verbs (files : list str) : list str := concat (map (fun content => map (fun line => hd [] (split_on 9 (strip line))) (file_lines content)) files).
(** _noun_news.py:10-36 with 38-56, given the contents of the files. A base dictionary that is not empty makes line 17 read an unbound name. *)
Definition news_init (float_of : str -> option Q) (coef_files verb_files : list str) (lm rm : Z) (base : dict str nval) : res (nwconf * dict str nval) :=
  match base with
  | [] => let coef := load_coef float_of coef_files in
          Ok (mkNW coef lm rm (dkeys (dfilter (fun _ s => negb (Qle_bool s (1 # 10))) coef) ++ [u "는"]) (load_verbs verb_files), [])
  | _ => Err NameError
  end.

(** _noun_news.py:99-103 *)
Definition news_eojeols (c : nwconf) (sents : list str) : dict str Z :=
  fold_left (fun d w => dincr d w 1) (filter (fun w => Z.of_nat (length w) <=? w_lm c + w_rm c) (concat (map split sents))) [].
(** _noun_news.py:105-115, the table from right parts to left parts: one eojeol *)
Definition rlgraph_word (lm rm : Z) (d : dict str (dict str Z)) (ec : str * Z) : dict str (dict str Z) :=
  let eojeol := fst ec in
  fold_left (fun d e => let l := firstn e eojeol in let r := skipn e eojeol in
      if Z.of_nat (length r) >? rm then d else match r with [] => d | _ => inc2 d r l (snd ec) end)
    (seq 1 (Nat.min (Z.to_nat lm) (length eojeol))) d.
(** _noun_news.py:80-92 and 94-116; the table from left parts is built as in utils.py:289-295. check_corpus rejects the empty corpus. *)
Definition news_train (c : nwconf) (sents : list str) : res nwstate :=
  match sents with
  | [] => Err ValueError
  | _ => let e := news_eojeols c sents in
         let g := fold_left (lrgraph_word (w_lm c) (w_rm c)) e [] in
         let h := fold_left (rlgraph_word (w_lm c) (w_rm c)) e [] in
         let sums := map (fun kd : str * dict str Z => (fst kd, Zsum snd (snd kd))) in
         Ok (mkNWS g h e (sums g) (sums h))
  end.

Section Extractor.
  Variable c : nwconf.
  Variable st : nwstate.
  (** [self.lrgraph.get(l, {})] *)
  Definition row (l : str) : dict str Z := match dget (t_lr st) l with Some d => d | None => [] end.
  (** _noun_news.py:442-443 *)
  Definition l_frequency (l : str) : Z := dgetd (t_lc st) l 0.

  (** _noun_news.py:220-227 *)
  Definition news_step (a : Z * Q * Z * Z * Z) (rc : str * Z) : Z * Q * Z * Z * Z :=
    let '(norm, score, total, npos, nfeat) := a in
    match dget (w_coef c) (fst rc) with
    | Some q => (norm + snd rc, (score + inject_Z (snd rc) * q)%Q, total + snd rc, npos + (if Qle_bool q 0 then 0 else 1), nfeat + 1)
    | None => (norm, score, total + snd rc, npos, nfeat)
    end.
  (** _noun_news.py:217-235 *)
  Definition news_predict (l : str) : nscore :=
    let '(norm, score, total, npos, nfeat) := fold_left news_step (row l) (0, 0%Q, 0, 0, 0) in
    let n_eojeol := dgetd (t_eoj st) l 0 in
    mkNS (if norm =? 0 then 0%Q else (score / inject_Z norm)%Q) total
         (if 0 <? total - n_eojeol then qdiv norm (total - n_eojeol) else 0%Q)
         (if 0 <? total then qdiv n_eojeol total else 0%Q) npos
         (if nfeat <=? 0 then 0%Q else qdiv npos nfeat).

  (** _noun_news.py:161-168; the loop assigns to [l] itself *)
  Fixpoint nv_loop (es : list nat) (l : str) : option str :=
    match es with
    | [] => None
    | e :: es' => let l' := firstn e l in let r := skipn e l in
                  if Qle_bool (4 # 10) (ns_score (news_predict l')) && mem r (w_verbs c) then Some l' else nv_loop es' l'
    end.
  Definition eojeol_to_NV (l : str) : option str := if (length l <? 4)%nat then None else nv_loop (seq 2 (length l - 3)) l.
  (** _noun_news.py:170-171 and 192-193 *)
  Definition eojeol_candidates (mf : Z) : dict str Z := dfilter (fun l n => (mf <=? n) && Qle_bool (99 # 100) (qdiv (dgetd (t_eoj st) l 0) n)) (t_lc st).
  (** _noun_news.py:160-187 *)
  Definition pre_analysis (mf : Z) (nd : dict str nval) : dict str nval :=
    fold_left (fun nd l => match eojeol_to_NV l with Some l0 => dset nd l0 (Count (l_frequency l0)) | None => nd end) (dkeys (eojeol_candidates mf)) nd.

  (** _noun_news.py:123-131: the scored candidates *)
  Definition scored_candidates (mf : Z) (cands : list str) : dict str nscore :=
    let cands := match cands with [] => filter (fun l => (2 <=? length l)%nat) (dkeys (t_lc st)) | _ => cands end in
    fold_left (fun d l => dset d l (news_predict l)) (filter (fun l => (mf <=? l_frequency l) && negb (dmem (w_coef c) l)) cands) [].
  (** _noun_news.py:241-248: _noun_scores_ *)
  Definition noun_scores (ms mfp : Q) (d : dict str nscore) : dict str nscore :=
    dfilter (fun l s => negb (Qle_bool (ns_score s) ms) && negb (Qle_bool (inject_Z (ns_freq s)) mfp) && (1 <? length l)%nat) d.

  (** _noun_news.py:286-305 *)
  Definition is_NJsubJ (nd : dict str nval) (l : str) : res bool :=
    let lens := filter (fun e => dmem nd (firstn e l) || negb (Qle_bool (ns_score (news_predict (firstn e l))) (4 # 10))) (seq 2 (length l - 2)) in
    match lens with
    | [] => Ok false
    | _ => let base := l_frequency (firstn (list_max lens) l) in
           if base =? 0 then Ok false else
           if negb (Qle_bool (qdiv (l_frequency l) base) (7 # 10)) then Ok false else
           let total := Zsum snd (row l) in
           if total =? 0 then Err ZeroDivisionError else
           Ok (negb (Qle_bool (qdiv (Zsum (fun rc => if existsb (fun e => mem (skipn e (l ++ fst rc)) (w_josa c)) lens then snd rc else 0) (row l)) total) (8 # 10)))
    end.
  (** _noun_news.py:307-312 *)
  Definition find_NsubJ (l : str) : res (list str) :=
    let cands := filter (fun l0 => negb (Qle_bool (ns_score (news_predict l0)) (7 # 10)))
                   (map (fun e => firstn e l) (filter (fun e => mem (skipn e l) (w_josa c)) (seq 2 (length l - 2)))) in
    match cands with
    | [] => Ok []
    | _ => if l_frequency l =? 0 then Err ZeroDivisionError else Ok (filter (fun l0 => negb (Qle_bool (qdiv (l_frequency l0) (l_frequency l)) (7 # 10))) cands)
    end.
  (** _noun_news.py:318-320, as 0 or 1 *)
  Definition eojeol_proportion (w : str) : bool :=
    let sum := Zsum snd (row w) in
    if sum =? 0 then false else let q := qdiv (dgetd (t_eoj st) w 0) sum in negb (Qle_bool (if Qle_bool 1 q then 1%Q else q) (7 # 10)).
  (** the cuts before the last one or two characters (327, 340) *)
  Definition tail_cuts (l : str) : list nat := if (length l <=? 3)%nat then [1%nat] else [1%nat; 2%nat].
  (** _noun_news.py:314-334 *)
  Definition is_NVsubE (ns : dict str nscore) (nd : dict str nval) (l : str) : bool :=
    match row l with
    | [] => false
    | _ => existsb (fun b => let l0 := firstn (length l - b) l in let r0 := skipn (length l - b) l in
             dmem ns l0 && dmem nd l0 && negb (Qle_bool (qdiv (Zsum (fun rc => if eojeol_proportion (r0 ++ fst rc) then snd rc else 0) (row l)) (Zsum snd (row l))) (7 # 10))) (tail_cuts l)
    end.
  (** a noun so far *)
  Definition known (ns : dict str nscore) (nd : dict str nval) (l : str) : bool := dmem ns l || dmem nd l.
  (** _noun_news.py:336-344 *)
  Definition is_NWsub (ns : dict str nscore) (nd : dict str nval) (l : str) : bool :=
    existsb (fun b => let l0 := firstn (length l - b) l in
      known ns nd l0 && negb (Qle_bool (1 # 10) (if l_frequency l0 <=? 0 then 0%Q else qdiv (l_frequency l) (l_frequency l0)))) (tail_cuts l).
  (** _noun_news.py:346-361 *)
  Definition is_compound (ns : dict str nscore) (nd : dict str nval) (l : str) : bool :=
    let n := length l in
    if (n <? 4)%nat then false else
    existsb (fun e => known ns nd (firstn e l) && known ns nd (skipn e l)) (seq 2 (n - 2)) ||
    ((6 <=? n)%nat && existsb (fun e1 => existsb (fun e2 => known ns nd (firstn e1 l) && known ns nd (slice e1 e2 l) && known ns nd (skipn e2 l))
                                           (seq (e1 + 2) (n - 1 - (e1 + 2)))) (seq 2 (n - 3 - 2))).
  (** _noun_news.py:363-368 *)
  Definition is_NJ (ns : dict str nscore) (nd : dict str nval) (w : str) : bool :=
    existsb (fun e => known ns nd (firstn e w) && (match skipn e w with [] => true | r => negb (Qle_bool (dgetd (w_coef c) r 0%Q) 0) end)) (seq 2 (length w - 1)).
  (** _noun_news.py:370-374 *)
  Definition is_NV (pp : dict str nscore) (nd : dict str nval) (l : str) : bool :=
    existsb (fun e => known pp nd (firstn e l) && mem (skipn e l) (w_verbs c)) (seq 2 (length l - 2)).

  (** _noun_news.py:377-385 *)
  Definition news_pass : list str :=
    map u ["과"; "는"; "되고"; "되는"; "되다"; "된다"; "들"; "들에"; "들의"; "들이"; "로"; "로는"; "로도"; "로서"; "를"; "부터"; "뿐"; "뿐만"; "뿐이"; "뿐인";
           "에게"; "에도"; "에서"; "에와"; "와"; "으로"; "으로의"; "은"; "의"; "이"; "이나"; "이라"; "이었"; "인"; "임"; "처럼"; "하다"; "한"; "할"; "했던"; "했고"; "했다"]%string.
  (** _noun_news.py:376-397; the first test of 387 is always met when the method is called *)
  Definition unijosa_filter (ns : dict str nscore) (nd : dict str nval) (l : str) : bool :=
    match dget ns l with
    | None => true
    | Some s => if (ns_freq s <=? 10) && (ns_npos s <=? 1) then
                  match row l with
                  | [] => false
                  | d => let n_pass := Zsum (fun rc => match fst rc with [] => 0 | r => if mem (firstn 2 r) news_pass || is_NJ ns nd r then snd rc else 0 end) d in
                         let n_nonempty := Zsum (fun rc => match fst rc with [] => 0 | _ => snd rc end) d in
                         negb (Qle_bool (if n_nonempty =? 0 then 0%Q else qdiv n_pass n_nonempty) (1 # 2))
                  end
                else true
    end.
  (** [l\[-1\]] of a string that is not empty, [l\[-2:\]] and [l\[:-k\]] *)
  Definition last1 (l : str) : str := skipn (length l - 1) l.
  Definition last2 (l : str) : str := skipn (length l - 2) l.
  Definition drop_last (k : nat) (l : str) : str := firstn (length l - k) l.
  (** _noun_news.py:399-411 *)
  Definition dang_hada_filter (ns : dict str nscore) (nd : dict str nval) (l : str) : bool :=
    if negb (eqb (last1 l) (u "당")) && known ns nd (drop_last 1 l) then true else
    let d := row l in
    let n_base := Zsum (fun rc => if snd rc =? 0 then 0 else snd rc) d in
    let n_h := Zsum (fun rc => match fst rc with [] => 0 | x :: _ => match decompose x with Some (a, _, _) => if N.eqb a (ch "ㅎ") then snd rc else 0 | None => 0 end end) d in
    if n_base <=? 0 then true else negb (Qle_bool (1 # 2) (qdiv n_h n_base)).
  (** _noun_news.py:414-416 *)
  Definition prop_r (l r : str) : Q := let base := Zsum snd (row l) in if base =? 0 then 0%Q else qdiv (dgetd (row l) r 0) base.
  Definition droprate (l : str) : Q := match dget (t_lc st) (drop_last 1 l) with Some n => qdiv (l_frequency l) n | None => 0%Q end.
  Definition more_than_half (l : str) (rs : list str) : bool := negb (Qle_bool (fold_left (fun a r => (a + prop_r l r)%Q) rs 0%Q) (1 # 2)).
  (** _noun_news.py:413-440 *)
  Definition suffix_filter (pp : dict str nscore) (nd : dict str nval) (l : str) : bool :=
    if mem l (w_verbs c) then false else
    if mem (last2 l) [u "갔다"; u "이는"; u "겠지"; u "보는"] then false else
    if eqb (last1 l) (u "으") && more_than_half l [u "로"; u "로써"; u "로만"; u "로의"] then false else
    if eqb (last1 l) (u "지") && more_than_half l [u "만"] then false else
    if eqb (last1 l) (u "없") && more_than_half l [u "는"; u "이"; u "다"; u "었다"] then false else
    if mem (last1 l) [u "인"; u "은"; u "의"; u "와"; u "과"] && negb (Qle_bool (8 # 10) (droprate l)) then false else
    if mem (last2 l) [u "들이"; u "들은"; u "들도"; u "들을"] && negb (Qle_bool (8 # 10) (droprate l)) then false else
    if eqb (last2 l) (u "으로") && ((length l =? 3)%nat || known pp nd (drop_last 2 l)) then false else true.

  (** _noun_news.py:256-284; the sets of 256-258 *)
  Definition postprocessing (ns : dict str nscore) (nd : dict str nval) : res (dict str nscore) :=
    do njs <- mapM (fun l => do b <- is_NJsubJ nd l; Ok (l, b)) (dkeys ns);
    let njsubjs := map fst (filter snd njs) in
    do subs <- mapM (fun l => do s <- find_NsubJ l; Ok (if mem l njsubjs then [] else s)) (dkeys ns);
    let nsubs := concat subs in
    let nvsubes := filter (fun l => is_NVsubE ns nd l && is_NWsub ns nd l && negb (is_compound ns nd l)) (dkeys ns) in
    Ok (fold_left (fun pp (ls : str * nscore) => let l := fst ls in
      if mem l njsubjs || mem l nsubs || mem l nvsubes then pp else
      if negb (unijosa_filter ns nd l) && negb (is_compound ns nd l) then pp else
      if negb (suffix_filter pp nd l) then pp else
      if negb (dang_hada_filter ns nd l) then pp else dset pp l (snd ls)) ns []).
  (** _noun_news.py:189-215 *)
  Definition post_analysis (mf : Z) (ns pp : dict str nscore) (nd : dict str nval) : res (dict str nval) :=
    foldM (fun nd (lc : str * Z) => let l := fst lc in
      if dmem pp l then Ok nd else
      do b <- is_NJsubJ nd l;
      Ok (if b then nd else if is_NJ ns nd l then nd else if is_NV pp nd l then nd else
          if suffix_filter pp nd l && is_compound ns nd l then dset nd l (Count (snd lc)) else nd)) (eojeol_candidates mf) nd.
  (** _noun_news.py:118-158, from the dictionary left by the earlier calls; the result is the new dictionary *)
  Definition news_extract (ms : Q) (mf : Z) (cands : list str) (mfp : Q) (nd : dict str nval) : res (dict str nval) :=
    let nd := pre_analysis mf nd in
    let ns := noun_scores ms mfp (scored_candidates mf cands) in
    do pp <- postprocessing ns nd;
    do nd <- post_analysis mf ns pp nd;
    let nd := map (fun kv : str * nval => (fst kv, if dmem pp (fst kv) then snd kv else Scored (news_predict (fst kv)))) nd in
    Ok (fold_left (fun nd (ls : str * nscore) => dset nd (fst ls) (Scored (snd ls))) pp nd).
End Extractor.
(** _noun_news.py:73-78 *)
Definition news_train_extract (c : nwconf) (sents : list str) (mf : Z) (ms : Q) (cands : list str) (mfp : Q) (nd : dict str nval) : res (nwstate * dict str nval) :=
  do st <- news_train c sents; do nd <- news_extract c st ms mf cands mfp nd; Ok (st, nd).
