(** * Model of soynlp/tokenizer/_tokenizer.py and soynlp/tokenizer/_noun_tokenizer.py
    Scores (Python floats) are rationals: no NaN, no rounding. *)
From Coq Require Import QArith.
From Verif Require Import PyBase PyDict PySort PyText PyRe.
Open Scope nat_scope.

(** ** RegexTokenizer, tokenizer/_tokenizer.py:11-84 *)
(** 60-79: one pattern, [founds] is [found :: founds]. [skip] stands for [b > i]. *)
Fixpoint regex_scan (found : str) (founds : list str) (skip : nat) (s : str) : str :=
  match s with
  | [] => []
  | c :: s' =>
    match skip with
    | S k => regex_scan found founds k s'
    | O =>
      if prefixb found s then
        (SP :: found ++ [SP]) ++
        match founds with
        | [] => skipn (length found) s
        | f :: fs => regex_scan f fs (length found - 1) s'
        end
      else c :: regex_scan found founds 0 s'
    end
  end.
(** 47-80; [findall] is an oracle for [pattern.findall] *)
Definition regex_step (s : str) (findall : str -> list str) : str :=
  match findall s with
  | [] => s
  | found :: founds => regex_scan found founds 0 s
  end.
(** 46-84 *)
Definition regex_tokenize1 (patterns : list (str -> list str)) (s : str) : list str :=
  split (strip (collapse (fold_left regex_step patterns s))).
(** 27-44 *)
Definition regex_tokenize (patterns : list (str -> list str)) (s : str) : list (list str) :=
  map (regex_tokenize1 patterns) (split s).
Definition regex_tokenize_flat (patterns : list (str -> list str)) (s : str) : list str :=
  filter (fun t => negb (length t =? 0)) (concat (regex_tokenize patterns s)).

(** 14-20: the five patterns. [\[가-힣\]+], [\[ㄱ-ㅎ\]+] and [\[ㅏ-ㅣ\]+] are a character class repeated, so findall returns the
    maximal runs; the number and the english pattern are oracles. *)
Definition re_korean (c : N) : bool := ((44032 <=? c) && (c <=? 55203))%N.
Definition re_jaum (c : N) : bool := ((12593 <=? c) && (c <=? 12622))%N.
Definition re_moum (c : N) : bool := ((12623 <=? c) && (c <=? 12643))%N.
Definition regex_patterns (number english : str -> list str) : list (str -> list str) :=
  [number; runs re_korean; runs re_jaum; runs re_moum; english].

(** ** rationals *)
Definition qltb (x y : Q) : bool := negb (Qle_bool y x).

(** ** LTokenizer, tokenizer/_tokenizer.py:87-119 *)
(** 98-109; a candidate is (score, l, r). [sorted(..., reverse=True)\[0\]] *)
Definition lt_le_len (x y : Q * str * str) : bool :=
  length (snd (fst y)) <=? length (snd (fst x)).
Definition lt_le_score_len (x y : Q * str * str) : bool :=
  qltb (fst (fst y)) (fst (fst x)) ||
  (Qeq_bool (fst (fst x)) (fst (fst y)) && (length (snd (fst y)) <=? length (snd (fst x)))).
Definition qmax (l : list Q) (d : Q) : Q := fold_right (fun x m => if Qle_bool m x then x else m) d l.
Definition token_to_lr (scores : dict str Q) (ds : Q) (tolerance : Q) (token : str) : str * str :=
  let len := length token in
  if len <=? 2 then (token, []) else
  let cands := map (fun e => (dgetd scores (firstn e token) ds, firstn e token, skipn e token)) (seq 2 (len - 1)) in
  let best :=
    if qltb 0 tolerance then
      let max_score := match cands with [] => 0%Q | c :: cs => qmax (map (fun c => fst (fst c)) cs) (fst (fst c)) end in
      let cands := filter (fun c => Qle_bool (max_score - fst (fst c)) tolerance) cands in
      hd_error (sort lt_le_len cands)
    else hd_error (sort lt_le_score_len cands) in
  match best with
  | Some (_, l, r) => (l, r)
  | None => (token, [])        (* unreachable: there is always a candidate *)
  end.
(** 96-119, [flatten=False, remove_r=False] *)
Definition ltok_pairs (scores : dict str Q) (ds tolerance : Q) (sentence : str) : list (str * str) :=
  map (token_to_lr scores ds tolerance) (split sentence).
(** [flatten=True, remove_r=False] *)
Definition ltok_flat (scores : dict str Q) (ds tolerance : Q) (sentence : str) : list str :=
  filter (fun t => negb (length t =? 0)) (flat_map (fun p => [fst p; snd p]) (ltok_pairs scores ds tolerance sentence)).
(** [remove_r=True] *)
Definition ltok_l (scores : dict str Q) (ds tolerance : Q) (sentence : str) : list str :=
  map fst (ltok_pairs scores ds tolerance sentence).

(** ** MaxScoreTokenizer, tokenizer/_tokenizer.py:122-225 *)
Record tok := Tok { tw : str; tb : nat; te : nat; tsc : Q; tl : nat }.

(** 176: key (-score, -length, begin) *)
Definition ms_le (x y : tok) : bool :=
  qltb (tsc y) (tsc x) ||
  (Qeq_bool (tsc x) (tsc y) && ((tl y <? tl x) || ((tl x =? tl y) && (tb x <=? tb y)))).
Definition le_b (x y : tok) : bool := tb x <=? tb y.

Section MaxScore.
  Variable scores : dict str Q.
  Variable ds : Q.
  Variable max_length : Z.

  (** 163-176; [range(2, range_l + 1)] *)
  Definition ms_candidates (token : str) (range_l length_ : nat) : list tok :=
    flat_map (fun b => flat_map (fun r =>
       let e := b + r in
       if length_ <? e then [] else
       let sub := slice b e token in
       [Tok sub b e (dgetd scores sub ds) r]) (seq 2 (range_l - 1))) (seq 0 (length_ - 1)).
  Definition ms_initialize (token : str) (range_l length_ : nat) : list tok :=
    sort ms_le (ms_candidates token range_l length_).

  (** 191 *)
  Definition overlaps (x y : tok) : bool := (tb y <? te x) && (tb x <? te y).
  (** 178-198: [fuel] bounds the number of pops by the length of the list *)
  Fixpoint ms_pick (fuel num_iter : nat) (l : list tok) : list tok :=
    match fuel, l with
    | S f, x :: l' =>
      x :: match l' with
           | [] => []
           | _ => if 100 <? num_iter + 1 then [] else ms_pick f (num_iter + 1) (filter (fun y => negb (overlaps x y)) l')
           end
    | _, _ => []
    end.
  Definition ms_find (l : list tok) : list tok := sort le_b (ms_pick (length l) 0 l).

  (** 202-213 *)
  Fixpoint ms_inter (token : str) (result : list tok) : list tok :=
    match result with
    | x :: ((y :: _) as rest) =>
      (if te x =? tb y then [] else [Tok (slice (te x) (tb y) token) (te x) (tb y) ds (tb y - te x)])
      ++ ms_inter token rest
    | _ => []
    end.
  (** 215-219 *)
  Definition ms_first (token : str) (x : tok) : list tok :=
    let sub := firstn (tb x) token in
    [Tok sub 0 (tb x) (dgetd scores sub ds) (tb x)].
  (** 221-225 *)
  Definition ms_last (token : str) (x : tok) : list tok :=
    let sub := skipn (te x) token in
    [Tok sub (te x) (length token) (dgetd scores sub ds) (length sub)].

  (** 138-161 *)
  Definition ms_recursive (token : str) : res (list tok) :=
    let len := length token in
    if len <=? 2 then Ok [Tok token 0 len ds len] else
    let range_l := Z.to_nat (Z.min max_length (Z.of_nat len)) in
    let result := ms_find (ms_initialize token range_l len) in
    let adds := ms_inter token result in
    match result with
    | [] => Err IndexError            (* result[-1] *)
    | r0 :: _ =>
      let rn := last result r0 in
      let adds := if te rn =? len then adds else adds ++ ms_last token rn in
      let adds := if tb r0 =? 0 then adds else adds ++ ms_first token r0 in
      Ok (sort le_b (result ++ adds))
    end.

  (** 132-136 *)
  Definition ms_tokenize (sentence : str) : res (list (list tok)) := mapM ms_recursive (split sentence).
  Definition ms_tokenize_flat (sentence : str) : res (list str) :=
    do ts <- ms_tokenize sentence; Ok (map tw (concat ts)).
End MaxScore.

(** ** MaxLRScoreTokenizer, tokenizer/_tokenizer.py:227-457 *)
(** [l, r, p0, p1, p2, len_l, len_r, len_lr, score_l, score_r, total]: positions 0-10 of the Python lists *)
Record lrw := LRW { wl : str; wr : str; p0 : nat; p1 : nat; p2 : nat; sl : Q; sr : Q; total : Q }.

Section LR.
  (** state after __init__ (228-275): the dictionaries after the updates of lines 252-266.
      [lrgraph_norm] is never read and not modelled. *)
  Variables Dl Dr Pl Pr : dict str Q.
  Variables max_lscore_difference max_lscore_diffratio ensurable_score_l ensurable_score_lr_diff : Q.
  (** 268-269 *)
  Definition maxlen (d : dict str Q) : nat := fold_right Nat.max 0 (map (fun w => length w) (dkeys d)).
  Definition lmax := maxlen Dl.
  Definition rmax := maxlen Dr.

  (** 307-320: (l, b, e) *)
  Definition lr_init_L (t : str) : list (str * nat * nat) :=
    let n := length t in
    flat_map (fun b => flat_map (fun e =>
      let l := slice b e t in if dmem Dl l then [(l, b, e)] else []) (seq (b + 1) (Nat.min n (b + lmax) - b))) (seq 0 n).
  (** 322-341 and the scores appended in 343-346 *)
  Definition lr_init_LR (t : str) : list lrw :=
    let n := length t in
    sort (fun x y => p2 x <=? p2 y)
    (flat_map (fun '(l, b, e) => flat_map (fun len_r =>
       if (length l =? 1) && (len_r =? 0) then [] else
       let r := slice e (e + len_r) t in
       if negb (length r =? 0) && negb (dmem Dr r) then [] else
       [LRW l r b e (e + len_r) (dgetd Dl l 0%Q) (dgetd Dr r 0%Q) 0%Q]) (seq 0 (Nat.min rmax (n - e) + 1))) (lr_init_L t)).

  (** 358-360; the quotient of line 360 is evaluated only when the first test fails and the second holds *)
  Definition longer_ok (lscore cscore : Q) : res bool :=
    if qltb (lscore - cscore) max_lscore_difference then Ok true else
    if qltb (ensurable_score_l * (1 # 2)) lscore then
      let den := (cscore + (1 # 100000))%Q in
      if Qeq_bool den 0 then Err ZeroDivisionError
      else Ok (qltb ((lscore + (1 # 100000)) / den) max_lscore_diffratio)
    else Ok false.
  (** 354-362 *)
  Fixpoint exist_longer (best : lrw) (l : list lrw) : res bool :=
    match l with
    | [] => Ok false
    | c :: l' =>
      if (p0 best <? p0 c) || (p1 c <? p1 best) || negb ((p0 c <? p0 best) || (p1 best <? p1 c)) then exist_longer best l'
      else (do b <- longer_ok (sl best) (sl c); if b then Ok true else exist_longer best l')
    end.
  Fixpoint remove_l_loop (l : list lrw) : res (list lrw) :=
    match l with
    | [] => Ok []
    | best :: l' =>
      do ex <- exist_longer best l';
      do rest <- remove_l_loop l';
      Ok (if ex then rest else best :: rest)
    end.
  (** 343-367 *)
  Definition remove_l_subset (l : list lrw) : res (list lrw) :=
    remove_l_loop (sort (fun x y => Qle_bool (sl y) (sl x)) l).

  (** 379: key (-score_l, -score_r, begin, -len_l) *)
  Definition sc_le (x y : lrw) : bool :=
    qltb (sl y) (sl x) || (Qeq_bool (sl x) (sl y) &&
     (qltb (sr y) (sr x) || (Qeq_bool (sr x) (sr y) &&
       ((p0 x <? p0 y) || ((p0 x =? p0 y) && (length (wl y) <=? length (wl x))))))).
  (** [word\[-2\]] at line 391-392: scoring appends the total to the candidate's own list (line 399), so for a
      candidate that has already been scored [word\[-2\]] is its R score, otherwise its L score. A candidate is
      identified by its positions. *)
  Definition same_pos (x y : lrw) : bool := (p0 x =? p0 y) && (p1 x =? p1 y) && (p2 x =? p2 y).
  Definition word_m2 (scored : list lrw) (w : lrw) : Q := if existsb (same_pos w) scored then sr w else sl w.
  (** 385-396: some remaining candidate begins inside R *)
  Definition r_overlapped (all scored : list lrw) (c : lrw) : bool :=
    negb (p2 c - p1 c =? 0) &&
    existsb (fun b => existsb (fun w => (p0 w =? b) &&
       (Qle_bool ensurable_score_l (word_m2 scored w) ||
        qltb ensurable_score_lr_diff (word_m2 scored w + dgetd Pl (wl w) 0%Q - sr c))) all) (seq (p1 c) (p2 c - p1 c)).
  (** 380-400; [scored] in processing order *)
  Fixpoint lr_score_loop (all scored cands : list lrw) : list lrw :=
    match cands with
    | [] => scored
    | c :: cs =>
      if r_overlapped all scored c then lr_score_loop all scored cs else
      let ts := ((if (length (wr c) =? 0)%nat then sl c * 2 else sl c + sr c) + dgetd Pl (wl c) 0 + dgetd Pr (wr c) 0)%Q in
      lr_score_loop all (scored ++ [LRW (wl c) (wr c) (p0 c) (p1 c) (p2 c) (sl c) (sr c) ts]) cs
    end.
  (** 369-401 *)
  Definition lr_score (cands : list lrw) : list lrw := lr_score_loop cands [] (sort sc_le cands).

  (** 409 *)
  Definition lr_overlaps (x c : lrw) : bool := (p0 x <? p2 c) && (p0 c <? p2 x).
  Fixpoint lr_pick (fuel : nat) (l : list lrw) : list lrw :=
    match fuel, l with
    | S f, x :: l' => x :: lr_pick f (filter (fun c => negb (lr_overlaps x c)) l')
    | _, _ => []
    end.
  Definition le_p0 (x y : lrw) : bool := p0 x <=? p0 y.
  (** 403-412 *)
  Definition lr_find_best (scored : list lrw) : list lrw :=
    let sorted_ := sort (fun x y => Qle_bool (total y) (total x)) scored in
    sort le_p0 (lr_pick (length sorted_) sorted_).

  (** 446-457: [self.base_tokenizer.scores] does not exist (the attribute is [_scores]), so a base token
      found in Dr raises AttributeError *)
  Definition lr_base (t : str) (b : nat) : res (list lrw) :=
    do words <- ms_tokenize_flat Dr 0%Q 10 t;
    mapM (fun w => if dmem Dr w then Err AttributeError
                   else Ok (LRW w [] b (b + length w) (b + length w) 0%Q 0%Q 0%Q)) words.
  (** 425-434 *)
  Fixpoint lr_inter (t : str) (words : list lrw) : res (list lrw) :=
    match words with
    | x :: ((y :: _) as rest) =>
      do a <- (if p2 x =? p0 y then Ok [] else lr_base (slice (p2 x) (p0 y) t) (p2 x));
      do b <- lr_inter t rest;
      Ok (a ++ b)
    | _ => Ok []
    end.
  (** 414-423, 436-444 *)
  Definition lr_postprocessing (t : str) (words : list lrw) : res (list lrw) :=
    match words with
    | [] => Ok []
    | w0 :: _ =>
      let wn := last words w0 in
      do a1 <- (if 0 <? p0 w0 then lr_base (firstn (p0 w0) t) 0 else Ok []);
      do a2 <- (if p1 wn <? length t then lr_base (skipn (p1 wn) t) (p1 wn) else Ok []);
      do a3 <- lr_inter t words;
      Ok (sort le_p0 (words ++ a1 ++ a2 ++ a3))
    end.
  (** 286-300, the selected words *)
  Definition lr_best (t : str) : res (list lrw) :=
    do c <- remove_l_subset (lr_init_LR t); Ok (lr_find_best (lr_score c)).
  Definition lr_tokenize1 (t : str) : res (list lrw) :=
    do best <- lr_best t;
    match best with [] => lr_base t 0 | _ => lr_postprocessing t best end.
  (** 298-299: (word, is-L) *)
  Definition lr_flatten (post : list lrw) : list (str * bool) :=
    filter (fun w => negb (length (fst w) =? 0)) (flat_map (fun p => [(wl p, true); (wr p, false)]) post).
  (** 280-284 *)
  Definition lr_tokenize (sent : str) : res (list (list (str * bool))) :=
    mapM (fun t => do p <- lr_tokenize1 t; Ok (lr_flatten p)) (split sent).
End LR.

(** ** NounLMatchTokenizer, tokenizer/_noun_tokenizer.py:3-64. [is_noun] is membership in the container [nouns]. *)
Section NounL.
  Variable is_noun : str -> bool.
  (** 40-48: (subword, begin, length) *)
  Definition nl_candidates (token : str) : list (str * nat * nat) :=
    flat_map (fun b => flat_map (fun e => if is_noun (slice b e token) then [(slice b e token, b, e - b)] else [])
       (seq b (length token + 1 - b))) (seq 0 (length token)).
  Definition nl_le (x y : str * nat * nat) : bool :=
    let '(_, bx, lx) := x in let '(_, by_, ly) := y in (bx <? by_) || ((bx =? by_) && (ly <=? lx)).
  (** 50-64 *)
  Fixpoint nl_loop (fuel : nat) (nouns : list (str * nat * nat)) (e : nat) : list str :=
    match fuel, nouns with
    | S f, (noun, b, len) :: rest =>
      if negb (b =? e) then [] else
      let e' := b + len in
      noun :: nl_loop f (filter (fun x => e' <=? snd (fst x)) rest) e'
    | _, _ => []
    end.
  (** 30-64: (nouns, the rest) *)
  Definition nl_tokenize1 (token : str) : list str * str :=
    let nouns := sort nl_le (nl_candidates token) in
    let nouns_ := nl_loop (length nouns) nouns 0 in
    (nouns_, skipn (length (concat nouns_)) token).
  (** 11-28 *)
  Definition nl_tokenize (sentence : str) (compose_compound : bool) : list str :=
    let tokens := map nl_tokenize1 (split sentence) in
    let tokens := filter (fun t => negb (length (fst t) =? 0)) tokens in
    let tokens := map fst tokens in
    let tokens := if compose_compound then map (fun t => concat t) tokens else concat tokens in
    filter (fun t => negb (length t =? 0)) tokens.
End NounL.

(** ** NounMatchTokenizer, tokenizer/_noun_tokenizer.py:66-107 *)
Section NounMatch.
  Variable scores : dict str Q.
  (** 76-86; the loop state is (words_, b, e, score) *)
  Fixpoint nm_concat_loop (eojeol : str) (words : list tok) (b e : nat) (score : Q) : list tok :=
    match words with
    | [] => if b <? e then [Tok (slice b e eojeol) b e score (e - b)] else []
    | w :: ws =>
      if e =? tb w then nm_concat_loop eojeol ws b (te w) (if qltb score (tsc w) then tsc w else score)
      else Tok (slice b e eojeol) b e score (e - b) :: nm_concat_loop eojeol ws (tb w) (te w) score
    end.
  Definition nm_concatenate (eojeol : str) (words : list tok) : list tok := nm_concat_loop eojeol words 0 0 0%Q.
  (** 88-102, one eojeol; [self._tokenizer(eojeol, flatten=False)\[0\]]: the eojeol has no whitespace, so there is exactly one entry.
      The default max_length is 10 and default_score 0.0 *)
  Definition nm_eojeol (compose_compound : bool) (eojeol : str) : res (list tok) :=
    do words <- ms_recursive scores 0%Q 10 eojeol;
    let words := filter (fun w => qltb 0 (tsc w)) words in
    Ok (if compose_compound then nm_concatenate eojeol words else words).
  (** 74-107 *)
  Definition nm_tokenize (sentence : str) (compose_compound : bool) : res (list (list tok)) :=
    mapM (nm_eojeol compose_compound) (split sentence).
  Definition nm_tokenize_flat (sentence : str) (compose_compound : bool) : res (list str) :=
    do ts <- nm_tokenize sentence compose_compound;
    Ok (filter (fun w => negb (length w =? 0)) (map tw (concat ts))).
End NounMatch.
