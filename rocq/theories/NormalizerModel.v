(** * Model of soynlp/normalizer/_normalizer.py, soynlp/tokenizer/_normalizer.py and the
    deprecated [normalize] of soynlp/hangle/_hangle.py *)
From Verif Require Import PyBase PyText PyRe HangleModel.
Open Scope N_scope.

(** Character classes, normalizer/_normalizer.py:12-20 *)
Definition hangle_c (c : N) : bool :=                       (* [ㄱ-ㅎㅏ-ㅣ가-힣], line 15 *)
  between 12593 c 12622 || between 12623 c 12643 || between 44032 c 55203.
Definition number_c (c : N) : bool := between 48 c 57.      (* line 12 *)
Definition punct_c (c : N) : bool := mem c (u ",.?!").      (* line 13 *)
Definition symbol_c (c : N) : bool := mem c (u "()[]{}`").  (* line 14 *)
Definition alphabet_c (c : N) : bool := between 97 c 122 || between 65 c 90.   (* line 16 *)
(** line 20: the complement of text_filter; ['-(] in the class is the range 39-40 *)
Definition text_c (c : N) : bool :=
  hangle_c c || alphabet_c c || number_c c || mem c (u ",.?!") || (c =? 34) || between 39 c 40 || (c =? 41) || mem c (u "[]{}").

(** [pattern.sub(' ', s)] for a character class *)
Definition blank (p : N -> bool) (s : str) : str := map (fun c => if p c then SP else c) s.

Section Norm.
  Variable word : N -> bool.   (* \w *)

  (** normalizer/_normalizer.py:11 with the substitution of lines 35 and 44: [n > 0] *)
  Definition repeat_sub (n : Z) (s : str) : str := re_repeat_sub word 1 2 (Z.to_nat n) s.

  (** normalizer/_normalizer.py:22-37 *)
  Definition normalize (doc : str) (alphabet number punctuation symbol : bool) (remove_repeat : Z) : str :=
    let doc := blank_unless text_c doc in
    let doc := if negb alphabet then blank alphabet_c doc else doc in
    let doc := if negb number then blank number_c doc else doc in
    let doc := if negb punctuation then blank punct_c doc else doc in
    let doc := if negb symbol then blank symbol_c doc else doc in
    let doc := if (0 <? remove_repeat)%Z then repeat_sub remove_repeat doc else doc in
    strip (collapse doc).

  (** normalizer/_normalizer.py:39-40 *)
  Definition remove_doublespace (sent : str) : str := collapse sent.

  (** normalizer/_normalizer.py:42-46 *)
  Definition repeat_normalize (sent : str) (num_repeats : Z) : str :=
    let sent := if (0 <? num_repeats)%Z then repeat_sub num_repeats sent else sent in
    strip (collapse sent).

  (** normalizer/_normalizer.py:53-62 *)
  Definition pattern (c : N) : Z :=
    if between 12593 c 12622 then 0%Z else if between 12623 c 12643 then 1%Z
    else if between 44032 c 55203 then 2%Z else (-1)%Z.

  (** normalizer/_normalizer.py:67-86, the body of the loop: [prev] is [sent\[i-1\]] when [i > 0],
      [next] is [sent\[i+1\]] when [i < last_idx]. Unpacking [decompose(c)] when it is None raises TypeError. *)
  Definition is_char (x : N) (o : option N) : bool := match o with Some d => x =? d | None => false end.
  Definition emoticon_char (prev : option N) (c : N) (next : option N) : res str :=
    let isp p o := match o with Some d => (pattern d =? p)%Z | None => false end in
    if isp 0%Z prev && (pattern c =? 2)%Z && isp 1%Z next then
      match decompose c with
      | Some (cho, jung, jong) =>
        if is_char cho prev && is_char jung next && (jong =? SP) then Ok [cho; jung] else Ok [c]
      | None => Err TypeError
      end
    else if (pattern c =? 2)%Z && isp 0%Z next then
      match decompose c with
      | Some (cho, jung, jong) =>
        if is_char jong next then (do x <- compose cho jung SP; Ok [x; jong]) else Ok []
      | None => Err TypeError
      end
    else if (pattern c =? 2)%Z && isp 0%Z prev then
      match decompose c with
      | Some (cho, jung, jong) => if is_char cho prev then Ok [cho; jung] else Ok []
      | None => Err TypeError
      end
    else Ok [c].
  Fixpoint emoticon_loop (prev : option N) (s : str) : res str :=
    match s with
    | [] => Ok []
    | c :: s' =>
      do a <- emoticon_char prev c (hd_error s');
      do b <- emoticon_loop (Some c) s';
      Ok (a ++ b)
    end.
  (** normalizer/_normalizer.py:48-87 *)
  Definition emoticon_normalize (sent : str) (num_repeats : Z) : res str :=
    match sent with
    | [] => Ok []
    | _ => do s <- emoticon_loop None sent; Ok (repeat_normalize s num_repeats)
    end.

  (** normalizer/_normalizer.py:89-96 *)
  Definition only_hangle (sent : str) : str := strip (collapse (blank_unless hangle_c sent)).
  Definition only_hangle_number (sent : str) : str :=
    strip (collapse (blank_unless (fun c => hangle_c c || between 48 c 57) sent)).
  Definition only_text (sent : str) : str := strip (collapse (blank_unless text_c sent)).

  (** normalizer/_normalizer.py:98-103: the prefix up to and including the last match *)
  Fixpoint upto_last_hangle (s : str) : str :=
    match s with
    | [] => []
    | c :: s' => match upto_last_hangle s' with
                 | [] => if hangle_c c then [c] else []
                 | t => c :: t
                 end
    end.
  Definition remain_hangle_on_last (eojeol : str) : str := strip (upto_last_hangle eojeol).

  (** normalizer/_normalizer.py:105-112 *)
  Definition normalize_sent_for_lrgraph (sent : str) : str :=
    let sent := blank symbol_c (blank_unless text_c sent) in
    let sent_ := map remain_hangle_on_last (split sent) in
    let sent_ := filter (fun e => match e with [] => false | _ => true end) sent_ in
    join [SP] sent_.

  (** ** tokenizer/_normalizer.py *)
  (** 6-11, 22-26 *)
  Definition remove_repeat (token : str) (num_repeat : Z) : str :=
    if (0 <? num_repeat)%Z then
      fold_left (fun t k => re_repeat_sub word k 3 (Z.to_nat num_repeat) t) [4; 3; 2; 1]%nat token
    else token.

  (** 33-44, the body of the loop *)
  Definition emoji_char (c : N) (cd nd : option (N * N * N)) : res str :=
    match cd, nd with
    | Some (c0, c1, c2), Some (n0, n1, n2) =>
      if (n1 =? SP) && (c2 =? n0) then (do x <- compose c0 c1 SP; Ok [x; n0])
      else if (c2 =? SP) && (n0 =? SP) && (c1 =? n1) then Ok (if negb (c0 =? SP) then [c0; c1] else [c1])
      else Ok [c]
    | _, _ => Ok [c]
    end.
  Fixpoint emoji_loop (s : str) : res str :=
    match s with
    | c :: ((d :: _) as s') =>
      do a <- emoji_char c (decompose c) (decompose d);
      do b <- emoji_loop s';
      Ok (a ++ b)
    | _ => Ok s        (* + token\[-1\] *)
    end.
  (** 28-45 *)
  Definition normalize_emoji (token : str) : res str :=
    if (length token <=? 1)%nat then Ok token else emoji_loop token.
  (** 17-20 *)
  Definition normalize_korean_token (token : str) (num_repeat : Z) : res str :=
    do t <- normalize_emoji token; Ok (remove_repeat t num_repeat).
  (** 13-15 *)
  Definition tok_normalize (sentence : str) (num_repeat : Z) : res str :=
    do ts <- mapM (fun t => normalize_korean_token t num_repeat) (split sentence);
    Ok (join [SP] ts).

  (** ** hangle/_hangle.py:42, 44-74 (deprecated) *)
  Definition old_normalize (doc : str) (english number punctuation : bool) (remove_repeat : Z) (remains : list N) : str :=
    let doc := if (0 <? remove_repeat)%Z then re_repeat_sub word 1 3 (Z.to_nat remove_repeat) doc else doc in
    let f := map (fun c =>
       if c =? SP then c
       else if between kor_begin c kor_end || between jaum_begin c jaum_end || between moum_begin c moum_end then c
       else if english && (between 97 c 122 || between 65 c 90) then c
       else if number && between 48 c 57 then c
       else if punctuation && ((c =? 33) || (c =? 34) || (c =? 39) || (c =? 44) || (c =? 46) || (c =? 63) || (c =? 96)) then c
       else if mem c remains then c
       else SP) doc in
    strip (collapse f).
End Norm.
