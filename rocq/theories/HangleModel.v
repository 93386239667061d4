(** * Model of soynlp/hangle/_hangle.py *)
From Verif Require Import PyBase PyText.
Open Scope N_scope.

(** hangle/_hangle.py:11-18 *)
Definition kor_begin : N := 44032.
Definition kor_end : N := 55203.
Definition chosung_base : N := 588.
Definition jungsung_base : N := 28.
Definition jaum_begin : N := 12593.
Definition jaum_end : N := 12622.
Definition moum_begin : N := 12623.
Definition moum_end : N := 12643.

(** hangle/_hangle.py:20-39. Each Python list element is a one-character string,
    modelled as a code point. *)
Definition chosung_list : list N := Eval vm_compute in u "ㄱㄲㄴㄷㄸㄹㅁㅂㅃㅅㅆㅇㅈㅉㅊㅋㅌㅍㅎ".
Definition jungsung_list : list N := Eval vm_compute in u "ㅏㅐㅑㅒㅓㅔㅕㅖㅗㅘㅙㅚㅛㅜㅝㅞㅟㅠㅡㅢㅣ".
Definition jongsung_list : list N := Eval vm_compute in u " ㄱㄲㄳㄴㄵㄶㄷㄹㄺㄻㄼㄽㄾㄿㅀㅁㅂㅄㅅㅆㅇㅈㅊㅋㅌㅍㅎ".
Definition jaum_list : list N := Eval vm_compute in u "ㄱㄲㄳㄴㄵㄶㄷㄸㄹㄺㄻㄼㄽㄾㄿㅀㅁㅂㅃㅄㅅㅆㅇㅈㅉㅊㅋㅌㅍㅎ".
Definition moum_list : list N := Eval vm_compute in u "ㅏㅐㅑㅒㅓㅔㅕㅖㅗㅘㅙㅚㅛㅜㅝㅞㅟㅠㅡㅢㅣ".

(** Python's [l.index(x)]: first position, ValueError if absent. *)
Fixpoint index_of (l : list N) (x : N) : res N :=
  match l with
  | [] => Err ValueError
  | y :: l' => if y =? x then Ok 0 else do i <- index_of l' x; Ok (i + 1)
  end.

(** Python's [l\[i\]] for [i >= 0]. *)
Definition list_at (l : list N) (i : N) : res N :=
  match nth_error l (N.to_nat i) with Some x => Ok x | None => Err IndexError end.

(** hangle/_hangle.py:93-104, 118-128. [to_base] (106-116) is [ord]; arguments that are
    not one-character strings (TypeError) are outside the model. *)
Definition between (a i b : N) : bool := (a <=? i) && (i <=? b).
Definition character_is_korean (c : N) : bool :=
  between kor_begin c kor_end || between jaum_begin c jaum_end || between moum_begin c moum_end.
Definition character_is_complete_korean (c : N) : bool := between kor_begin c kor_end.
Definition character_is_jaum (c : N) : bool := between jaum_begin c jaum_end.
Definition character_is_moum (c : N) : bool := between moum_begin c moum_end.
Definition character_is_number (i : N) : bool := between 48 i 57.
Definition character_is_english (i : N) : bool := between 97 i 122 || between 65 i 90.
Definition character_is_punctuation (i : N) : bool :=
  (i =? 33) || (i =? 34) || (i =? 39) || (i =? 44) || (i =? 46) || (i =? 63) || (i =? 96).

(** hangle/_hangle.py:76-77 *)
Definition compose (chosung jungsung jongsung : N) : res N :=
  do i <- index_of chosung_list chosung;
  do j <- index_of jungsung_list jungsung;
  do k <- index_of jongsung_list jongsung;
  Ok (kor_begin + chosung_base * i + jungsung_base * j + k).

(** hangle/_hangle.py:79-91, with the list accesses that could raise *)
Definition decompose_res (c : N) : res (option (N * N * N)) :=
  if negb (character_is_korean c) then Ok None else
  if between jaum_begin c jaum_end then Ok (Some (c, SP, SP)) else
  if between moum_begin c moum_end then Ok (Some (SP, c, SP)) else
  let i := c - kor_begin in
  let cho := i / chosung_base in
  let jung := (i - cho * chosung_base) / jungsung_base in
  let jong := i - cho * chosung_base - jung * jungsung_base in
  do a <- list_at chosung_list cho;
  do b <- list_at jungsung_list jung;
  do d <- list_at jongsung_list jong;
  Ok (Some (a, b, d)).

(** The same as a total function (no list access can fail, see
    [HangleProofs.decompose_res_ok]); used by the other models. *)
Definition decompose (c : N) : option (N * N * N) :=
  match decompose_res c with Ok o => o | Err _ => None end.

(** ** class ConvolutionHangleEncoder, hangle/_hangle.py:130-219 *)
(** 135-140 *)
Definition enc_jung_begin : Z := 19.
Definition enc_jong_begin : Z := 40.
Definition enc_number_begin : Z := 68.
Definition enc_space : Z := 78.
Definition enc_unk : Z := 79.
Definition enc_dim : Z := 80.
(** 141-145: entries are strings, the last one is '<unk>' *)
Definition enc_num : list N := Eval vm_compute in u "0123456789".
Definition enc_idx_to_char : list str :=
  map (fun c => [c]) (chosung_list ++ jungsung_list ++ jongsung_list ++ enc_num ++ [SP]) ++ [u "<unk>"].
(** 146-154 *)
Definition enc_jamo_to_idx : list (N * Z) := Eval vm_compute in
  combine (u "ㄱㄲㄴㄷㄸㄹㅁㅂㅃㅅㅆㅇㅈㅉㅊㅋㅌㅍㅎㅏㅐㅑㅒㅓㅔㅕㅖㅗㅘㅙㅚㅛㅜㅝㅞㅟㅠㅡㅢㅣ ㄳㄵㄶㄺㄻㄼㄽㄾㄿㅀㅄ")
          [0;1;2;3;4;5;6;7;8;9;10;11;12;13;14;15;16;17;18;19;20;21;22;23;24;25;26;27;28;29;30;31;32;33;34;35;36;37;38;39;
           40;43;45;46;49;50;51;52;53;54;55;58]%Z.

(** 201-206: the class [ㄱ-ㅎㅏ-ㅣ가-힣 0-9] *)
Definition enc_keep (c : N) : bool :=
  between jaum_begin c jaum_end || between moum_begin c moum_end || between kor_begin c kor_end
  || (c =? SP) || between 48 c 57.
Definition enc_normalize (sent : str) : str := strip (collapse (blank_unless enc_keep sent)).

Fixpoint assocZ (l : list (N * Z)) (c : N) (d : Z) : Z :=
  match l with [] => d | (k, v) :: l' => if k =? c then v else assocZ l' c d end.

(** 211-219 *)
Definition enc_decompose (c : N) : list Z :=
  if between kor_begin c kor_end then
    let i := c - kor_begin in
    let cho := i / chosung_base in
    let jung := (i - cho * chosung_base) / jungsung_base in
    let jong := i - cho * chosung_base - jung * jungsung_base in
    [Z.of_N cho; (enc_jung_begin + Z.of_N jung)%Z; (enc_jong_begin + Z.of_N jong)%Z]
  else [assocZ enc_jamo_to_idx c enc_unk].

(** 168-174: one character *)
Definition enc_char (c : N) : list Z :=
  if c =? 32 then [enc_space]
  else if between 48 c 57 then [(Z.of_N c - 48 + enc_number_begin)%Z]
  else enc_decompose c.

(** 164-175 *)
Definition sent_to_onehot (sent : str) : list (list Z) := map enc_char (enc_normalize sent).

(** [self.idx_to_char\[i\]] for [0 <= i] *)
Definition enc_at (i : Z) : res str :=
  match nth_error enc_idx_to_char (Z.to_nat i) with Some s => Ok s | None => Err IndexError end.

(** [compose] applied to strings taken from idx_to_char *)
Definition compose_str (a b c : str) : res N :=
  match a, b, c with
  | [x], [y], [z] => compose x y z
  | _, _, _ => Err ValueError
  end.

(** 177-199, one entry *)
Definition dec_entry (c : list Z) : res str :=
  match c with
  | [i] =>
    if ((0 <=? i) && (i <? enc_dim))%Z then enc_at i else Err ValueError
  | [cho; jung; jong] =>
    if negb ((0 <=? cho) && (cho <? enc_jung_begin))%Z then Err ValueError else
    if negb ((enc_jung_begin <=? jung) && (jung <? enc_jong_begin))%Z then Err ValueError else
    if negb ((enc_jong_begin <=? jong) && (jong <? enc_number_begin))%Z then Err ValueError else
    do a <- enc_at cho;
    do b <- enc_at jung;
    do d <- enc_at jong;
    do x <- compose_str a b d;
    Ok [x]
  | _ => Ok (u "<unk>")
  end.
(** 177-199 *)
Definition onehot_to_sent (encoded : list (list Z)) : res str :=
  do chars <- mapM dec_entry encoded; Ok (concat chars).

(** 156-162. [x\[i,j\] = 1] on a fresh zero matrix of [len(onehot)] rows and 80 columns;
    an index outside [0,80) raises IndexError (no negative index is ever produced). *)
Definition one_hot_row (xi : list Z) : res (list Z) :=
  if forallb (fun j => (0 <=? j) && (j <? enc_dim))%Z xi
  then Ok (map (fun j => if existsb (Z.eqb (Z.of_nat j)) xi then 1 else 0)%Z (seq 0 (Z.to_nat enc_dim)))
  else Err IndexError.
Definition encode (sent : str) : res (list (list Z)) := mapM one_hot_row (sent_to_onehot sent).
