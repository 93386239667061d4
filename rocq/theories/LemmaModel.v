(** * Model of soynlp/lemmatizer/_conjugation.py and _lemmatizer.py
    A Python set is the list of its elements in the order of insertion (only membership and emptiness are observable); debug output is
    not modelled. Jamo and syllables are one-character strings, i.e. code points. *)
From Coq Require Strings.Byte.
From Verif Require Import PyBase HangleModel.
Open Scope N_scope.

(** notation for one character: ["ㄷ"%ch] is the code point of ㄷ *)
Definition char_parse (l : list Byte.byte) : option N := match utf8 (map Byte.to_N l) with [c] => Some c | _ => None end.
Definition char_print (c : N) : option (list Byte.byte) := None.
Declare Scope ch_scope. Delimit Scope ch_scope with ch.
String Notation N char_parse char_print : ch_scope.

(** [list(decompose(c))]: TypeError for characters that are not Korean *)
Definition parts_of (c : N) : res (N * N * N) := match decompose c with Some t => Ok t | None => Err TypeError end.
(** [s\[-1\]] and [s\[-2\]] *)
Definition at_last (s : str) : res N := match rev s with c :: _ => Ok c | [] => Err IndexError end.
Definition at_last2 (s : str) : res N := match rev s with _ :: c :: _ => Ok c | _ => Err IndexError end.
(** [s\[-2:\]], [s\[:-2\]] *)
Definition last_two (s : str) : str := skipn (length s - 2) s.
Definition but_last_two (s : str) : str := firstn (length s - 2) s.
Definition setadd {A} `{EqB A} (s : list A) (x : A) : list A := if mem x s then s else s ++ [x].
Definition setupdate {A} `{EqB A} (s l : list A) : list A := fold_left setadd l s.
(** the rules of a function run in order; each adds elements to the set or raises *)
Fixpoint run_rules {A} `{EqB A} (acc : list A) (rules : list (res (list A))) : res (list A) :=
  match rules with [] => Ok acc | r :: rs => do l <- r; run_rules (setupdate acc l) rs end.

(** _conjugation.py:5-19 *)
Definition positive_moum : list N := Eval vm_compute in u "ㅏㅑㅗㅛ".
Definition negative_moum : list N := Eval vm_compute in u "ㅓㅕㅜㅠ".
Definition neuter_moum : list N := Eval vm_compute in u "ㅡㅣ".
Definition pos_to_neg (c : N) : N :=
  if c =? "ㅏ"%ch then "ㅓ"%ch else if c =? "ㅑ"%ch then "ㅕ"%ch else if c =? "ㅗ"%ch then "ㅜ"%ch else if c =? "ㅛ"%ch then "ㅠ"%ch else c.
Definition neg_to_pos (c : N) : N :=
  if c =? "ㅓ"%ch then "ㅏ"%ch else if c =? "ㅕ"%ch then "ㅑ"%ch else if c =? "ㅜ"%ch then "ㅗ"%ch else if c =? "ㅠ"%ch then "ㅛ"%ch else c.

(** what the rules of [conjugate] see: the stem and the ending, the parts l0 l1 l2 of the last character of the stem, r0 r1 r2 of the first
    character of the ending, and r_first_ *)
Record cctx := mkCctx { c_stem : str; c_ending : str; l0 : N; l1 : N; l2 : N; r0 : N; r1 : N; r2 : N; rf : N }.
Section Rules.
  Variable x : cctx.
  (** [stem\[:-1\]], [stem\[-1\]], [ending\[1:\]], [ending\[0\]] of non-empty strings *)
  Let p := removelast (c_stem x).
  Let lc := last (c_stem x) 0.
  Let t := tl (c_ending x).
  Let rc := hd 0 (c_ending x).
  Let len := length (c_stem x).
  (** 84-88 *)
  Definition rule_da : res (list str) := if rc =? "다"%ch then Ok [c_stem x ++ c_ending x] else Ok [].
  (** 91-97 *)
  Definition rule_d : res (list str) :=
    if (l2 x =? "ㄷ"%ch) && (r0 x =? "ㅇ"%ch)
    then do c <- compose (l0 x) (l1 x) "ㄹ"%ch; Ok [p ++ [c] ++ c_ending x; c_stem x ++ c_ending x] else Ok [].
  (** 100-108 *)
  Definition rule_reu : res (list str) :=
    if ((lc =? "르"%ch) && negb (eqb (last_two (c_stem x)) (u "푸르"))) && ((rf x =? "아"%ch) || (rf x =? "어"%ch)) && (2 <=? len)%nat
    then do q <- at_last2 (c_stem x); do cs <- parts_of q; let '(c0, c1, c2) := cs in
         do a <- compose c0 c1 "ㄹ"%ch; do b <- compose "ㄹ"%ch (r1 x) (r2 x); Ok [but_last_two (c_stem x) ++ [a] ++ [b] ++ t]
    else Ok [].
  (** 113-135 *)
  Definition rule_b : res (list str) :=
    if l2 x =? "ㅂ"%ch then
      do c <- compose (l0 x) (l1 x) " "%ch;
      if (rf x =? "어"%ch) || (rf x =? "아"%ch) then
        let c1 := if (2 <=? len)%nat && ((lc =? "답"%ch) || (lc =? "곱"%ch) || (lc =? "깝"%ch) || (lc =? "롭"%ch)) then "ㅝ"%ch
                  else if r1 x =? "ㅗ"%ch then "ㅘ"%ch else if r1 x =? "ㅜ"%ch then "ㅝ"%ch
                  else if rf x =? "어"%ch then "ㅝ"%ch else "ㅘ"%ch in
        do d <- compose "ㅇ"%ch c1 (r2 x); Ok [p ++ [c] ++ [d] ++ t]
      else if r0 x =? "ㅇ"%ch then Ok [p ++ [c] ++ c_ending x] else Ok []
    else Ok [].
  (** 139-147; the inner test on r_first[1] is never true *)
  Definition rule_final : res (list str) :=
    if (r1 x =? " "%ch) && ((r0 x =? "ㄴ"%ch) || (r0 x =? "ㄹ"%ch) || (r0 x =? "ㅁ"%ch) || (r0 x =? "ㅂ"%ch) || (r0 x =? "ㅆ"%ch))
    then do c <- compose (l0 x) (l1 x) (r0 x); Ok [p ++ [c] ++ t] else Ok [].
  (** 151-159 *)
  Definition rule_s : res (list str) :=
    if (l2 x =? "ㅅ"%ch) && (r0 x =? "ㅇ"%ch) then
      if lc =? "벗"%ch then Ok [c_stem x ++ c_ending x] else do c <- compose (l0 x) (l1 x) " "%ch; Ok [p ++ [c] ++ c_ending x]
    else Ok [].
  (** 162-171 *)
  Definition rule_u : res (list str) :=
    if (l1 x =? "ㅜ"%ch) && (l2 x =? " "%ch) && (r0 x =? "ㅇ"%ch) && (r1 x =? "ㅓ"%ch) then
      if lc =? "푸"%ch then Ok [p ++ ["퍼"%ch] ++ t] else do c <- compose (l0 x) "ㅝ"%ch (r2 x); Ok [p ++ [c] ++ t]
    else Ok [].
  (** 174-180 *)
  Definition rule_o : res (list str) :=
    if (l1 x =? "ㅗ"%ch) && (l2 x =? " "%ch) && (r0 x =? "ㅇ"%ch) && (r1 x =? "ㅏ"%ch)
    then do c <- compose (l0 x) "ㅘ"%ch (r2 x); Ok [p ++ [c] ++ t] else Ok [].
  (** 183-193 *)
  Definition rule_eu : res (list str) :=
    if (l1 x =? "ㅡ"%ch) && (l2 x =? " "%ch) && (r0 x =? "ㅇ"%ch) then
      if (l0 x =? "ㅇ"%ch) && (1 <? len)%nat then Ok [p ++ c_ending x]
      else if negb (l0 x =? "ㄹ"%ch) then do c <- compose (l0 x) (r1 x) (r2 x); Ok [p ++ [c] ++ t]
      else Ok []
    else Ok [].
  (** 197-220 *)
  Definition rule_ara : res (list str) :=
    if eqb (firstn 2 (c_ending x)) (u "어라") || eqb (firstn 2 (c_ending x)) (u "아라") then
      if lc =? "오"%ch then Ok [p ++ ["와"%ch] ++ t]
      else if lc =? "우"%ch then Ok [p ++ ["워"%ch] ++ t]
      else if lc =? "가"%ch then Ok [c_stem x ++ t]
      else if mem (l1 x) negative_moum then Ok [c_stem x ++ ["어"%ch] ++ t] else Ok [c_stem x ++ ["아"%ch] ++ t]
    else Ok [].
  (** 223-229 *)
  Definition rule_reo : res (list str) :=
    if ((lc =? "르"%ch) && negb (eqb (last_two (c_stem x)) (u "구르"))) && ((r0 x =? "ㅇ"%ch) && (r1 x =? "ㅓ"%ch))
    then do c <- compose "ㄹ"%ch (r1 x) (r2 x); Ok [c_stem x ++ [c] ++ t] else Ok [].
  (** 233-244 *)
  Definition rule_yeo : res (list str) :=
    if (lc =? "하"%ch) && (r0 x =? "ㅇ"%ch) && ((r1 x =? "ㅏ"%ch) || (r1 x =? "ㅓ"%ch))
    then do c <- compose (r0 x) "ㅕ"%ch (r2 x); do d <- compose "ㅎ"%ch "ㅐ"%ch (r2 x); Ok [c_stem x ++ [c] ++ t; p ++ [d] ++ t] else Ok [].
  (** 248-257 *)
  Definition rule_h_drop : res (list str) :=
    if (l2 x =? "ㅎ"%ch) && negb (r1 x =? " "%ch) then
      if (lc =? "좋"%ch) || (lc =? "놓"%ch) then Ok [c_stem x ++ c_ending x] else do c <- compose (l0 x) (l1 x) " "%ch; Ok [p ++ [c] ++ c_ending x]
    else Ok [].
  (** 261-268; [and] binds stronger than [or] *)
  Definition rule_h_contract : res (list str) :=
    if ((l2 x =? "ㅎ"%ch) && negb (lc =? "좋"%ch)) && ((r0 x =? "ㅇ"%ch) && (r1 x =? "ㅏ"%ch) || (r1 x =? "ㅓ"%ch))
    then do c <- compose (l0 x) (if r1 x =? "ㅏ"%ch then "ㅐ"%ch else "ㅔ"%ch) (r2 x); Ok [p ++ [c] ++ t] else Ok [].
  (** 272-276 *)
  Definition rule_h_n : res (list str) :=
    if (l2 x =? "ㅎ"%ch) && (r0 x =? "ㄴ"%ch) && negb (r1 x =? " "%ch) then Ok [c_stem x ++ c_ending x] else Ok [].
  (** 279-285 *)
  Definition rule_i : res (list str) :=
    if (rf x =? "어"%ch) && (l1 x =? "ㅣ"%ch) && (l2 x =? " "%ch)
    then do c <- compose (l0 x) "ㅕ"%ch (r2 x); Ok [p ++ [c] ++ t; c_stem x ++ c_ending x] else Ok [].
  (** 287-297: only if nothing was found *)
  Definition rule_regular : res (list str) :=
    if negb (r1 x =? " "%ch) then
      if (l2 x =? " "%ch) && (r0 x =? "ㅇ"%ch) && (r1 x =? l1 x) then do c <- compose (l0 x) (l1 x) (r2 x); Ok [p ++ [c] ++ t]
      else Ok [c_stem x ++ c_ending x]
    else Ok [].
  Definition conj_rules : list (res (list str)) :=
    [rule_da; rule_d; rule_reu; rule_b; rule_final; rule_s; rule_u; rule_o; rule_eu; rule_ara; rule_reo; rule_yeo; rule_h_drop;
     rule_h_contract; rule_h_n; rule_i].
End Rules.

(** _conjugation.py:57-68: with enforce_moum_harmoney the first character of the ending is changed; the state is (ending, r_first) *)
Definition set_vowel (v : N) (st : str * (N * N * N)) : res (str * (N * N * N)) :=
  let '(e, (a, _, d)) := st in do c <- compose a v d; Ok (c :: tl e, (a, v, d)).
Definition harmonize (L : N * N * N) (st : str * (N * N * N)) : res (str * (N * N * N)) :=
  let '(la, lb, lf) := L in
  let cond1 (st : str * (N * N * N)) := let '(e, (a, b, d)) := st in negb (lf =? "ㅂ"%ch) && mem lb positive_moum && ((a =? "ㅇ"%ch) && mem b negative_moum) in
  let cond2 (st : str * (N * N * N)) := let '(e, (a, b, d)) := st in negb (lf =? "ㅂ"%ch) && mem lb negative_moum && ((a =? "ㅇ"%ch) && mem b positive_moum) in
  let cond3 (st : str * (N * N * N)) := let '(e, (a, b, d)) := st in mem lb neuter_moum && mem b positive_moum in
  let vow (st : str * (N * N * N)) := snd (fst (snd st)) in
  do st <- (if cond1 st then set_vowel (neg_to_pos (vow st)) st else Ok st);
  do st <- (if cond2 st then set_vowel (pos_to_neg (vow st)) st else Ok st);
  if cond3 st then set_vowel (pos_to_neg (vow st)) st else Ok st.

(** _conjugation.py:46-299 *)
Definition conjugate (stem ending : str) (enforce : bool) : res (list str) :=
  match ending with
  | [] => Err AssertionError
  | e0 :: _ =>
    do lc <- at_last stem; do L <- parts_of lc; do R <- parts_of e0;
    do st <- (if enforce then harmonize L (ending, R) else Ok (ending, R));
    let '(ending, (a, b, d)) := st in
    do rf <- (if negb (b =? " "%ch) then compose a b " "%ch else Ok (hd 0 ending));
    let x := mkCctx stem ending (fst (fst L)) (snd (fst L)) (snd L) a b d rf in
    do cs <- run_rules [] (conj_rules x);
    match cs with [] => run_rules [] [rule_regular x] | _ => Ok cs end
  end.

(** _conjugation.py:21-44 *)
Definition conjugate_chat (stem ending : str) (enforce : bool) : res (list str) :=
  match ending with
  | [] => Ok [stem]
  | e0 :: t =>
    do cs <- conjugate stem ending enforce;
    do lc <- at_last stem; do L <- parts_of lc; do R <- parts_of e0;
    let '(a, b, _) := R in
    if (b =? " "%ch) && negb (a =? " "%ch)
    then do c <- compose (fst (fst L)) (snd (fst L)) a; Ok (setadd cs (removelast stem ++ [c] ++ t))
    else Ok cs
  end.

(** ** _conjugation.py:301-418, _conjugate_stem *)
Section Stem.
  Variable stem : str.
  Variables l0 l1 l2 : N.
  Let p := removelast stem.
  Let lc := last stem 0.
  Let adds (cs : list (N * N * N)) : res (list str) :=
    mapM (fun abd => let '(a, b, d) := abd in do c <- compose a b d; Ok (p ++ [c])) cs.
  (** 310-314, 317-322, 327-331, 335-341, 345-348 *)
  Definition stem_d := if l2 =? "ㄷ"%ch then adds [(l0, l1, "ㄹ"%ch)] else Ok [].
  Definition stem_reu : res (list str) := if (lc =? "르"%ch) && (2 <=? length stem)%nat
    then do q <- at_last2 stem; do cs <- parts_of q; let '(c0, c1, c2) := cs in do a <- compose c0 c1 "ㄹ"%ch; Ok [but_last_two stem ++ [a]] else Ok [].
  Definition stem_b := if l2 =? "ㅂ"%ch then adds [(l0, l1, " "%ch)] else Ok [].
  Definition stem_final := if l2 =? " "%ch then adds [(l0, l1, "ㄴ"%ch); (l0, l1, "ㄹ"%ch); (l0, l1, "ㅂ"%ch); (l0, l1, "ㅆ"%ch)] else Ok [].
  Definition stem_s := if (l2 =? "ㅅ"%ch) && negb (lc =? "벗"%ch) then adds [(l0, l1, " "%ch)] else Ok [].
  (** 351-358: for 푸 the form 퍼 is computed but not added *)
  Definition stem_u := if (l1 =? "ㅜ"%ch) && (l2 =? " "%ch) then
    if lc =? "푸"%ch then Ok [] else adds [(l0, "ㅝ"%ch, " "%ch); (l0, "ㅝ"%ch, "ㅆ"%ch)] else Ok [].
  (** 361-365, 368-374, 384-388 *)
  Definition stem_o := if (l1 =? "ㅗ"%ch) && (l2 =? " "%ch) then adds [(l0, "ㅘ"%ch, " "%ch); (l0, "ㅘ"%ch, "ㅆ"%ch)] else Ok [].
  Definition stem_eu := if (l1 =? "ㅡ"%ch) && (l2 =? " "%ch) then
    do fs <- adds [(l0, "ㅓ"%ch, " "%ch); (l0, "ㅓ"%ch, "ㅆ"%ch)];
    Ok (if (l0 =? "ㅇ"%ch) && (1 <? length stem)%nat then fs ++ [p] else fs) else Ok [].
  Definition stem_ha : res (list str) := if lc =? "하"%ch then Ok [p ++ ["해"%ch]; p ++ ["했"%ch]] else Ok [].
  (** 392-407, 413-416 *)
  Definition stem_h := if (l2 =? "ㅎ"%ch) && negb (lc =? "좋"%ch)
    then adds [(l0, l1, " "%ch); (l0, l1, "ㄴ"%ch); (l0, l1, "ㄹ"%ch); (l0, l1, "ㅆ"%ch); (l0, "ㅐ"%ch, "ㅆ"%ch)] else Ok [].
  Definition stem_i := if (l1 =? "ㅣ"%ch) && (l2 =? " "%ch) then adds [(l0, "ㅕ"%ch, "ㅆ"%ch)] else Ok [].
  Definition stem_rules := [stem_d; stem_reu; stem_b; stem_final; stem_s; stem_u; stem_o; stem_eu; stem_ha; stem_h; stem_i].
End Stem.
(** a lone jamo as last character makes [decompose] return a tuple, another character None: TypeError at the first subscript *)
Definition conjugate_stem (stem : str) : res (list str) :=
  do lc <- at_last stem; do L <- parts_of lc; run_rules [stem] (stem_rules stem (fst (fst L)) (snd (fst L)) (snd L)).

(** ** _lemmatizer.py *)
(** an element of the candidate set: a pair, or a string coming from a predefined table *)
Inductive item := Pair (stem ending : str) | Word (w : str).
(** keys of the predefined table: words or pairs (l, r) *)
Inductive pkey := KWord (w : str) | KPair (l r : str).
Definition predef := list (pkey * list item).
(** [predefined\[(l, r)\]] for a key present in the table *)
Fixpoint pred_find (d : predef) (l r : str) : option (list item) :=
  match d with
  | [] => None
  | (KPair l' r', v) :: d' => if eqb l l' && eqb r r' then Some v else pred_find d' l r
  | _ :: d' => pred_find d' l r
  end.
(** [stem, ending = item]: a string unpacks into its characters *)
Definition unpack (i : item) : res (str * str) :=
  match i with Pair s e => Ok (s, e) | Word [a; b] => Ok ([a], [b]) | Word _ => Err ValueError end.

(** what the rules of [lemma_candidate] see: l, r, the parts of the last character of l, those of the first character of r (0 for
    the empty strings the code uses when r is empty), and r_first_ *)
Record lctx := mkLctx { q_l : str; q_r : str; m0 : N; m1 : N; m2 : N; s0 : N; s1 : N; s2 : N; sf : N; lf_ : N }.
Section Undo.
  Variable x : lctx.
  Let p := removelast (q_l x).
  Let r := q_r x.
  Let r_end := tl (q_r x).
  (** 78-82 *)
  Definition undo_d : res (list (str * str)) :=
    if (m2 x =? "ㄹ"%ch) && (s0 x =? "ㅇ"%ch) then do c <- compose (m0 x) (m1 x) "ㄷ"%ch; Ok [(p ++ [c], r)] else Ok [].
  (** 85-90 *)
  Definition undo_reu : res (list (str * str)) :=
    if (m2 x =? "ㄹ"%ch) && ((sf x =? "러"%ch) || (sf x =? "라"%ch))
    then do c <- compose (m0 x) (m1 x) " "%ch; do d <- compose "ㅇ"%ch (s1 x) (s2 x); Ok [(p ++ [c] ++ ["르"%ch], [d] ++ r_end)] else Ok [].
  (** 93-103; [s2 x] is 0 only when r is empty, and then neither branch that uses it is taken *)
  Definition undo_b : res (list (str * str)) :=
    if m2 x =? " "%ch then
      do c <- compose (m0 x) (m1 x) "ㅂ"%ch;
      do rc <- (if (sf x =? "워"%ch) || (sf x =? "와"%ch)
                then do d <- compose "ㅇ"%ch (if sf x =? "와"%ch then "ㅏ"%ch else "ㅓ"%ch) (if s2 x =? 0 then " "%ch else s2 x); Ok ([d] ++ r_end)
                else match r_end with
                     | c0 :: _ => if c0 =? "려"%ch then do d <- compose "ㅇ"%ch "ㅜ"%ch (if s2 x =? 0 then " "%ch else s2 x); Ok ([d] ++ r_end) else Ok r
                     | [] => Ok r
                     end);
      Ok [(p ++ [c], rc)]
    else Ok [].
  (** 107-115 *)
  Definition undo_final : res (list (str * str)) :=
    if (m2 x =? "ㄴ"%ch) || (m2 x =? "ㄹ"%ch) || (m2 x =? "ㅁ"%ch) || (m2 x =? "ㅂ"%ch) || (m2 x =? "ㅆ"%ch)
    then mapM (fun j => do c <- compose (m0 x) (m1 x) j; Ok (p ++ [c], [m2 x] ++ r)) (filter (fun j => negb (m2 x =? j)) [" "%ch; "ㄹ"%ch; "ㅂ"%ch; "ㅎ"%ch])
    else Ok [].
  (** 119-123 *)
  Definition undo_s : res (list (str * str)) :=
    if ((m2 x =? " "%ch) && negb (last (q_l x) 0 =? "벗"%ch)) && (s0 x =? "ㅇ"%ch)
    then do c <- compose (m0 x) (m1 x) "ㅅ"%ch; Ok [(p ++ [c], r)] else Ok [].
  (** 126-131 *)
  Definition undo_pu : res (list (str * str)) :=
    if lf_ x =? "퍼"%ch then do d <- compose "ㅇ"%ch (m1 x) (m2 x); Ok [(p ++ ["푸"%ch], [d] ++ r)] else Ok [].
  (** 134-139, 142-147 *)
  Definition undo_u : res (list (str * str)) :=
    if m1 x =? "ㅝ"%ch then do c <- compose (m0 x) "ㅜ"%ch " "%ch; do d <- compose "ㅇ"%ch "ㅓ"%ch (m2 x); Ok [(p ++ [c], [d] ++ r)] else Ok [].
  Definition undo_o : res (list (str * str)) :=
    if m1 x =? "ㅘ"%ch then do c <- compose (m0 x) "ㅗ"%ch " "%ch; do d <- compose "ㅇ"%ch "ㅏ"%ch (m2 x); Ok [(p ++ [c], [d] ++ r)] else Ok [].
  (** 150-155, 158-163 *)
  Definition undo_eu : res (list (str * str)) :=
    if (m1 x =? "ㅓ"%ch) || (m1 x =? "ㅏ"%ch)
    then do c <- compose (m0 x) "ㅡ"%ch " "%ch; do d <- compose "ㅇ"%ch (m1 x) (m2 x); Ok [(p ++ [c], [d] ++ r)] else Ok [].
  Definition undo_eu2 : res (list (str * str)) :=
    if (m2 x =? " "%ch) && (s0 x =? "ㅇ"%ch) && ((s1 x =? "ㅏ"%ch) || (s1 x =? "ㅓ"%ch)) then Ok [(q_l x ++ ["으"%ch], r)] else Ok [].
  (** 180-185 *)
  Definition undo_ha : res (list (str * str)) :=
    if (m0 x =? "ㅎ"%ch) && (m1 x =? "ㅐ"%ch) then do d <- compose "ㅇ"%ch "ㅏ"%ch (m2 x); Ok [(p ++ ["하"%ch], [d] ++ r)] else Ok [].
  (** 188-207 *)
  Definition h_final : bool := (m2 x =? " "%ch) || (m2 x =? "ㄴ"%ch) || (m2 x =? "ㄹ"%ch) || (m2 x =? "ㅂ"%ch) || (m2 x =? "ㅆ"%ch).
  Definition undo_h_drop : res (list (str * str)) :=
    if h_final && ((m1 x =? "ㅏ"%ch) || (m1 x =? "ㅓ"%ch))
    then do c <- compose (m0 x) (m1 x) "ㅎ"%ch; Ok [(p ++ [c], if m2 x =? " "%ch then r else [m2 x] ++ r)] else Ok [].
  Definition undo_h_contract : res (list (str * str)) :=
    if h_final && ((m1 x =? "ㅐ"%ch) || (m1 x =? "ㅔ"%ch)) then
      let v := if m1 x =? "ㅔ"%ch then "ㅓ"%ch else "ㅏ"%ch in
      do st <- (if match rev (q_l x) with _ :: c :: _ => (c =? "그"%ch) && (m0 x =? "ㄹ"%ch) | _ => false end then Ok (p ++ ["렇"%ch])
                else do c <- compose (m0 x) v "ㅎ"%ch; Ok (p ++ [c]));
      do d <- compose "ㅇ"%ch v (m2 x); Ok [(st, [d] ++ r)]
    else Ok [].
  (** 213-222; the inner test always holds when the vowel is ㅕ *)
  Definition undo_i : res (list (str * str)) :=
    if ((m2 x =? "ㅆ"%ch) || (m2 x =? "ㅅ"%ch) || (m2 x =? " "%ch)) && (m1 x =? "ㅕ"%ch)
    then do c <- compose (m0 x) "ㅣ"%ch " "%ch; do d <- compose "ㅇ"%ch "ㅓ"%ch (m2 x); Ok [(p ++ [c], [d] ++ r)] else Ok [].
  Definition undo_rules : list (res (list (str * str))) :=
    [undo_d; undo_reu; undo_b; undo_final; undo_s; undo_pu; undo_u; undo_o; undo_eu; undo_eu2; undo_ha; undo_h_drop; undo_h_contract; undo_i].
End Undo.

(** 231-241: keep what can be conjugated back *)
Fixpoint conjugatable (word : str) (acc : list (str * str)) (cands : list item) : res (list (str * str)) :=
  match cands with
  | [] => Ok acc
  | i :: cs =>
    do se <- unpack i;
    match snd se with
    | [] => conjugatable word acc cs
    | e0 :: _ =>
      do R <- parts_of e0;
      if snd R =? "ㅎ"%ch then conjugatable word acc cs else
      do surfaces <- conjugate (fst se) (snd se) false;
      conjugatable word (if mem word surfaces then setadd acc se else acc) cs
    end
  end.
(** _lemmatizer.py:63-242 *)
Definition lemma_candidate (predefined : predef) (l r : str) : res (list (str * str)) :=
  do lc <- at_last l; do M <- parts_of lc;
  let '(a, b, d) := M in
  do lf <- compose a b " "%ch;
  do S <- match r with [] => Ok ((0, 0, 0), " "%ch) | c :: _ => do t <- parts_of c; do f <- compose (fst (fst t)) (snd (fst t)) " "%ch; Ok (t, f) end;
  let '((s0, s1, s2), sf) := S in
  do cands <- run_rules [(l, r)] (undo_rules (mkLctx l r a b d s0 s1 s2 sf lf));
  conjugatable (l ++ r) [] (map (fun se => Pair (fst se) (snd se)) cands ++ match pred_find predefined l r with Some v => v | None => [] end).

(** 42-61 *)
Definition emoticon_jamo : list N := Eval vm_compute in u "ㄷㅂㅅㅇㅋㅎ".
Definition lemma_candidate_chat (predefined : predef) (l r : str) : res (list (str * str)) :=
  do cs <- lemma_candidate predefined l r;
  do lc <- at_last l; do M <- parts_of lc;
  let '(a, b, d) := M in
  match r with
  | [] => if mem d emoticon_jamo then do c <- compose a b " "%ch; do cs' <- lemma_candidate predefined (removelast l ++ [c]) r; Ok (setupdate cs cs') else Ok cs
  | _ :: _ => Ok cs
  end.

(** ** class Lemmatizer, 6-37 *)
Definition default_predefined : predef := [(KWord (u "불어"), [Word (u "붇다"); Word (u "불다")]); (KWord (u "그래"), [Word (u "그렇다")])].
(** [dict.update]; keys of the two entries above can be overwritten *)
Definition pkey_eqb (a b : pkey) : bool :=
  match a, b with KWord x, KWord y => eqb x y | KPair l r, KPair l' r' => eqb l l' && eqb r r' | _, _ => false end.
Fixpoint pred_set (d : predef) (k : pkey) (v : list item) : predef :=
  match d with [] => [(k, v)] | (k', v') :: d' => if pkey_eqb k k' then (k', v) :: d' else (k', v') :: pred_set d' k v end.
Record lemmatizer := mkLem { lem_stems : list str; lem_endings : list str; lem_predefined : predef }.
Definition new_lemmatizer (stems endings : list str) (predefined : option predef) : lemmatizer :=
  mkLem stems endings (match predefined with None => default_predefined | Some d => fold_left (fun acc kv => pred_set acc (fst kv) (snd kv)) d default_predefined end).
(** 19-29 *)
Fixpoint lemmatize_from (lem : lemmatizer) (check_only_stem : bool) (word : str) (acc : list (str * str)) (is : list nat) : res (list (str * str)) :=
  match is with
  | [] => Ok acc
  | i :: is' =>
    do cs <- lemma_candidate (lem_predefined lem) (firstn i word) (skipn i word);
    lemmatize_from lem check_only_stem word
      (setupdate acc (filter (fun se => mem (fst se) (lem_stems lem) && (check_only_stem || mem (snd se) (lem_endings lem))) cs)) is'
  end.
Definition lemmatize (lem : lemmatizer) (word : str) (check_only_stem : bool) : res (list (str * str)) :=
  lemmatize_from lem check_only_stem word [] (seq 1 (length word)).
(** 31-37: [self.lemma_candidate] does not exist *)
Definition lem_candidates (lem : lemmatizer) (word : str) : res (list (str * str)) :=
  match seq 1 (length word) with [] => Ok [] | _ :: _ => Err AttributeError end.
