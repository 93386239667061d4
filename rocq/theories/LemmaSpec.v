(** * Specification vocabulary for the lemmatizer: conjugation and its inverse as rules on jamo *)
From Verif Require Import PyBase HangleSpec LemmaModel.
Open Scope N_scope.

(** the syllable made of an initial, a vowel and a final (a blank for none) *)
Fixpoint position (x : N) (l : list N) : N := match l with [] => 0 | y :: l' => if y =? x then 0 else 1 + position x l' end.
Definition syl (a b d : N) : N := 44032 + 588 * position a initials + 28 * position b vowels + position d finals.
Definition jamo (a b d : N) : Prop := In a initials /\ In b vowels /\ In d finals.
(** an ending begins with a syllable or with one of the consonants that join the stem *)
Definition head_parts (E o v g : N) : Prop :=
  jamo o v g /\ E = syl o v g \/ (E = "ㄴ"%ch \/ E = "ㄹ"%ch \/ E = "ㅁ"%ch \/ E = "ㅂ"%ch \/ E = "ㅆ"%ch) /\ o = E /\ v = " "%ch /\ g = " "%ch.
Definition a_or_eo (v : N) : Prop := v = "ㅏ"%ch \/ v = "ㅓ"%ch.

(** ** Conjugation *)
Inductive rule :=
| Rda | Rd | Rd_keep | Rreu | Rb_a | Rb_vowel | Rfinal | Rs | Rs_keep | Rpu | Ru | Ro | Reu_drop | Reu | Rara_o | Rara_u | Rara_ga | Rara
| Rreo | Ryeo | Rhae | Rh_keep | Rh_drop | Rh_contract | Rh_n | Ri | Ri_keep.
(** The stem is p followed by the syllable of a, b, f; the ending is the character E followed by t, where E is the syllable of o, v, g
    (or the consonant o, with blanks for v and g). [by_rule] says that s is a surface form by the given rule. *)
Definition by_rule (p : str) (a b f E o v g : N) (t : str) (r : rule) (s : str) : Prop :=
  let L := syl a b f in
  match r with
  | Rda => E = "다"%ch /\ s = p ++ L :: E :: t
  | Rd => f = "ㄷ"%ch /\ o = "ㅇ"%ch /\ s = p ++ syl a b "ㄹ"%ch :: E :: t                      (* 깨닫 + 아 -> 깨달아 *)
  | Rd_keep => f = "ㄷ"%ch /\ o = "ㅇ"%ch /\ s = p ++ L :: E :: t                               (* 받 + 았다 -> 받았다 *)
  | Rreu => exists q x y z, p = q ++ [syl x y z] /\ jamo x y z /\ L = "르"%ch /\ syl x y z <> "푸"%ch /\ o = "ㅇ"%ch /\ a_or_eo v /\
      s = q ++ syl x y "ㄹ"%ch :: syl "ㄹ"%ch v g :: t                                          (* 구르 + 어 -> 굴러 *)
  | Rb_a => f = "ㅂ"%ch /\ o = "ㅇ"%ch /\ a_or_eo v /\
      exists w, (w = "ㅝ"%ch /\ (v = "ㅓ"%ch \/ p <> [] /\ (L = "답"%ch \/ L = "곱"%ch \/ L = "깝"%ch \/ L = "롭"%ch)) \/
                 w = "ㅘ"%ch /\ v = "ㅏ"%ch /\ ~ (p <> [] /\ (L = "답"%ch \/ L = "곱"%ch \/ L = "깝"%ch \/ L = "롭"%ch))) /\
      s = p ++ syl a b " "%ch :: syl "ㅇ"%ch w g :: t                                           (* 더럽 + 어 -> 더러워 *)
  | Rb_vowel => f = "ㅂ"%ch /\ o = "ㅇ"%ch /\ ~ a_or_eo v /\ s = p ++ syl a b " "%ch :: E :: t   (* 돕 + 울까 -> 도울까 *)
  | Rfinal => v = " "%ch /\ s = p ++ syl a b o :: t                                             (* 이 + ㅂ니다 -> 입니다 *)
  | Rs => f = "ㅅ"%ch /\ o = "ㅇ"%ch /\ L <> "벗"%ch /\ s = p ++ syl a b " "%ch :: E :: t        (* 붓 + 어 -> 부어 *)
  | Rs_keep => L = "벗"%ch /\ o = "ㅇ"%ch /\ s = p ++ L :: E :: t
  | Rpu => L = "푸"%ch /\ o = "ㅇ"%ch /\ v = "ㅓ"%ch /\ s = p ++ "퍼"%ch :: t                    (* 푸 + 어 -> 퍼 *)
  | Ru => b = "ㅜ"%ch /\ f = " "%ch /\ L <> "푸"%ch /\ o = "ㅇ"%ch /\ v = "ㅓ"%ch /\ s = p ++ syl a "ㅝ"%ch g :: t   (* 주 + 어 -> 줘 *)
  | Ro => b = "ㅗ"%ch /\ f = " "%ch /\ o = "ㅇ"%ch /\ v = "ㅏ"%ch /\ s = p ++ syl a "ㅘ"%ch g :: t                  (* 오 + 았어 -> 왔어 *)
  | Reu_drop => L = "으"%ch /\ p <> [] /\ o = "ㅇ"%ch /\ s = p ++ E :: t                         (* 모으 + 았다 -> 모았다 *)
  | Reu => b = "ㅡ"%ch /\ f = " "%ch /\ o = "ㅇ"%ch /\ a <> "ㄹ"%ch /\ ~ (a = "ㅇ"%ch /\ p <> []) /\ s = p ++ syl a v g :: t   (* 끄 + 어 -> 꺼 *)
  | Rara_o => L = "오"%ch /\ (E = "어"%ch \/ E = "아"%ch) /\ (exists t', t = "라"%ch :: t') /\ s = p ++ "와"%ch :: t
  | Rara_u => L = "우"%ch /\ (E = "어"%ch \/ E = "아"%ch) /\ (exists t', t = "라"%ch :: t') /\ s = p ++ "워"%ch :: t
  | Rara_ga => L = "가"%ch /\ (E = "어"%ch \/ E = "아"%ch) /\ (exists t', t = "라"%ch :: t') /\ s = p ++ L :: t
  | Rara => L <> "오"%ch /\ L <> "우"%ch /\ L <> "가"%ch /\ (E = "어"%ch \/ E = "아"%ch) /\ (exists t', t = "라"%ch :: t') /\
      let dark := b = "ㅓ"%ch \/ b = "ㅕ"%ch \/ b = "ㅜ"%ch \/ b = "ㅠ"%ch in
      (dark /\ s = p ++ L :: "어"%ch :: t \/ ~ dark /\ s = p ++ L :: "아"%ch :: t)
  | Rreo => L = "르"%ch /\ (forall q, p <> q ++ ["구"%ch]) /\ o = "ㅇ"%ch /\ v = "ㅓ"%ch /\ s = p ++ L :: syl "ㄹ"%ch "ㅓ"%ch g :: t   (* 이르 + 어 -> 이르러 *)
  | Ryeo => L = "하"%ch /\ o = "ㅇ"%ch /\ a_or_eo v /\ s = p ++ L :: syl "ㅇ"%ch "ㅕ"%ch g :: t  (* 하 + 았다 -> 하였다 *)
  | Rhae => L = "하"%ch /\ o = "ㅇ"%ch /\ a_or_eo v /\ s = p ++ syl "ㅎ"%ch "ㅐ"%ch g :: t       (* 하 + 았다 -> 했다 *)
  | Rh_keep => (L = "좋"%ch \/ L = "놓"%ch) /\ v <> " "%ch /\ s = p ++ L :: E :: t
  | Rh_drop => f = "ㅎ"%ch /\ L <> "좋"%ch /\ L <> "놓"%ch /\ v <> " "%ch /\ s = p ++ syl a b " "%ch :: E :: t    (* 파랗 + 면 -> 파라면 *)
  | Rh_contract => f = "ㅎ"%ch /\ L <> "좋"%ch /\
      (o = "ㅇ"%ch /\ v = "ㅏ"%ch /\ s = p ++ syl a "ㅐ"%ch g :: t \/ v = "ㅓ"%ch /\ s = p ++ syl a "ㅔ"%ch g :: t)   (* 파랗 + 았다 -> 파랬다 *)
  | Rh_n => f = "ㅎ"%ch /\ o = "ㄴ"%ch /\ v <> " "%ch /\ s = p ++ L :: E :: t
  | Ri => b = "ㅣ"%ch /\ f = " "%ch /\ o = "ㅇ"%ch /\ v = "ㅓ"%ch /\ s = p ++ syl a "ㅕ"%ch g :: t                    (* 만지 + 었어 -> 만졌어 *)
  | Ri_keep => b = "ㅣ"%ch /\ f = " "%ch /\ o = "ㅇ"%ch /\ v = "ㅓ"%ch /\ s = p ++ L :: E :: t
  end.
(** the regular form: contraction of equal vowels, else concatenation *)
Definition regular_form (p : str) (a b f E o v g : N) (t : str) (s : str) : Prop :=
  v <> " "%ch /\ (f = " "%ch /\ o = "ㅇ"%ch /\ v = b /\ s = p ++ syl a b g :: t \/
                  ~ (f = " "%ch /\ o = "ㅇ"%ch /\ v = b) /\ s = p ++ syl a b f :: E :: t).
(** the surface forms: those of the rules; the regular form only if no rule applies *)
Definition surface_form (p : str) (a b f E o v g : N) (t : str) (s : str) : Prop :=
  (exists r, by_rule p a b f E o v g t r s) \/ (forall r s', ~ by_rule p a b f E o v g t r s') /\ regular_form p a b f E o v g t s.
(** the same for strings *)
Definition surface_of (stem ending s : str) : Prop :=
  exists p a b f E o v g t, stem = p ++ [syl a b f] /\ jamo a b f /\ ending = E :: t /\ head_parts E o v g /\ surface_form p a b f E o v g t s.
(** the syllable before a final 르 is looked at; it must be one *)
Definition good_stem (stem : str) : Prop :=
  exists p c, stem = p ++ [c] /\ syllable c /\ (c = "르"%ch -> forall q c', p = q ++ [c'] -> syllable c').
Definition good_ending (ending : str) : Prop :=
  exists E t, ending = E :: t /\ (syllable E \/ E = "ㄴ"%ch \/ E = "ㄹ"%ch \/ E = "ㅁ"%ch \/ E = "ㅂ"%ch \/ E = "ㅆ"%ch).

(** vowel harmony: the ending an ending is replaced with *)
Definition bright_dark (x y : N) : Prop :=
  x = "ㅏ"%ch /\ y = "ㅓ"%ch \/ x = "ㅑ"%ch /\ y = "ㅕ"%ch \/ x = "ㅗ"%ch /\ y = "ㅜ"%ch \/ x = "ㅛ"%ch /\ y = "ㅠ"%ch.
Definition bright (v : N) : Prop := exists y, bright_dark v y.
Definition dark (v : N) : Prop := exists x, bright_dark x v.
(** the vowel v of an ending after a syllable with the vowel b and the final f becomes w *)
Definition harmonic (b f o v w : N) : Prop :=
  (f <> "ㅂ"%ch /\ bright b /\ o = "ㅇ"%ch /\ bright_dark w v) \/
  (f <> "ㅂ"%ch /\ dark b /\ o = "ㅇ"%ch /\ bright_dark v w) \/
  ((b = "ㅡ"%ch \/ b = "ㅣ"%ch) /\ bright_dark v w) \/
  (w = v /\ ~ (f <> "ㅂ"%ch /\ bright b /\ o = "ㅇ"%ch /\ dark v) /\ ~ (f <> "ㅂ"%ch /\ dark b /\ o = "ㅇ"%ch /\ bright v) /\ ~ ((b = "ㅡ"%ch \/ b = "ㅣ"%ch) /\ bright v)).

(** ** Analysis: l ends in the syllable of a, b, f after p; r is given; (stem, ending) is a proposal *)
Inductive proposal (p : str) (a b f : N) (r : str) : str -> str -> Prop :=
| P_same : proposal p a b f r (p ++ [syl a b f]) r
| P_d v g t : f = "ㄹ"%ch -> jamo "ㅇ"%ch v g -> r = syl "ㅇ"%ch v g :: t -> proposal p a b f r (p ++ [syl a b "ㄷ"%ch]) r
| P_reu v g t : f = "ㄹ"%ch -> a_or_eo v -> In g finals -> r = syl "ㄹ"%ch v g :: t -> proposal p a b f r (p ++ [syl a b " "%ch; "르"%ch]) (syl "ㅇ"%ch v g :: t)
| P_b_eo g t : f = " "%ch -> In g finals -> r = syl "ㅇ"%ch "ㅝ"%ch g :: t -> proposal p a b f r (p ++ [syl a b "ㅂ"%ch]) (syl "ㅇ"%ch "ㅓ"%ch g :: t)
| P_b_a g t : f = " "%ch -> In g finals -> r = syl "ㅇ"%ch "ㅘ"%ch g :: t -> proposal p a b f r (p ++ [syl a b "ㅂ"%ch]) (syl "ㅇ"%ch "ㅏ"%ch g :: t)
| P_b_u o v g t : f = " "%ch -> jamo o v g -> ~ (o = "ㅇ"%ch /\ (v = "ㅝ"%ch \/ v = "ㅘ"%ch)) -> r = syl o v g :: "려"%ch :: t ->
    proposal p a b f r (p ++ [syl a b "ㅂ"%ch]) (syl "ㅇ"%ch "ㅜ"%ch g :: "려"%ch :: t)
| P_b : f = " "%ch -> (forall g t, In g finals -> r <> syl "ㅇ"%ch "ㅝ"%ch g :: t /\ r <> syl "ㅇ"%ch "ㅘ"%ch g :: t) -> (forall c t, r <> c :: "려"%ch :: t) ->
    proposal p a b f r (p ++ [syl a b "ㅂ"%ch]) r
| P_final j : (f = "ㄴ"%ch \/ f = "ㄹ"%ch \/ f = "ㅁ"%ch \/ f = "ㅂ"%ch \/ f = "ㅆ"%ch) -> (j = " "%ch \/ j = "ㄹ"%ch \/ j = "ㅂ"%ch \/ j = "ㅎ"%ch) -> j <> f ->
    proposal p a b f r (p ++ [syl a b j]) (f :: r)
| P_s v g t : f = " "%ch -> jamo "ㅇ"%ch v g -> r = syl "ㅇ"%ch v g :: t -> proposal p a b f r (p ++ [syl a b "ㅅ"%ch]) r
| P_pu : a = "ㅍ"%ch -> b = "ㅓ"%ch -> proposal p a b f r (p ++ ["푸"%ch]) (syl "ㅇ"%ch "ㅓ"%ch f :: r)
| P_u : b = "ㅝ"%ch -> proposal p a b f r (p ++ [syl a "ㅜ"%ch " "%ch]) (syl "ㅇ"%ch "ㅓ"%ch f :: r)
| P_o : b = "ㅘ"%ch -> proposal p a b f r (p ++ [syl a "ㅗ"%ch " "%ch]) (syl "ㅇ"%ch "ㅏ"%ch f :: r)
| P_eu : a_or_eo b -> proposal p a b f r (p ++ [syl a "ㅡ"%ch " "%ch]) (syl "ㅇ"%ch b f :: r)
| P_eu_drop v g t : f = " "%ch -> a_or_eo v -> In g finals -> r = syl "ㅇ"%ch v g :: t -> proposal p a b f r (p ++ [syl a b f; "으"%ch]) r
| P_ha : a = "ㅎ"%ch -> b = "ㅐ"%ch -> proposal p a b f r (p ++ ["하"%ch]) (syl "ㅇ"%ch "ㅏ"%ch f :: r)
| P_h_open : f = " "%ch -> a_or_eo b -> proposal p a b f r (p ++ [syl a b "ㅎ"%ch]) r
| P_h_final : (f = "ㄴ"%ch \/ f = "ㄹ"%ch \/ f = "ㅂ"%ch \/ f = "ㅆ"%ch) -> a_or_eo b -> proposal p a b f r (p ++ [syl a b "ㅎ"%ch]) (f :: r)
| P_h_contract w : (f = " "%ch \/ f = "ㄴ"%ch \/ f = "ㄹ"%ch \/ f = "ㅂ"%ch \/ f = "ㅆ"%ch) -> (b = "ㅐ"%ch /\ w = "ㅏ"%ch \/ b = "ㅔ"%ch /\ w = "ㅓ"%ch) ->
    ~ (a = "ㄹ"%ch /\ exists q, p = q ++ ["그"%ch]) -> proposal p a b f r (p ++ [syl a w "ㅎ"%ch]) (syl "ㅇ"%ch w f :: r)
| P_geureo q w : (f = " "%ch \/ f = "ㄴ"%ch \/ f = "ㄹ"%ch \/ f = "ㅂ"%ch \/ f = "ㅆ"%ch) -> (b = "ㅐ"%ch /\ w = "ㅏ"%ch \/ b = "ㅔ"%ch /\ w = "ㅓ"%ch) ->
    a = "ㄹ"%ch -> p = q ++ ["그"%ch] -> proposal p a b f r (p ++ ["렇"%ch]) (syl "ㅇ"%ch w f :: r)
| P_i : (f = "ㅆ"%ch \/ f = "ㅅ"%ch \/ f = " "%ch) -> b = "ㅕ"%ch -> proposal p a b f r (p ++ [syl a "ㅣ"%ch " "%ch]) (syl "ㅇ"%ch "ㅓ"%ch f :: r).
(** the proposals that conjugate back to the word; an ending is not empty and its first syllable does not end in ㅎ *)
Definition lemma_of (l r stem ending : str) : Prop :=
  (exists p a b f, l = p ++ [syl a b f] /\ jamo a b f /\ proposal p a b f r stem ending) /\
  (forall o v t, In o initials -> In v vowels -> ending <> syl o v "ㅎ"%ch :: t) /\ surface_of stem ending (l ++ r).
(** the same for pairs from a predefined table *)
Definition conjugates_back (l r stem ending : str) : Prop :=
  (forall o v t, In o initials -> In v vowels -> ending <> syl o v "ㅎ"%ch :: t) /\ surface_of stem ending (l ++ r).
Definition listed (d : predef) (l r stem ending : str) : Prop := exists items, In (KPair l r, items) d /\ In (Pair stem ending) items.
(** the inputs on which the analysis is defined: the last two characters of l and the first of r are syllables *)
Definition good_left (l : str) : Prop := exists p c, l = p ++ [c] /\ syllable c /\ forall q c', p = q ++ [c'] -> syllable c'.
Definition good_right (r : str) : Prop := r = [] \/ exists c t, r = c :: t /\ syllable c.
Definition good_table (d : predef) : Prop :=
  NoDup (map fst d) /\ forall l r items i, In (KPair l r, items) d -> In i items -> exists s e, i = Pair s e /\ good_stem s /\ (e = [] \/ good_ending e).

(** ** Round trip: when the analysis of a surface form finds the stem and the ending again *)
Definition starts_ryeo (t : str) : Prop := exists t', t = "려"%ch :: t'.
Definition recoverable (p : str) (a b f E o v g : N) (t : str) (r : rule) : Prop :=
  match r with
  | Rda | Rd | Rd_keep | Rs | Rs_keep | Rh_keep | Rh_n | Ri_keep | Ru | Ro => True
  | Rreu => exists q x y, p = q ++ [syl x y " "%ch] /\ In x initials /\ In y vowels                (* 고르다, not 찔르다 *)
  | Rb_a => v = "ㅓ"%ch \/ ~ (p <> [] /\ (syl a b f = "답"%ch \/ syl a b f = "곱"%ch \/ syl a b f = "깝"%ch \/ syl a b f = "롭"%ch))
  | Rb_vowel => v <> "ㅝ"%ch /\ v <> "ㅘ"%ch /\ (starts_ryeo t -> v = "ㅜ"%ch)
  | Rfinal => (f = " "%ch \/ f = "ㄹ"%ch \/ f = "ㅂ"%ch \/ f = "ㅎ"%ch) /\ f <> o
  | Rpu => g = " "%ch                                                                             (* 퍼, but 펐다 is never made *)
  | Reu_drop => a_or_eo v /\ exists q x y, p = q ++ [syl x y " "%ch] /\ In x initials /\ In y vowels
  | Reu => a_or_eo v
  | Rara_o => E = "아"%ch
  | Rara_u => E = "어"%ch
  | Rara => E = "어"%ch /\ dark b \/ E = "아"%ch /\ ~ dark b
  | Rhae => v = "ㅏ"%ch
  | Rh_drop => a_or_eo b
  | Rh_contract => o = "ㅇ"%ch /\ (g = " "%ch \/ g = "ㄴ"%ch \/ g = "ㄹ"%ch \/ g = "ㅂ"%ch \/ g = "ㅆ"%ch) /\
      (b = v /\ ~ (a = "ㄹ"%ch /\ exists q, p = q ++ ["그"%ch]) \/ b = "ㅓ"%ch /\ a = "ㄹ"%ch /\ exists q, p = q ++ ["그"%ch])
  | Ri => g = "ㅆ"%ch \/ g = "ㅅ"%ch \/ g = " "%ch
  | Rara_ga | Rreo | Ryeo => False
  end.
(** the pair is found by analysing some split of the word *)
Definition found (word stem ending : str) : Prop := exists l r, word = l ++ r /\ good_left l /\ good_right r /\ lemma_of l r stem ending.

(** ** the forms of a stem before some ending *)
Definition one_of (d : N) (l : list N) : Prop := In d l.
Definition stem_surface (p : str) (a b f : N) (s : str) : Prop :=
  let L := syl a b f in
  s = p ++ [L] \/
  f = "ㄷ"%ch /\ s = p ++ [syl a b "ㄹ"%ch] \/
  (exists q x y z, p = q ++ [syl x y z] /\ jamo x y z /\ L = "르"%ch /\ s = q ++ [syl x y "ㄹ"%ch]) \/
  f = "ㅂ"%ch /\ s = p ++ [syl a b " "%ch] \/
  f = " "%ch /\ (exists d, one_of d (u "ㄴㄹㅂㅆ") /\ s = p ++ [syl a b d]) \/
  f = "ㅅ"%ch /\ L <> "벗"%ch /\ s = p ++ [syl a b " "%ch] \/
  b = "ㅜ"%ch /\ f = " "%ch /\ L <> "푸"%ch /\ (exists d, one_of d (u " ㅆ") /\ s = p ++ [syl a "ㅝ"%ch d]) \/
  b = "ㅗ"%ch /\ f = " "%ch /\ (exists d, one_of d (u " ㅆ") /\ s = p ++ [syl a "ㅘ"%ch d]) \/
  b = "ㅡ"%ch /\ f = " "%ch /\ ((exists d, one_of d (u " ㅆ") /\ s = p ++ [syl a "ㅓ"%ch d]) \/ a = "ㅇ"%ch /\ p <> [] /\ s = p) \/
  L = "하"%ch /\ (s = p ++ ["해"%ch] \/ s = p ++ ["했"%ch]) \/
  f = "ㅎ"%ch /\ L <> "좋"%ch /\ ((exists d, one_of d (u " ㄴㄹㅆ") /\ s = p ++ [syl a b d]) \/ s = p ++ [syl a "ㅐ"%ch "ㅆ"%ch]) \/
  b = "ㅣ"%ch /\ f = " "%ch /\ s = p ++ [syl a "ㅕ"%ch "ㅆ"%ch].
