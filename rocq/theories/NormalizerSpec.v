(** * Specification vocabulary for the normalisers *)
From Verif Require Import PyBase PyText HangleSpec.
Open Scope N_scope.

Definition hangul (c : N) : Prop := syllable c \/ consonant c \/ vowel c.
Definition letter (c : N) : Prop := 65 <= c <= 90 \/ 97 <= c <= 122.
Definition digit (c : N) : Prop := 48 <= c <= 57.

(** the characters kept by [only_text] *)
Definition text_char (c : N) : Prop :=
  hangul c \/ letter c \/ digit c \/ In c (u ",.?!""'()[]{}").

(** A string as runs of equal characters: [(c, r)] is [r] times [c]; maximal when the counts are positive and neighbours differ. *)
Definition expand (gs : list (N * nat)) : str := concat (map (fun g => repeat (fst g) (snd g)) gs).
Fixpoint maximal (gs : list (N * nat)) : Prop :=
  match gs with
  | [] => True
  | (c, r) :: t => (0 < r)%nat /\ (match t with (d, _) :: _ => c <> d | [] => True end) /\ maximal t
  end.

(** [times n b]: [n] copies of [b] *)
Definition times (n : nat) (b : str) : str := concat (repeat b n).

(** Leftmost greedy substitution of [n] copies for every block of [k] word characters standing at least [m+1] times in a row. *)
Inductive BlockSub (word : N -> bool) (k m n : nat) : str -> str -> Prop :=
| BS_end : BlockSub word k m n [] []
| BS_hit b j s t : length b = k -> Forall (fun c => word c = true) b -> (m <= j)%nat ->
    (forall r, s <> b ++ r) -> BlockSub word k m n s t ->
    BlockSub word k m n (times (1 + j) b ++ s) (times n b ++ t)
| BS_miss c s t :
    (forall b r, length b = k -> Forall (fun c => word c = true) b -> c :: s <> times (1 + m) b ++ r) ->
    BlockSub word k m n s t -> BlockSub word k m n (c :: s) (c :: t).

(** what [emoticon_normalize] writes for a character with the given neighbours, before shortening repeats.
    [syl c a b d]: the syllable [c] consists of initial [a], vowel [b], final [d] (32 for none) *)
Inductive syl : N -> N -> N -> N -> Prop :=
| syl_intro i j k a b d : nth_error initials i = Some a -> nth_error vowels j = Some b -> nth_error finals k = Some d ->
    syl (44032 + 588 * N.of_nat i + 28 * N.of_nat j + N.of_nat k) a b d.

Definition is_some (P : N -> Prop) (o : option N) : Prop := exists x, o = Some x /\ P x.

Inductive Emoticon : option N -> N -> option N -> str -> Prop :=
| E_other p c n : ~ syllable c -> Emoticon p c n [c]
| E_alone p c n : syllable c -> ~ is_some consonant p -> ~ is_some consonant n -> Emoticon p c n [c]
  (* ㅋ쿠ㅜ -> ㅋㅋㅜㅜ *)
| E_between p c n a b : syl c a b 32 -> consonant p -> vowel n -> a = p -> b = n -> Emoticon (Some p) c (Some n) [a; b]
| E_between_keep p c n a b d : syl c a b d -> consonant p -> vowel n -> ~ (a = p /\ b = n /\ d = 32) -> Emoticon (Some p) c (Some n) [c]
  (* 앜ㅋ -> 아ㅋㅋ *)
| E_final p c n a b c' : syl c a b n -> consonant n -> syl c' a b 32 -> Emoticon p c (Some n) [c'; n]
| E_final_lost p c n a b d : syl c a b d -> consonant n -> d <> n -> Emoticon p c (Some n) []
  (* ㅋ크 -> ㅋㅋㅡ, a final consonant is lost *)
| E_initial p c n a b d : syl c a b d -> consonant p -> ~ is_some consonant n -> ~ is_some vowel n -> a = p -> Emoticon (Some p) c n [a; b]
| E_initial_lost p c n a b d : syl c a b d -> consonant p -> ~ is_some consonant n -> ~ is_some vowel n -> a <> p -> Emoticon (Some p) c n [].

(** all characters of a string with their neighbours *)
Inductive Neighbours (R : option N -> N -> option N -> str -> Prop) : option N -> str -> str -> Prop :=
| Nb_nil p : Neighbours R p [] []
| Nb_cons p c s a b : R p c (hd_error s) a -> Neighbours R (Some c) s b -> Neighbours R p (c :: s) (a ++ b).

(** [soynlp.tokenizer] emoji rewriting of a character followed by another one *)
Inductive Emoji : N -> N -> str -> Prop :=
| J_final c n a b c' : syl c a b n -> consonant n -> syl c' a b 32 -> Emoji c n [c'; n]
| J_vowel c n a : syl c a n 32 -> vowel n -> Emoji c n [a; n]
| J_keep c n : (consonant n -> forall a b, ~ syl c a b n) -> (vowel n -> forall a, ~ syl c a n 32) -> Emoji c n [c].
Inductive Pairs (R : N -> N -> str -> Prop) : str -> str -> Prop :=
| P_last c : Pairs R [c] [c]
| P_cons c d s a b : R c d a -> Pairs R (d :: s) b -> Pairs R (c :: d :: s) (a ++ b).

(** the four substitutions in a row *)
Inductive Shortened (word : N -> bool) (n : nat) : str -> str -> Prop :=
| Shortened_intro t0 t1 t2 t3 t4 : BlockSub word 4 3 n t0 t1 -> BlockSub word 3 3 n t1 t2 -> BlockSub word 2 3 n t2 t3 ->
   BlockSub word 1 3 n t3 t4 -> Shortened word n t0 t4.
