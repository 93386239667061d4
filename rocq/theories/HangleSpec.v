(** * Specification vocabulary for soynlp.hangle (independent of the model) *)
From Verif Require Import PyBase PyText.
Open Scope N_scope.

(** Specification vocabulary: modern Hangul jamo inventories and code ranges. *)
Definition initials : str := u "ㄱㄲㄴㄷㄸㄹㅁㅂㅃㅅㅆㅇㅈㅉㅊㅋㅌㅍㅎ".
Definition vowels   : str := u "ㅏㅐㅑㅒㅓㅔㅕㅖㅗㅘㅙㅚㅛㅜㅝㅞㅟㅠㅡㅢㅣ".
Definition finals   : str := u " ㄱㄲㄳㄴㄵㄶㄷㄹㄺㄻㄼㄽㄾㄿㅀㅁㅂㅄㅅㅆㅇㅈㅊㅋㅌㅍㅎ".
Definition syllable (c : N) : Prop := 44032 <= c <= 55203.    (* 가 .. 힣 *)
Definition consonant (c : N) : Prop := 12593 <= c <= 12622.   (* ㄱ .. ㅎ *)
Definition vowel (c : N) : Prop := 12623 <= c <= 12643.       (* ㅏ .. ㅣ *)

(** C05: [cleaned s t] - [t] is what remains of [s] after blanking out every character other than
    syllables, lone jamo and digits, collapsing whitespace and stripping: the maximal runs of those characters joined by
    one space. *)
Definition enc_text (c : N) : bool :=
  (44032 <=? c) && (c <=? 55203) || (12593 <=? c) && (c <=? 12643) || (48 <=? c) && (c <=? 57).
Definition cleaned (s t : str) : Prop := exists ws, MaxRuns enc_text s ws /\ t = join [32] ws.

Definition wf_onehot (e : list Z) : Prop :=
  (exists i, e = [i] /\ (0 <= i < 80)%Z) \/
  (exists a b d, e = [a; b; d] /\ (0 <= a < 19)%Z /\ (19 <= b < 40)%Z /\ (40 <= d < 68)%Z).

Definition invalid_onehot (e : list Z) : Prop :=
  (exists i, e = [i] /\ ~ (0 <= i < 80)%Z) \/
  (exists a b d, e = [a; b; d] /\ ~ ((0 <= a < 19)%Z /\ (19 <= b < 40)%Z /\ (40 <= d < 68)%Z)).


(** C06: what the entry for a character [c] of the cleaned text must be *)
Inductive CharCode (c : N) : list Z -> Prop :=
| cc_syllable (i j k : nat) : (i < 19)%nat -> (j < 21)%nat -> (k < 28)%nat ->
    c = 44032 + 588 * N.of_nat i + 28 * N.of_nat j + N.of_nat k ->
    CharCode c [Z.of_nat i; (19 + Z.of_nat j)%Z; (40 + Z.of_nat k)%Z]
| cc_initial (i : nat) : nth_error initials i = Some c -> CharCode c [Z.of_nat i]
| cc_vowel (j : nat) : nth_error vowels j = Some c -> CharCode c [(19 + Z.of_nat j)%Z]
| cc_final (k : nat) : nth_error finals k = Some c -> consonant c -> ~ In c initials -> CharCode c [(40 + Z.of_nat k)%Z]
| cc_digit : 48 <= c <= 57 -> CharCode c [(68 + (Z.of_N c - 48))%Z]
| cc_space : c = 32 -> CharCode c [78%Z].

(** C07: the symbol of each one-element code below 79 *)
Definition slots : str := initials ++ vowels ++ finals ++ u "0123456789 ".
