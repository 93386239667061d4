(** * Property theorems for soynlp.hangle (C01 - C07) *)
From Verif Require Import PyBase PyText HangleModel HangleSpec HangleProofs HangleProofs2.
Open Scope N_scope.

(** C01 *)
Theorem C01_compose_decompose : forall c, syllable c ->
  exists cho jung jong, decompose_res c = Ok (Some (cho, jung, jong)) /\ compose cho jung jong = Ok c /\
    In cho initials /\ In jung vowels /\ In jong finals.
Proof. exact C01_compose_decompose_pf. Qed.
Print Assumptions C01_compose_decompose.

Theorem C01_decompose_compose : forall cho jung jong, In cho initials -> In jung vowels -> In jong finals ->
  exists c, compose cho jung jong = Ok c /\ syllable c /\ decompose_res c = Ok (Some (cho, jung, jong)).
Proof. exact C01_decompose_compose_pf. Qed.
Print Assumptions C01_decompose_compose.

(** the jamo are numbered in Unicode order *)
Theorem C01_compose_unicode_order : forall i j k cho jung jong,
  nth_error initials i = Some cho -> nth_error vowels j = Some jung -> nth_error finals k = Some jong ->
  compose cho jung jong = Ok (44032 + 588 * N.of_nat i + 28 * N.of_nat j + N.of_nat k).
Proof. exact compose_unicode. Qed.
Print Assumptions C01_compose_unicode_order.

Example C01_nonvacuous : syllable (ch "값") /\ decompose_res (ch "값") = Ok (Some (ch "ㄱ", ch "ㅏ", ch "ㅄ"))
  /\ compose (ch "ㄱ") (ch "ㅏ") (ch "ㅄ") = Ok (ch "값").
Proof. split; [unfold syllable; vm_compute; split; discriminate|vm_compute; auto]. Qed.

(** C02 *)
Theorem C02_decompose_total : forall c,
  (syllable c -> exists a b d, decompose_res c = Ok (Some (a, b, d)) /\ In a initials /\ In b vowels /\ In d finals) /\
  (consonant c -> decompose_res c = Ok (Some (c, 32, 32))) /\
  (vowel c -> decompose_res c = Ok (Some (32, c, 32))) /\
  (~ syllable c -> ~ consonant c -> ~ vowel c -> decompose_res c = Ok None).
Proof. exact C02_decompose_total_pf. Qed.
Print Assumptions C02_decompose_total.

Theorem C02_decompose_injective : forall c1 c2 t,
  decompose_res c1 = Ok (Some t) -> decompose_res c2 = Ok (Some t) -> c1 = c2.
Proof. exact C02_decompose_injective_pf. Qed.
Print Assumptions C02_decompose_injective.

Example C02_nonvacuous : decompose_res (ch "ㅋ") = Ok (Some (ch "ㅋ", 32, 32)) /\ decompose_res (ch "ㅠ") = Ok (Some (32, ch "ㅠ", 32))
  /\ decompose_res (ch "a") = Ok None.
Proof. vm_compute. auto. Qed.

(** C03 *)
Theorem C03_compose_error_iff : forall cho jung jong,
  (compose cho jung jong = Err ValueError <-> ~ (In cho initials /\ In jung vowels /\ In jong finals)) /\
  ((In cho initials /\ In jung vowels /\ In jong finals) <-> exists c, compose cho jung jong = Ok c /\ syllable c).
Proof. exact C03_compose_error_iff_pf. Qed.
Print Assumptions C03_compose_error_iff.

Example C03_nonvacuous : compose (ch "ㄳ") (ch "ㅏ") 32 = Err ValueError /\ compose (ch "ㄱ") (ch "ㅏ") (ch "ㄸ") = Err ValueError
  /\ compose (ch "ㄱ") (ch "ㅏ") 32 = Ok (ch "가").
Proof. vm_compute. auto. Qed.

(** C04 *)
Theorem C04_character_classes : forall c,
  (character_is_korean c = true <-> syllable c \/ consonant c \/ vowel c) /\
  (character_is_complete_korean c = true <-> syllable c) /\
  (character_is_jaum c = true <-> consonant c) /\
  (character_is_moum c = true <-> vowel c) /\
  (character_is_number c = true <-> In c (u "0123456789")) /\
  (character_is_english c = true <-> In c (u "abcdefghijklmnopqrstuvwxyzABCDEFGHIJKLMNOPQRSTUVWXYZ")) /\
  (character_is_punctuation c = true <-> In c [33; 34; 39; 44; 46; 63; 96]) /\
  (jaum_list = map (fun k => 12593 + N.of_nat k) (seq 0 30)) /\
  (moum_list = map (fun k => 12623 + N.of_nat k) (seq 0 21)) /\
  (length (filter (fun b : bool => b) [character_is_complete_korean c; character_is_jaum c; character_is_moum c;
      character_is_number c; character_is_english c; character_is_punctuation c]) <= 1)%nat.
Proof. exact C04_character_classes_pf. Qed.
Print Assumptions C04_character_classes.

Theorem C05_encoder_roundtrip : forall s, exists t, cleaned s t /\ onehot_to_sent (sent_to_onehot s) = Ok t.
Proof. exact C05_encoder_roundtrip_pf. Qed.
Print Assumptions C05_encoder_roundtrip.

Theorem C05_clean_text_unchanged : forall t, (exists s, cleaned s t) -> onehot_to_sent (sent_to_onehot t) = Ok t.
Proof. exact C05_clean_text_unchanged_pf. Qed.
Print Assumptions C05_clean_text_unchanged.

Example C05_nonvacuous : onehot_to_sent (sent_to_onehot (u "  ㅋㅋ, abc 값3 ")) = Ok (u "ㅋㅋ 값3").
Proof. vm_compute. reflexivity. Qed.

(** C06 *)
Theorem C06_onehot_layout : forall s, exists t, cleaned s t /\
  Forall2 (fun c e => wf_onehot e /\ (length e = 3%nat <-> syllable c)) t (sent_to_onehot s).
Proof. exact C06_onehot_layout_pf. Qed.
Print Assumptions C06_onehot_layout.

Theorem C06_encode_matrix : forall s, exists m, encode s = Ok m /\
  Forall2 (fun e row => length row = 80%nat /\
     forall j, (j < 80)%nat -> nth_error row j = Some (if in_dec Z.eq_dec (Z.of_nat j) e then 1%Z else 0%Z))
    (sent_to_onehot s) m.
Proof. exact C06_encode_matrix_pf. Qed.
Print Assumptions C06_encode_matrix.

Theorem C06_onehot_exact : forall s, exists t, cleaned s t /\ Forall2 CharCode t (sent_to_onehot s).
Proof. exact onehot_exact. Qed.
Print Assumptions C06_onehot_exact.

Example C06_nonvacuous : sent_to_onehot (u "값 ㅋ3") = [[0; 19; 58]; [78]; [15]; [71]]%Z.
Proof. vm_compute. reflexivity. Qed.

(** C07 *)
Theorem C07_invalid_iff_ValueError : forall l, Exists invalid_onehot l <-> onehot_to_sent l = Err ValueError.
Proof. exact (fun l => proj1 (C07_onehot_to_sent_validation_pf l)). Qed.
Print Assumptions C07_invalid_iff_ValueError.

Theorem C07_decode_exact : forall l, ~ Exists invalid_onehot l -> exists chunks, onehot_to_sent l = Ok (concat chunks) /\
     Forall2 (fun e s =>
        (forall a b d, e = [a; b; d] -> s = [44032 + 588 * Z.to_N a + 28 * Z.to_N (b - 19) + Z.to_N (d - 40)]) /\
        (forall i, e = [i] -> (i = 79%Z /\ s = u "<unk>") \/ exists c, nth_error slots (Z.to_nat i) = Some c /\ s = [c]) /\
        (length e <> 1%nat -> length e <> 3%nat -> s = u "<unk>")) l chunks.
Proof. exact decode_exact. Qed.
Print Assumptions C07_decode_exact.

Example C07_nonvacuous : onehot_to_sent [[0; 19; 58]; [1; 2]; [78]]%Z = Ok (u "값<unk> ") /\
  onehot_to_sent [[78]; [0; 18; 58]]%Z = Err ValueError /\ onehot_to_sent [[80]]%Z = Err ValueError.
Proof. vm_compute. auto. Qed.
