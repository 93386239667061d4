(** * Exact layouts for soynlp.hangle *)
From Verif Require Import PyBase PyText HangleModel HangleSpec HangleProofs.
Open Scope N_scope.

Lemma nth_index l i x : NoDup l -> nth_error l i = Some x -> index_of l x = Ok (N.of_nat i).
Proof. intros D E. apply index_of_nth; [exact D|]. rewrite Nat2N.id. exact E. Qed.
Lemma compose_unicode : forall i j k cho jung jong,
  nth_error initials i = Some cho -> nth_error vowels j = Some jung -> nth_error finals k = Some jong ->
  compose cho jung jong = Ok (44032 + 588 * N.of_nat i + 28 * N.of_nat j + N.of_nat k).
Proof.
  intros * A B D. apply compose_ok; apply nth_index; auto using cho_nodup, jung_nodup, jong_nodup.
Qed.

Definition code_ok (c : N) (e : list Z) : bool :=
  match e with
  | [z] => existsb (fun i => (z =? Z.of_nat i)%Z && match nth_error initials i with Some x => x =? c | None => false end) (seq 0 19) ||
           existsb (fun i => (z =? 19 + Z.of_nat i)%Z && match nth_error vowels i with Some x => x =? c | None => false end) (seq 0 21) ||
           (negb (mem c initials) && existsb (fun i => (z =? 40 + Z.of_nat i)%Z && match nth_error finals i with Some x => x =? c | None => false end) (seq 0 28))
  | _ => false
  end.
Lemma enc_jamo_code c : 12593 <= c -> c < 12593 + N.of_nat 51 -> code_ok c (enc_char c) = true.
Proof. intros A B. apply (range_forall (fun c => code_ok c (enc_char c)) 12593 51); [vm_compute; reflexivity|exact A|exact B]. Qed.
Lemma enc_code c : enc_keep c = true -> CharCode c (enc_char c).
Proof.
  intros K. assert (J : 12593 <= c -> c < 12593 + N.of_nat 51 -> CharCode c (enc_char c)).
  { intros A B. pose proof (enc_jamo_code c A B) as G. unfold code_ok in G.
    destruct (enc_char c) as [|z [|? ?]]; try discriminate.
    rewrite !orb_true_iff in G. destruct G as [[G|G]|G].
    - apply existsb_exists in G as (i & _ & G). apply andb_true_iff in G as [G1 G2]. apply Z.eqb_eq in G1. subst z.
      destruct (nth_error initials i) as [x|] eqn:E; [|discriminate]. apply N.eqb_eq in G2. subst x. apply cc_initial. exact E.
    - apply existsb_exists in G as (i & _ & G). apply andb_true_iff in G as [G1 G2]. apply Z.eqb_eq in G1. subst z.
      destruct (nth_error vowels i) as [x|] eqn:E; [|discriminate]. apply N.eqb_eq in G2. subst x. apply cc_vowel. exact E.
    - apply andb_true_iff in G as [G0 G]. apply existsb_exists in G as (i & _ & G). apply andb_true_iff in G as [G1 G2]. apply Z.eqb_eq in G1. subst z.
      destruct (nth_error finals i) as [x|] eqn:E; [|discriminate]. apply N.eqb_eq in G2. subst x. apply cc_final; [exact E| |].
      + assert (V : forallb (fun x => (x =? 32) || (12593 <=? x) && (x <=? 12622)) finals = true) by (vm_compute; reflexivity).
        rewrite forallb_forall in V. specialize (V c (nth_error_In _ _ E)). unfold consonant. lia.
      + intros I. apply mem_In in I. rewrite I in G0. discriminate. }
  destruct (enc_keep_cases c K) as [->|[D|[S|[Ja|M]]]].
  - replace (enc_char SP) with [78%Z] by (vm_compute; reflexivity). apply cc_space. reflexivity.
  - assert (R : 48 <= c <= 57) by (unb; lia). pose proof (enc_digit_rt c ltac:(lia) ltac:(lia)) as G. apply andb_true_iff in G as [_ G].
    destruct (enc_char c) as [|z [|? ?]]; try discriminate. apply Z.eqb_eq in G. subst z. apply cc_digit. exact R.
  - destruct (enc_char_syllable c S) as (a & b & d & -> & A & B & D & E).
    replace a with (Z.of_nat (Z.to_nat a)) by lia. replace b with (19 + Z.of_nat (Z.to_nat (b - 19)))%Z by lia.
    replace d with (40 + Z.of_nat (Z.to_nat (d - 40)))%Z by lia. apply cc_syllable; [lia|lia|lia|].
    rewrite E at 1. unfold kor_begin, chosung_base, jungsung_base. lia.
  - apply J; unb; lia.
  - apply J; unb; lia.
Qed.
Lemma onehot_exact : forall s, exists t, cleaned s t /\ Forall2 CharCode t (sent_to_onehot s).
Proof.
  intros s. exists (enc_normalize s). rewrite cleaned_iff. split; [reflexivity|].
  unfold sent_to_onehot. induction (enc_normalize_keep s) as [|c t Hc F IH]; [constructor|].
  constructor; [apply enc_code; exact Hc|exact IH].
Qed.
Lemma enc_at_slots z : (0 <= z < 79)%Z -> exists c, nth_error slots (Z.to_nat z) = Some c /\ enc_at z = Ok [c].
Proof.
  intros H. unfold enc_at, enc_idx_to_char.
  rewrite nth_error_app1 by (rewrite map_length; change (length (chosung_list ++ jungsung_list ++ jongsung_list ++ enc_num ++ [SP])) with 79%nat; lia).
  rewrite nth_error_map.
  assert (E : slots = chosung_list ++ jungsung_list ++ jongsung_list ++ enc_num ++ [SP]) by (vm_compute; reflexivity).
  rewrite <- E.
  destruct (nth_error slots (Z.to_nat z)) as [c|] eqn:G; [exists c; split; reflexivity|].
  apply nth_error_None in G. change (length slots) with 79%nat in G. lia.
Qed.
Lemma decode_exact : forall l, ~ Exists invalid_onehot l -> exists chunks, onehot_to_sent l = Ok (concat chunks) /\
     Forall2 (fun e s =>
        (forall a b d, e = [a; b; d] -> s = [44032 + 588 * Z.to_N a + 28 * Z.to_N (b - 19) + Z.to_N (d - 40)]) /\
        (forall i, e = [i] -> (i = 79%Z /\ s = u "<unk>") \/ exists c, nth_error slots (Z.to_nat i) = Some c /\ s = [c]) /\
        (length e <> 1%nat -> length e <> 3%nat -> s = u "<unk>")) l chunks.
Proof.
  intros l NE. destruct (onehot_to_sent_error_iff l) as [A B].
  destruct (B NE) as (ch & E & F). exists ch. split; [exact E|]. clear A B E.
  induction F as [|e s l ch He F IH]; [constructor|].
  assert (NB : ~ invalid_onehot e) by (intro; apply NE; constructor; assumption).
  constructor; [|apply IH; intro; apply NE; right; assumption].
  destruct e as [|a [|b [|d [|x e]]]]; cbn [length]; (split; [|split]); try discriminate; try lia.
  - intros _ _. simpl in He. congruence.
  - intros i [= <-]. cbn [dec_entry] in He. destruct ((0 <=? a) && (a <? enc_dim))%Z eqn:C; [|discriminate].
    unfold enc_dim in C. destruct (Z.eq_dec a 79) as [->|Na].
    + left. split; [reflexivity|]. vm_compute in He. vm_compute. congruence.
    + right. destruct (enc_at_slots a) as (c & Ec & Es); [lia|]. exists c. split; [exact Ec|congruence].
  - intros _ _. simpl in He. congruence.
  - intros a' b' d' [= <- <- <-]. assert (R : (0 <= a < 19)%Z /\ (19 <= b < 40)%Z /\ (40 <= d < 68)%Z).
    { destruct (Z_lt_dec a 0), (Z_lt_dec a 19), (Z_lt_dec b 19), (Z_lt_dec b 40), (Z_lt_dec d 40), (Z_lt_dec d 68); try lia;
      exfalso; apply NB; right; exists a, b, d; split; try reflexivity; lia. }
    rewrite dec_entry_triple in He by tauto. unfold kor_begin, chosung_base, jungsung_base in He. congruence.
  - intros _ _. simpl in He. congruence.
Qed.
