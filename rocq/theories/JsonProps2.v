(** * C91: the words used in the specification of JSON texts (JsonSpec.v) mean what their names say *)
From Coq Require Import List NArith ZArith Lia.
Import ListNotations.
From Verif Require Import PyBase PyDict PyText PyFile JsonModel JsonSpec.
Open Scope N_scope.

(** hexadecimal digits, in both cases *)
Theorem C91_hexadecimal : forall c v, hex_value c = Some v <->
  nth_error (u "0123456789abcdef") (N.to_nat v) = Some c \/ nth_error (u "0123456789ABCDEF") (N.to_nat v) = Some c.
Proof.
  intros c v. split.
  - unfold hex_value. intros H.
    assert (K : forall lo n (f : N -> N), (lo <= c <= lo + n) -> (forall k, k <= n -> (nth_error (u "0123456789abcdef") (N.to_nat (f (lo + k))) = Some (lo + k) \/ nth_error (u "0123456789ABCDEF") (N.to_nat (f (lo + k))) = Some (lo + k))) -> v = f c ->
      nth_error (u "0123456789abcdef") (N.to_nat v) = Some c \/ nth_error (u "0123456789ABCDEF") (N.to_nat v) = Some c).
    { intros lo n f L F ->. specialize (F (c - lo)). replace (lo + (c - lo)) with c in F by lia. apply F. lia. }
    destruct ((48 <=? c) && (c <=? 57))%bool eqn:A.
    { apply andb_prop in A as [A1 A2]. apply N.leb_le in A1, A2. apply (K 48 9 (fun c => c - 48)); [lia| |congruence]. intros k L.
      assert (k = 0 \/ k = 1 \/ k = 2 \/ k = 3 \/ k = 4 \/ k = 5 \/ k = 6 \/ k = 7 \/ k = 8 \/ k = 9) as Q by lia. repeat (destruct Q as [->|Q]; [left; reflexivity|]). subst. left; reflexivity. }
    destruct ((97 <=? c) && (c <=? 102))%bool eqn:B.
    { apply andb_prop in B as [A1 A2]. apply N.leb_le in A1, A2. apply (K 97 5 (fun c => c - 87)); [lia| |congruence]. intros k L.
      assert (k = 0 \/ k = 1 \/ k = 2 \/ k = 3 \/ k = 4 \/ k = 5) as Q by lia. repeat (destruct Q as [->|Q]; [left; reflexivity|]). subst. left; reflexivity. }
    destruct ((65 <=? c) && (c <=? 70))%bool eqn:C; [|discriminate].
    apply andb_prop in C as [A1 A2]. apply N.leb_le in A1, A2. apply (K 65 5 (fun c => c - 55)); [lia| |congruence]. intros k L.
    assert (k = 0 \/ k = 1 \/ k = 2 \/ k = 3 \/ k = 4 \/ k = 5) as Q by lia. repeat (destruct Q as [->|Q]; [right; reflexivity|]). subst. right; reflexivity.
  - intros H. assert (V : (N.to_nat v < 16)%nat). { destruct H as [H|H].
      - apply (proj1 (nth_error_Some (u "0123456789abcdef") (N.to_nat v))). rewrite H. discriminate.
      - apply (proj1 (nth_error_Some (u "0123456789ABCDEF") (N.to_nat v))). rewrite H. discriminate. }
    assert (Q : v = 0 \/ v = 1 \/ v = 2 \/ v = 3 \/ v = 4 \/ v = 5 \/ v = 6 \/ v = 7 \/ v = 8 \/ v = 9 \/ v = 10 \/ v = 11 \/ v = 12 \/ v = 13 \/ v = 14 \/ v = 15) by lia.
    repeat (destruct Q as [->|Q]; [destruct H as [H|H]; vm_compute in H; injection H as <-; reflexivity|]). subst v. destruct H as [H|H]; vm_compute in H; injection H as <-; reflexivity.
Qed.
Print Assumptions C91_hexadecimal.

(** a pair of surrogates is the UTF-16 form of the character it denotes *)
Theorem C91_surrogates : forall x, 65536 <= x <= 1114111 ->
  let n := 55296 + (x - 65536) / 1024 in let m := 56320 + (x - 65536) mod 1024 in high n /\ low m /\ join_surrogates n m = x.
Proof.
  intros x H n m. unfold high, low, join_surrogates. assert (M : (x - 65536) mod 1024 < 1024) by (apply N.mod_lt; discriminate). assert (D : (x - 65536) / 1024 < 1024) by (apply N.div_lt_upper_bound; [discriminate|lia]).
  assert (E : x - 65536 = 1024 * ((x - 65536) / 1024) + (x - 65536) mod 1024) by (apply N.div_mod; discriminate).
  subst n m. set (q := (x - 65536) / 1024) in *. set (r := (x - 65536) mod 1024) in *. clearbody q r. replace (55296 + q - 55296) with q by lia. replace (56320 + r - 56320) with r by lia. lia.
Qed.
Print Assumptions C91_surrogates.
Theorem C91_surrogates_unique : forall n m, high n -> low m -> let x := join_surrogates n m in
  65536 <= x <= 1114111 /\ n = 55296 + (x - 65536) / 1024 /\ m = 56320 + (x - 65536) mod 1024.
Proof.
  intros n m H L x. unfold high, low in H, L. assert (E : x = 65536 + (1024 * (n - 55296) + (m - 56320))) by (unfold x, join_surrogates; lia).
  assert (S : x - 65536 = 1024 * (n - 55296) + (m - 56320)) by lia. split; [lia|]. rewrite S.
  rewrite <- (N.div_unique (1024 * (n - 55296) + (m - 56320)) 1024 (n - 55296) (m - 56320)) by lia.
  rewrite <- (N.mod_unique (1024 * (n - 55296) + (m - 56320)) 1024 (n - 55296) (m - 56320)) by lia. lia.
Qed.
Print Assumptions C91_surrogates_unique.

(** decimal numerals and the literals *)
Theorem C91_numerals : digits_value [] = 0%Z /\ (forall ds c, digits_value (ds ++ [c]) = (10 * digits_value ds + (Z.of_N c - 48))%Z) /\
  literals = [(u "null", JNull); (u "true", JBool true); (u "false", JBool false); (u "NaN", JFloat (u "NaN")); (u "Infinity", JFloat (u "Infinity")); (u "-Infinity", JFloat (u "-Infinity"))].
Proof. split; [reflexivity|]. split; [intros ds c; unfold digits_value; rewrite fold_left_app; reflexivity|vm_compute; reflexivity]. Qed.
Print Assumptions C91_numerals.

(** a loaded word belongs to a tag exactly when the string itself is listed; numbers, constants and the characters of other strings do not count *)
Theorem C91_loaded_words : forall (d : jdict) (w t : str), j_word_is_tag d w t = true <-> exists vs, dget (j_pos d) t = Some vs /\ In (JStr w) vs.
Proof.
  intros d w t. unfold j_word_is_tag. destruct (dget (j_pos d) t) as [vs|]; [|split; [discriminate|intros (vs & E & _); discriminate E]].
  rewrite existsb_exists. split.
  - intros (v & I & E). destruct v as [| | | |s| |]; try discriminate E. apply eqb_eq in E. subst s. exists vs. split; [reflexivity|exact I].
  - intros (vs' & E & I). assert (vs' = vs) as -> by congruence. exists (JStr w). split; [exact I|]. apply eqb_eq. reflexivity.
Qed.
Print Assumptions C91_loaded_words.
