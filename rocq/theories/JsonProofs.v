(** * The JSON reader accepts exactly the grammar *)
From Coq Require Import QArith.
From Verif Require Import PyBase PyDict PyText PyFile JsonModel JsonSpec.
Open Scope N_scope.

Lemma is_ws_iff c : is_ws c = true <-> c = 32 \/ c = 9 \/ c = 10 \/ c = 13.
Proof. unfold is_ws. rewrite !orb_true_iff, !N.eqb_eq. tauto. Qed.
Lemma digit_iff c : is_digit c = true <-> 48 <= c <= 57.
Proof. unfold is_digit. rewrite andb_true_iff, !N.leb_le. tauto. Qed.
Lemma dropwhile_app p (a r : str) : Forall (fun c => p c = true) a -> (forall c t, r = c :: t -> p c = false) -> dropwhile p (a ++ r) = r.
Proof.
  intros F H. induction a as [|x a IH]; [destruct r as [|c r]; [reflexivity|]; cbn [app dropwhile]; rewrite (H c r eq_refl); reflexivity|].
  inversion F as [|? ? P F']; subst. cbn [app dropwhile]. rewrite P. apply IH, F'.
Qed.
Lemma takewhile_app p (a r : str) : Forall (fun c => p c = true) a -> (forall c t, r = c :: t -> p c = false) -> takewhile p (a ++ r) = a.
Proof.
  intros F H. induction a as [|x a IH]; [destruct r as [|c r]; [reflexivity|]; cbn [app takewhile]; rewrite (H c r eq_refl); reflexivity|].
  inversion F as [|? ? P F']; subst. cbn [app takewhile]. rewrite P, (IH F'). reflexivity.
Qed.
Lemma while_split p (s : str) : s = takewhile p s ++ dropwhile p s /\ Forall (fun c => p c = true) (takewhile p s) /\ forall c t, dropwhile p s = c :: t -> p c = false.
Proof.
  induction s as [|x s (A & B & C)]; [repeat split; [constructor|discriminate]|]. cbn [takewhile dropwhile]. destruct (p x) eqn:P.
  - split; [cbn [app]; f_equal; exact A|]. split; [constructor; assumption|exact C].
  - split; [reflexivity|]. split; [constructor|]. intros c t E. congruence.
Qed.
Lemma blank_ws b : blank b -> Forall (fun c => is_ws c = true) b.
Proof. apply Forall_impl. intros c. apply is_ws_iff. Qed.
Lemma skip_blank b r : blank b -> (forall c t, r = c :: t -> is_ws c = false) -> skip (b ++ r) = r.
Proof. intros B H. apply dropwhile_app; [apply blank_ws, B|exact H]. Qed.
Lemma skip_cut s : exists b, blank b /\ s = b ++ skip s /\ forall c t, skip s = c :: t -> is_ws c = false.
Proof.
  destruct (while_split is_ws s) as (A & B & C). exists (takewhile is_ws s). split; [eapply Forall_impl; [|exact B]; intros c; apply is_ws_iff|]. split; [exact A|exact C].
Qed.

(** ** strings *)
Lemma hex4_spec s n r : hex4 s = Some (n, r) <-> exists h, hexes n h /\ s = h ++ r.
Proof.
  unfold hex4, hexes. split.
  - destruct s as [|a [|b [|c [|d q]]]]; try discriminate. destruct (hex_value a) as [a'|] eqn:A; [|discriminate]. destruct (hex_value b) as [b'|] eqn:B; [|discriminate].
    destruct (hex_value c) as [c'|] eqn:C; [|discriminate]. destruct (hex_value d) as [d'|] eqn:D; [|discriminate]. intros E. exists [a; b; c; d]. split; [|cbn [app]; congruence].
    exists a, b, c, d, a', b', c', d'. repeat (split; [first [reflexivity|assumption]|]). injection E as <- _. lia.
  - intros (h & (a & b & c & d & a' & b' & c' & d' & -> & A & B & C & D & ->) & ->). cbn [app]. rewrite A, B, C, D. do 2 f_equal. lia.
Qed.
Lemma hexes_length n h : hexes n h -> length h = 4%nat.
Proof. intros (a & b & c & d & a' & b' & c' & d' & -> & _). reflexivity. Qed.
Lemma hexes_unique n m h k s t : hexes n h -> hexes m k -> h ++ s = k ++ t -> n = m /\ h = k /\ s = t.
Proof.
  intros H K E. pose proof (hexes_length _ _ H) as LH. pose proof (hexes_length _ _ K) as LK.
  assert (X : h = k) by (apply (f_equal (firstn 4)) in E; rewrite <- LH in E at 1; rewrite <- LK in E at 1; rewrite !firstn_app, !firstn_all, !Nat.sub_diag in E; cbn [firstn] in E; rewrite !app_nil_r in E; exact E).
  subst k. apply app_inv_head in E. split; [|auto]. destruct H as (a & b & c & d & a' & b' & c' & d' & -> & A & B & C & D & ->), K as (a2 & b2 & c2 & d2 & a2' & b2' & c2' & d2' & Q & A2 & B2 & C2 & D2 & ->).
  injection Q as <- <- <- <-. congruence.
Qed.
Lemma high_iff n : is_high n = true <-> high n.
Proof. unfold is_high, high. rewrite andb_true_iff, !N.leb_le. tauto. Qed.
Lemma low_iff n : is_low n = true <-> low n.
Proof. unfold is_low, low. rewrite andb_true_iff, !N.leb_le. tauto. Qed.
Lemma unescape_iff e c : unescape e = Some c <-> In (e, c) escapes.
Proof.
  unfold unescape, escapes. cbn [In]. split.
  - repeat (match goal with |- context [?a =? ?b] => destruct (N.eqb_spec a b) as [->|] end; [intros [= <-]; tauto|]). discriminate.
  - intros H. repeat (destruct H as [H|H]; [injection H as <- <-; reflexivity|]). destruct H.
Qed.
Lemma escapes_not_u e c : In (e, c) escapes -> e <> 117.
Proof. cbn [escapes In]. intros H ->. repeat (destruct H as [H|H]; [discriminate H|]). destruct H. Qed.
Lemma scan_complete s b : chars s b -> forall fuel r, (length b < fuel)%nat -> scan_string fuel (b ++ 34 :: r) = Some (s, r).
Proof.
  induction 1 as [|c s t A B C H IH|e c s t I H IH|n h s t X NP H IH|n m h k s t X Y HI LO H IH]; intros fuel r L; (destruct fuel as [|fuel]; [lia|]).
  - reflexivity.
  - cbn [length] in L. cbn [app scan_string]. destruct (N.eqb_spec c 34); [congruence|]. destruct (N.eqb_spec c 92); [congruence|]. destruct (N.ltb_spec c 32); [lia|]. rewrite IH by lia. reflexivity.
  - cbn [length] in L. cbn [app scan_string]. change (92 =? 34) with false. change (92 =? 92) with true. cbv iota. destruct (N.eqb_spec e 117) as [->|]; [exfalso; exact (escapes_not_u _ _ I eq_refl)|].
    rewrite (proj2 (unescape_iff e c) I), IH by lia. reflexivity.
  - pose proof (hexes_length _ _ X) as LH. cbn [length] in L. rewrite app_length, LH in L. cbn [app scan_string]. change (92 =? 34) with false. change (92 =? 92) with true. change (117 =? 117) with true. cbv iota.
    rewrite <- app_assoc. rewrite (proj2 (hex4_spec _ n (t ++ 34 :: r))) by eauto.
    assert (SC : scan_string fuel (t ++ 34 :: r) = Some (s, r)) by (apply IH; lia).
    destruct (is_high n) eqn:HI; [|rewrite SC; reflexivity]. apply high_iff in HI. specialize (NP HI).
    destruct (t ++ 34 :: r) as [|b1 [|x1 q]] eqn:E; [rewrite SC; reflexivity|rewrite SC; reflexivity|]. destruct ((b1 =? 92) && (x1 =? 117)) eqn:BX; [|rewrite SC; reflexivity].
    apply andb_true_iff in BX as [B1 X1]. apply N.eqb_eq in B1, X1. subst b1 x1.
    destruct (hex4 q) as [[m q']|] eqn:HQ.
    + destruct (is_low m) eqn:LO; [|rewrite SC; reflexivity]. exfalso. apply low_iff in LO. apply hex4_spec in HQ as (k & K & ->). apply NP.
      (* the pair lies before the closing quote *)
      inversion H as [E0|c0 s0 t0 P1 P2 P3 H0 E0 E1|e0 c0 s0 t0 I0 H0 E0 E1|n0 h0 s0 t0 X0 NP0 H0 E0 E1|n0 m0 h0 k0 s0 t0 X0 Y0 HI0 LO0 H0 E0 E1]; subst.
      * discriminate E.
      * cbn [app] in E. injection E as E _. congruence.
      * cbn [app] in E. injection E as E _. subst e0. exfalso. exact (escapes_not_u _ _ I0 eq_refl).
      * exists m, k. cbn [app] in E. assert (E' : h0 ++ t0 ++ 34 :: r = k ++ q') by (injection E as E; rewrite <- app_assoc in E; exact E).
        destruct (hexes_unique n0 m h0 k _ _ X0 K E') as (-> & -> & _). exists t0. auto.
      * exists m, k. cbn [app] in E. assert (E' : h0 ++ (92 :: 117 :: k0 ++ t0) ++ 34 :: r = k ++ q') by (injection E as E; rewrite <- app_assoc in E; exact E).
        destruct (hexes_unique n0 m h0 k _ _ X0 K E') as (-> & -> & _). eexists. split; [exact K|]. split; [exact LO|reflexivity].
    + (* no valid escape follows: impossible inside a string *)
      exfalso. inversion H as [E0|c0 s0 t0 P1 P2 P3 H0 E0 E1|e0 c0 s0 t0 I0 H0 E0 E1|n0 h0 s0 t0 X0 NP0 H0 E0 E1|n0 m0 h0 k0 s0 t0 X0 Y0 HI0 LO0 H0 E0 E1]; subst.
      * discriminate E.
      * cbn [app] in E. injection E as E _. congruence.
      * cbn [app] in E. injection E as E _. subst e0. exact (escapes_not_u _ _ I0 eq_refl).
      * cbn [app] in E. assert (E' : h0 ++ t0 ++ 34 :: r = q) by (injection E as E; rewrite <- app_assoc in E; exact E). rewrite <- E', (proj2 (hex4_spec _ n0 (t0 ++ 34 :: r))) in HQ by eauto. discriminate.
      * cbn [app] in E. assert (E' : h0 ++ (92 :: 117 :: k0 ++ t0) ++ 34 :: r = q) by (injection E as E; rewrite <- app_assoc in E; exact E). rewrite <- E', (proj2 (hex4_spec _ n0 ((92 :: 117 :: k0 ++ t0) ++ 34 :: r))) in HQ by eauto. discriminate.
  - pose proof (hexes_length _ _ X) as LH. pose proof (hexes_length _ _ Y) as LK. cbn [length] in L. rewrite app_length in L. cbn [length] in L. rewrite app_length in L. cbn [app scan_string]. change (92 =? 34) with false. change (92 =? 92) with true. change (117 =? 117) with true. cbv iota.
    rewrite <- app_assoc. rewrite (proj2 (hex4_spec _ n ((92 :: 117 :: k ++ t) ++ 34 :: r))) by eauto. rewrite (proj2 (high_iff n) HI). cbn [app]. change (92 =? 92) with true. change (117 =? 117) with true. cbn [andb].
    rewrite <- app_assoc. rewrite (proj2 (hex4_spec _ m (t ++ 34 :: r))) by eauto. rewrite (proj2 (low_iff m) LO), IH by lia. reflexivity.
Qed.
Lemma scan_sound fuel : forall t s r, scan_string fuel t = Some (s, r) -> exists b, chars s b /\ t = b ++ 34 :: r.
Proof.
  induction fuel as [|fuel IH]; intros t s r E; [discriminate|]. cbn [scan_string] in E. destruct t as [|c t]; [discriminate|].
  destruct (N.eqb_spec c 34) as [->|N1]. { injection E as <- <-. exists []. split; [constructor|reflexivity]. }
  destruct (N.eqb_spec c 92) as [->|N2].
  - destruct t as [|e t]; [discriminate|]. destruct (N.eqb_spec e 117) as [->|N3].
    + destruct (hex4 t) as [[n t']|] eqn:HT; [|discriminate]. apply hex4_spec in HT as (h & X & ->).
      assert (UNIT : forall s0, (high n -> ~ exists m k q, hexes m k /\ low m /\ t' = 92 :: 117 :: k ++ q) ->
                match scan_string fuel t' with Some (r0, q) => Some (n :: r0, q) | None => None end = Some (s0, r) -> exists b, chars s0 b /\ 92 :: 117 :: h ++ t' = b ++ 34 :: r).
      { intros s0 NP E0. destruct (scan_string fuel t') as [[r0 q]|] eqn:SC; [|discriminate]. injection E0 as <- <-. destruct (IH _ _ _ SC) as (b & B & ->). exists (92 :: 117 :: h ++ b). split.
        - apply chars_unit; [exact X| |exact B]. intros HI (m & k & z & K & LO & ->). apply (NP HI). exists m, k, (z ++ 34 :: q). split; [exact K|]. split; [exact LO|]. cbn [app]. rewrite <- app_assoc. reflexivity.
        - cbn [app]. rewrite <- app_assoc. reflexivity. }
      destruct (is_high n) eqn:HI.
      * apply high_iff in HI. destruct t' as [|b1 [|x1 q]].
        -- apply UNIT in E; [exact E|]. intros _ (m & k & z & _ & _ & Q). discriminate.
        -- apply UNIT in E; [exact E|]. intros _ (m & k & z & _ & _ & Q). discriminate.
        -- destruct ((b1 =? 92) && (x1 =? 117)) eqn:BX.
           ++ apply andb_true_iff in BX as [B1 X1]. apply N.eqb_eq in B1, X1. subst b1 x1. destruct (hex4 q) as [[m q']|] eqn:HQ; [|discriminate]. apply hex4_spec in HQ as (k & K & ->).
              destruct (is_low m) eqn:LO.
              ** apply low_iff in LO. destruct (scan_string fuel q') as [[r0 z]|] eqn:SC; [|discriminate]. injection E as <- <-. destruct (IH _ _ _ SC) as (b & B & ->). exists (92 :: 117 :: h ++ 92 :: 117 :: k ++ b). split; [apply chars_pair; assumption|].
                 cbn [app]. rewrite <- app_assoc. cbn [app]. rewrite <- app_assoc. reflexivity.
              ** apply UNIT in E; [exact E|]. intros _ (m' & k' & z & K' & LO' & Q). assert (Q' : k ++ q' = k' ++ z) by congruence. destruct (hexes_unique _ _ _ _ _ _ K K' Q') as (-> & _). apply low_iff in LO'. congruence.
           ++ apply UNIT in E; [exact E|]. intros _ (m & k & z & _ & _ & Q). injection Q as -> -> _. discriminate.
      * apply UNIT in E; [exact E|]. intros HI'. apply high_iff in HI'. congruence.
    + destruct (unescape e) as [x|] eqn:U; [|discriminate]. destruct (scan_string fuel t) as [[r0 q]|] eqn:SC; [|discriminate]. injection E as <- <-. destruct (IH _ _ _ SC) as (b & B & ->).
      exists (92 :: e :: b). split; [apply chars_escape; [apply unescape_iff, U|exact B]|reflexivity].
  - destruct (N.ltb_spec c 32); [discriminate|]. destruct (scan_string fuel t) as [[r0 q]|] eqn:SC; [|discriminate]. injection E as <- <-. destruct (IH _ _ _ SC) as (b & B & ->). exists (c :: b). split; [apply chars_plain; assumption|reflexivity].
Qed.
Lemma string_complete s q r : quoted s q -> exists b, q ++ r = 34 :: b /\ string_of b = Some (s, r).
Proof.
  intros (b & B & ->). exists (b ++ 34 :: r). split; [cbn [app]; rewrite <- app_assoc; reflexivity|]. apply (scan_complete _ _ B). rewrite app_length. cbn [length]. lia.
Qed.
Lemma string_sound b s r : string_of b = Some (s, r) -> exists q, quoted s q /\ 34 :: b = q ++ r.
Proof. intros E. apply scan_sound in E as (t & T & ->). exists (34 :: t ++ [34]). split; [exists t; auto|]. cbn [app]. rewrite <- app_assoc. reflexivity. Qed.
