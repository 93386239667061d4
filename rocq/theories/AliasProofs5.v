From Coq Require Import List ZArith Lia Bool.
Import ListNotations.
From Verif Require Import PyBase PyDict UtilsModel UtilsSpec UtilsProofs AliasModel AliasSpec AliasProofs AliasProofs2 AliasProofs3 AliasProofs4.
Open Scope Z_scope.

(** ** calls are primitive writes, in whatever state *)
Lemma add_pair_prims h g l r c : prims g h (fst (hadd_pair h g l r c)).
Proof.
  unfold hadd_pair. destruct (hadd2 h (o_lr g) l r c) as [h1|] eqn:E1; [|apply ps_refl]. pose proof (prims_one g h h1 (p_addl g h l r c h1 E1)) as P1. destruct r as [|x r']; [exact P1|].
  destruct (hadd2 h1 (o_rl g) (x :: r') l c) as [h2|] eqn:E2; [|exact P1]. eapply prims_trans; [exact P1|apply prims_one, (p_addr g h1 _ _ _ _ E2)].
Qed.
Lemma add_splits_prims g e c is h : prims g h (fst (hadd_splits h g e is c)).
Proof.
  revert h. induction is as [|i is IH]; intros h; [apply ps_refl|]. cbn [hadd_splits]. pose proof (add_pair_prims h g (firstn i e) (skipn i e) c) as P. destruct (hadd_pair h g (firstn i e) (skipn i e) c) as [h1 [x|]]; cbn [fst] in *; [exact P|]. eapply prims_trans; [exact P|apply IH].
Qed.
Lemma remove_pair_prims h g l r c : prims g h (hremove_pair h g l r c).
Proof. unfold hremove_pair. eapply ps_step; [apply p_decl|apply prims_one, p_decr]. Qed.
Lemma remove_eojeol_prims g e c h : prims g h (hremove_eojeol h g e c).
Proof. unfold hremove_eojeol. generalize (seq 1 (length e)) as is. intros is. revert h. induction is as [|i is IH]; intros h; [apply ps_refl|]. cbn [fold_left]. eapply prims_trans; [apply remove_pair_prims|apply IH]. Qed.
Lemma keeps_prims' h g o : keeps o = true -> snd (hstep (h, g) o) = g /\ prims g h (fst (hstep (h, g) o)).
Proof.
  destruct o as [l r c|e c|l r c|e c| |]; cbn [keeps]; intros X; try discriminate; cbn [hstep fst snd]; split; try reflexivity.
  - apply add_pair_prims. - apply add_splits_prims. - apply remove_pair_prims. - apply remove_eojeol_prims.
Qed.

(** ** what stays true when the caller writes to his dict *)
Record iso (c : nat) (K : list nat) (h : heap) (g : obj) : Prop := {
  is_lr : bounded h (o_lr g); is_rl : bounded h (o_rl g); is_c : bounded h c;
  is_K : forall i, In i K -> (i < nrow h)%nat; is_cK : forall i, In i (refs h c) -> In i K;
  is_n1 : c <> o_rl g; is_n2 : o_lr g <> o_rl g; is_d1 : disj (refs h (o_rl g)) (refs h (o_lr g)); is_d2 : disj (refs h (o_rl g)) K;
  is_or : match o_or g with None => True | Some o => bounded h o /\ o <> c /\ o <> o_lr g /\ o <> o_rl g /\ disj (refs h (o_lr g)) (refs h o) /\ disj (refs h (o_rl g)) (refs h o) /\ disj (refs h o) K end }.
Lemma iso_touches c K h h' g o : touches o h h' -> iso c K h g -> iso c K h' g.
Proof.
  intros T [I1 I2 I3 I4 I5 I6 I7 I8 I9 I10]. constructor; try assumption; try (eapply touches_bounded; eassumption); try (eapply touches_disj; eassumption).
  - rewrite (to_nrow _ _ _ T). exact I4.
  - intros i J. apply I5, (touches_subrefs _ _ _ _ T), J.
  - intros i J. apply I9, (touches_subrefs _ _ _ _ T), J.
  - destruct (o_or g) as [q|]; [|exact I]. destruct I10 as (J1 & J2 & J3 & J4 & J5 & J6 & J7). repeat split; try assumption; try (eapply touches_bounded; eassumption); try (eapply touches_disj; eassumption).
    intros i J. apply J7, (touches_subrefs _ _ _ _ T), J.
Qed.
Definition same_origin (h : heap) (g : obj) (h' : heap) : Prop := forall o, o_or g = Some o -> read h' o = read h o /\ outv h' o = outv h o.
Lemma iso_prims c K h h' g : prims g h h' -> iso c K h g -> iso c K h' g /\ same_origin h g h'.
Proof.
  intros P. induction P as [|h h1 h2 P PS IH]; [split; [assumption|intros o _; auto]|]. intros X.
  assert (Y : iso c K h1 g /\ same_origin h g h1).
  { pose proof (is_or _ _ _ _ X) as W. destruct (prim_touches _ _ _ P) as [T|T]; (split; [eapply iso_touches; eassumption|]); intros o E; rewrite E in W; destruct W as (J1 & J2 & J3 & J4 & J5 & J6 & J7); (split; [apply (touches_read _ _ _ _ T); assumption|apply T; assumption]). }
  destruct Y as [Y S1]. destruct (IH Y) as [Z S2]. split; [exact Z|]. intros o E. destruct (S1 o E) as [A1 A2]. destruct (S2 o E) as [B1 B2]. split; congruence.
Qed.
Lemma iso_reset c K h g : iso c K h g -> iso c K (fst (hreset h g)) (snd (hreset h g)) /\ same_origin h g (fst (hreset h g)).
Proof.
  intros X. pose proof X as [I1 I2 I3 I4 I5 I6 I7 I8 I9 I10]. destruct (o_or g) as [o|] eqn:E; [destruct (outv h o) as [|p d] eqn:D|].
  - unfold hreset. rewrite E, D. split; [exact X|intros q _; auto].
  - assert (NE : outv h o <> []) by congruence. rewrite (hreset_some h g o E NE). set (h1 := fst (alloc h (read h o))). cbn [fst snd]. set (dd := make_rl (read h1 (nout h))).
    destruct I10 as (J1 & J2 & J3 & J4 & J5 & J6 & J7). assert (Bc : bounded h1 c) by apply alloc_bounded, I3. assert (Bo : bounded h1 o) by apply alloc_bounded, J1. assert (Bn : bounded h1 (nout h)) by apply alloc_new_bounded. assert (N1 : nout h1 = S (nout h)) by reflexivity.
    assert (Lc : (c < nout h)%nat) by apply I3. assert (Lo : (o < nout h)%nat) by apply J1. set (h2 := fst (alloc h1 dd)).
    assert (OC : outv h2 c = outv h c) by (unfold h2; rewrite alloc_old_out by apply Bc; apply alloc_old_out, I3). assert (OO : outv h2 o = outv h o) by (unfold h2; rewrite alloc_old_out by apply Bo; apply alloc_old_out, J1).
    assert (KN : forall i, In i K -> (i < nrow h1)%nat) by (intros i J; specialize (I4 i J); unfold h1, alloc; cbn [fst nrow]; lia).
    split.
    + constructor; cbn [o_lr o_rl o_or].
      * apply alloc_bounded, Bn. * apply alloc_new_bounded. * apply alloc_bounded, Bc.
      * intros i J. specialize (KN i J). unfold h2, alloc. cbn [fst nrow]. lia.
      * unfold refs. rewrite OC. exact I5.
      * lia. * lia.
      * apply disj_sym, alloc_new_disj, Bn.
      * intros i J J'. unfold h2 in J. rewrite alloc_refs in J. apply in_seq in J. specialize (KN i J'). lia.
      * split; [apply alloc_bounded, Bo|]. split; [exact J2|]. split; [lia|]. split; [lia|]. split; [|split].
        -- unfold h2. rewrite !alloc_old_refs by assumption. unfold h1. apply disj_sym, alloc_new_disj, J1.
        -- apply disj_sym, alloc_new_disj, Bo.
        -- unfold refs. rewrite OO. exact J7.
    + intros q Eq. rewrite E in Eq. assert (q = o) as -> by congruence. split; [|exact OO]. unfold h2. rewrite alloc_old_read by exact Bo. apply alloc_old_read, J1.
  - unfold hreset. rewrite E. split; [exact X|intros q _; auto].
Qed.
Lemma iso_step c K h g o : iso c K h g -> iso c K (fst (hstep (h, g) o)) (snd (hstep (h, g) o)) /\ same_origin h g (fst (hstep (h, g) o)).
Proof.
  intros X. destruct (keeps_cases o) as [Kp|[-> | ->]].
  - destruct (keeps_prims' h g o Kp) as [E P]. rewrite E. apply (iso_prims _ _ _ _ _ P X).
  - apply iso_reset, X.
  - cbn [hstep fst snd]. split; [|intros q _; auto]. destruct X as [I1 I2 I3 I4 I5 I6 I7 I8 I9 I10]. constructor; try assumption. exact I.
Qed.
Lemma iso_write c K K' h h' g : callers_write c K h h' K' -> iso c K h g -> iso c K' h' g /\ same_origin h g h' /\ read h' (o_rl g) = read h (o_rl g).
Proof.
  intros (W1 & W2 & W3 & W4 & W5 & W6) [I1 I2 I3 I4 I5 I6 I7 I8 I9 I10].
  assert (RF : forall o, bounded h o -> o <> c -> refs h' o = refs h o) by (intros o [B _] N; unfold refs; rewrite W3 by assumption; reflexivity).
  assert (BD : forall o, bounded h o -> o <> c -> bounded h' o) by (intros o B N; pose proof B as [B1 B2]; split; [lia|]; rewrite RF by assumption; intros i J; specialize (B2 i J); lia).
  assert (K'b : forall i, In i K' -> (i < nrow h')%nat) by (intros i J; destruct (W6 i J) as [J1|J1]; [specialize (I4 i J1); lia|lia]).
  assert (Bc : bounded h' c) by (split; [destruct I3; lia|]; intros i J; apply K'b, W5, J).
  assert (DK : forall o, bounded h o -> o <> c -> disj (refs h o) K -> disj (refs h' o) K').
  { intros o B N D i J J'. rewrite RF in J by assumption. destruct (W6 i J') as [J1|J1]; [exact (D i J J1)|]. destruct B as [_ B]. specialize (B i J). lia. }
  (* the references of _lr: as before, or, if it is the caller's dict, rows he holds *)
  assert (LR : forall o, bounded h o -> o <> c -> disj (refs h o) (refs h (o_lr g)) -> disj (refs h o) K -> disj (refs h' o) (refs h' (o_lr g))).
  { intros o B N D1 D2. destruct (Nat.eq_dec (o_lr g) c) as [Ec|Nc].
    - intros i J J'. rewrite Ec in J'. exact (DK o B N D2 i J (W5 i J')).
    - rewrite !RF by assumption. exact D1. }
  assert (RD : forall o, bounded h o -> o <> c -> disj (refs h o) K -> read h' o = read h o).
  { intros o B N D. apply read_ext; [apply W3; [apply B|exact N]|]. intros i J. apply W4; [apply B, J|apply D, J]. }
  split; [|split].
  - constructor; try assumption.
    + destruct (Nat.eq_dec (o_lr g) c) as [Ec|Nc]; [rewrite Ec; exact Bc|apply BD; assumption].
    + apply BD; [assumption|apply not_eq_sym, I6].
    + apply LR; [assumption|apply not_eq_sym, I6|exact I8|exact I9].
    + apply DK; [assumption|apply not_eq_sym, I6|exact I9].
    + destruct (o_or g) as [q|]; [|exact I]. destruct I10 as (J1 & J2 & J3 & J4 & J5 & J6 & J7). split; [apply BD; assumption|]. split; [exact J2|]. split; [exact J3|]. split; [exact J4|]. split; [|split].
      * apply disj_sym, LR; try assumption. apply disj_sym, J5.
      * rewrite !RF; try assumption. apply not_eq_sym, I6.
      * apply DK; assumption.
  - intros o E. rewrite E in I10. destruct I10 as (J1 & J2 & J3 & J4 & J5 & J6 & J7). split; [apply RD; assumption|apply W3; [apply J1|exact J2]].
  - apply RD; [assumption|apply not_eq_sym, I6|exact I9].
Qed.
Definition unfrozen (o : op) : Prop := o <> OpFreeze.
Lemma reset_fields h g : o_or (snd (hreset h g)) = o_or g /\ o_lm (snd (hreset h g)) = o_lm g /\ o_rm (snd (hreset h g)) = o_rm g.
Proof. unfold hreset. destruct (o_or g) as [o|] eqn:E; [|auto]. destruct (outv h o); [auto|]. cbn [snd alloc o_or o_lm o_rm]. auto. Qed.
Lemma mixed_iso c K hg ops hg' K' : mixed c K hg ops hg' K' -> iso c K (fst hg) (snd hg) ->
  iso c K' (fst hg') (snd hg') /\ (Forall unfrozen ops -> o_or (snd hg') = o_or (snd hg) /\ same_origin (fst hg) (snd hg) (fst hg')) /\ o_lm (snd hg') = o_lm (snd hg) /\ o_rm (snd hg') = o_rm (snd hg) /\
  (~ In OpReset ops -> o_lr (snd hg') = o_lr (snd hg)).
Proof.
  intros M. induction M as [K hg|K [h g] o ops hg' K' M IH|K K1 h h' g ops hg' K' W M IH]; intros X.
  - split; [exact X|]. split; [intros _; split; [reflexivity|intros o _; auto]|auto].
  - destruct (iso_step c K h g o X) as [Y S1]. destruct (IH Y) as (Z & S2 & L1 & L2 & L3). split; [exact Z|].
    assert (FF : o_lm (snd (hstep (h, g) o)) = o_lm g /\ o_rm (snd (hstep (h, g) o)) = o_rm g /\ (o <> OpFreeze -> o_or (snd (hstep (h, g) o)) = o_or g) /\ (o <> OpReset -> o_lr (snd (hstep (h, g) o)) = o_lr g)).
    { destruct (keeps_cases o) as [Kp|[-> | ->]]; [destruct (keeps_prims' h g o Kp) as [-> _]; auto|cbn [hstep]; destruct (reset_fields h g) as (Q1 & Q2 & Q3); split; [exact Q2|split; [exact Q3|split; [intros _; exact Q1|congruence]]]|cbn [hstep snd o_lm o_rm o_lr]; repeat split; congruence]. }
    destruct FF as (F1 & F2 & F3 & F4). cbn [fst snd]. split; [|split; [congruence|split; [congruence|]]].
    + intros U. inversion U as [|? ? U1 U2]; subst. specialize (F3 U1). destruct (S2 U2) as [E2 O2]. split; [congruence|]. intros q Eq. destruct (S1 q Eq) as [A1 A2]. destruct (O2 q) as [B1 B2]; [congruence|]. split; congruence.
    + intros NR. rewrite L3 by (intros J; apply NR; right; exact J). apply F4. intros ->. apply NR. left. reflexivity.
  - destruct (iso_write c K K1 h h' g W X) as (Y & S1 & _). destruct (IH Y) as (Z & S2 & L1 & L2 & L3). cbn [fst snd] in *. split; [exact Z|]. split; [|auto].
    intros U. destruct (S2 U) as [E2 O2]. split; [exact E2|]. intros q Eq. destruct (S1 q Eq) as [A1 A2]. destruct (O2 q Eq) as [B1 B2]. split; congruence.
Qed.
(** the object just constructed *)
Lemma stands_iso h c plain kind lm rm hg : callers_dict h c -> construct h c plain kind lm rm = Ok hg -> iso c (map snd (outv h c)) (fst hg) (snd hg).
Proof.
  destruct hg as [h' g]. intros CD E. destruct (construct_spec h c plain kind lm rm h' g CD E) as (S & _ & _ & _ & NO & _). cbn [fst snd]. pose proof (st_owned _ _ _ _ S) as O. destruct CD as (Lc & NK & NR & Bc & _).
  assert (RC : refs h' c = map snd (outv h c)) by (unfold refs; rewrite (st_out _ _ _ _ S); reflexivity). pose proof (ow_or _ _ O) as W. pose proof (st_or _ _ _ _ S) as V.
  constructor; try apply O.
  - apply S.
  - intros i J. rewrite <- RC in J. apply (st_bnd _ _ _ _ S), J.
  - rewrite RC. auto.
  - apply S.
  - apply disj_sym, O.
  - rewrite <- RC. apply S.
  - destruct (o_or g) as [o|]; [|exact I]. destruct W as (W1 & W2 & W3 & W4 & W5 & W6). destruct V as [V1 V2]. rewrite RC in V2. repeat split; try assumption; try apply W1. apply not_eq_sym, V1.
Qed.
