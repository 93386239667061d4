From Coq Require Import List ZArith Lia Bool.
Import ListNotations.
From Verif Require Import PyBase PyDict UtilsModel UtilsSpec UtilsProofs AliasModel AliasSpec AliasProofs AliasProofs2 AliasProofs3.
Open Scope Z_scope.

(** ** a dict no part of which the object holds does not change *)
Record apart (h : heap) (g : obj) (c : nat) : Prop := {
  ap_b : bounded h c; ap_nl : c <> o_lr g; ap_nr : c <> o_rl g; ap_dl : disj (refs h (o_lr g)) (refs h c); ap_dr : disj (refs h (o_rl g)) (refs h c) }.
Lemma apart_touches h h' g c o : (o = o_lr g \/ o = o_rl g) -> touches o h h' -> apart h g c -> apart h' g c /\ read h' c = read h c.
Proof.
  intros Ho T [A1 A2 A3 A4 A5]. split.
  - constructor; try assumption; [eapply touches_bounded; eassumption| |]; eapply touches_disj; eassumption.
  - destruct Ho as [-> | ->]; apply (touches_read _ _ _ _ T); assumption.
Qed.
Lemma apart_prims h h' g c : prims g h h' -> apart h g c -> apart h' g c /\ read h' c = read h c.
Proof.
  intros P. induction P as [|h h1 h2 P PS IH]; [auto|]. intros X. destruct (prim_touches _ _ _ P) as [T|T].
  - destruct (apart_touches _ _ _ _ _ (or_introl eq_refl) T X) as [Y E]. destruct (IH Y) as [W F]. split; [exact W|congruence].
  - destruct (apart_touches _ _ _ _ _ (or_intror eq_refl) T X) as [Y E]. destruct (IH Y) as [W F]. split; [exact W|congruence].
Qed.
(** after an effective reset everything older is apart *)
Lemma reset_apart h g o c : bounded h c -> o_or g = Some o -> outv h o <> [] -> apart (fst (hreset h g)) (snd (hreset h g)) c /\ read (fst (hreset h g)) c = read h c.
Proof.
  intros B E N. rewrite (hreset_some h g o E N). set (h1 := fst (alloc h (read h o))). cbn [fst snd]. set (d := make_rl (read h1 (nout h))). assert (B1 : bounded h1 c) by apply alloc_bounded, B. assert (Bn : bounded h1 (nout h)) by apply alloc_new_bounded. assert (N1 : nout h1 = S (nout h)) by reflexivity. assert (Lc : (c < nout h)%nat) by apply B. split.
  - constructor; cbn [o_lr o_rl].
    + apply alloc_bounded, B1. + lia. + lia.
    + rewrite !alloc_old_refs by assumption. apply disj_sym. unfold h1. apply alloc_new_disj, B.
    + apply disj_sym, alloc_new_disj, B1.
  - rewrite alloc_old_read by exact B1. unfold h1. apply alloc_old_read, B.
Qed.
Lemma apart_reset h g c : apart h g c -> apart (fst (hreset h g)) (snd (hreset h g)) c /\ read (fst (hreset h g)) c = read h c.
Proof.
  intros X. destruct (o_or g) as [o|] eqn:E; [destruct (outv h o) as [|p d] eqn:D|].
  - unfold hreset. rewrite E, D. auto.
  - apply (reset_apart h g o c (ap_b _ _ _ X) E). congruence.
  - unfold hreset. rewrite E. auto.
Qed.
Lemma keeps_cases o : keeps o = true \/ o = OpReset \/ o = OpFreeze.
Proof. destruct o; auto. Qed.
Lemma apart_step h g o c : owned h g -> apart h g c -> apart (fst (hstep (h, g) o)) (snd (hstep (h, g) o)) c /\ read (fst (hstep (h, g) o)) c = read h c.
Proof.
  intros O X. destruct (keeps_cases o) as [K|[-> | ->]].
  - destruct (keeps_prims h g o O K) as [E P]. rewrite E. apply (apart_prims _ _ _ _ P X).
  - apply apart_reset, X.
  - cbn [hstep fst snd]. split; [|reflexivity]. destruct X as [A1 A2 A3 A4 A5]. constructor; assumption.
Qed.
Lemma apart_run ops h g c : owned h g -> apart h g c -> read (fst (hrun (h, g) ops)) c = read h c.
Proof.
  revert h g. induction ops as [|o ops IH]; intros h g O X; [reflexivity|]. destruct (apart_step h g o c O X) as [Y E]. destruct (step_sim h g o O) as [_ O1]. unfold hrun. cbn [fold_left]. destruct (hstep (h, g) o) as [h1 g1]. cbn [fst snd] in *. rewrite <- E. apply IH; assumption.
Qed.

(** ** a dict that is a function [F] of the object's graph, until the object is reset *)
Section Follow.
Variables (c : nat) (I : heap -> nat -> nat -> Prop) (F : graph -> graph).
Hypothesis I_bnd : forall h a b, I h a b -> bounded h c.
Hypothesis I_read : forall h g, owned h g -> I h (o_lr g) (o_rl g) -> read h c = F (read h (o_lr g)).
Hypothesis I_prim : forall h h' g, owned h g -> prim g h h' -> I h (o_lr g) (o_rl g) -> I h' (o_lr g) (o_rl g).
Lemma I_prims h h' g : owned h g -> prims g h h' -> I h (o_lr g) (o_rl g) -> I h' (o_lr g) (o_rl g).
Proof.
  intros O P. induction P as [|h h1 h2 P PS IH]; [auto|]. intros X. apply IH; [|eapply I_prim; eassumption]. apply (prims_owned g h h1 (prims_one _ _ _ P) O).
Qed.
Lemma follow_frozen ops h g : owned h g -> I h (o_lr g) (o_rl g) -> o_or g = None -> read (fst (hrun (h, g) ops)) c = F (lr (history (denotes (h, g)) ops)).
Proof.
  revert h g. induction ops as [|o ops IH]; intros h g O X E; [cbn; apply (I_read h g O X)|]. destruct (step_sim h g o O) as [S1 O1]. unfold hrun, history. cbn [fold_left]. rewrite <- S1.
  assert (Y : I (fst (hstep (h, g) o)) (o_lr (snd (hstep (h, g) o))) (o_rl (snd (hstep (h, g) o))) /\ o_or (snd (hstep (h, g) o)) = None).
  { destruct (keeps_cases o) as [K|[-> | ->]].
    - destruct (keeps_prims h g o O K) as [-> P]. split; [apply (I_prims _ _ _ O P X)|exact E].
    - cbn [hstep]. unfold hreset. rewrite E. auto.
    - cbn [hstep fst snd o_lr o_rl o_or]. auto. }
  destruct (hstep (h, g) o) as [h1 g1]. cbn [fst snd] in *. apply IH; tauto.
Qed.
Lemma follow ops h g o0 : owned h g -> I h (o_lr g) (o_rl g) -> o_or g = Some o0 -> outv h o0 <> [] -> read (fst (hrun (h, g) ops)) c = F (lr (history (denotes (h, g)) (until_reset ops))).
Proof.
  revert h g. induction ops as [|o ops IH]; intros h g O X E N; [cbn; apply (I_read h g O X)|]. destruct (step_sim h g o O) as [S1 O1]. destruct (keeps_cases o) as [K|[-> | ->]].
  - destruct (keeps_prims h g o O K) as [E1 P]. assert (U : until_reset (o :: ops) = o :: until_reset ops) by (destruct o; try discriminate; reflexivity). rewrite U. unfold hrun, history. cbn [fold_left]. rewrite <- S1.
    destruct (hstep (h, g) o) as [h1 g1]. cbn [fst snd] in *. subst g1. apply IH; [exact O1|apply (I_prims _ _ _ O P X)|exact E|].
    pose proof (ow_or _ _ O) as W. rewrite E in W. destruct W as (_ & N1 & N2 & _).
    assert (Z : outv h1 o0 = outv h o0); [|rewrite Z; exact N].
    clear -P N1 N2. induction P as [|h h1 h2 P PS IH]; [reflexivity|]. rewrite IH. destruct (prim_touches _ _ _ P) as [T|T]; apply T; assumption.
  - cbn [until_reset]. cbn [history fold_left]. unfold hrun. cbn [fold_left]. change (hstep (h, g) OpReset) with (hreset h g) in *. destruct (reset_apart h g o0 c (I_bnd _ _ _ X) E N) as [A R]. destruct (hreset h g) as [h1 g1]. cbn [fst snd] in *.
    unfold denotes. cbn [fst snd lr]. rewrite <- (I_read h g O X), <- R. apply apart_run; assumption.
  - cbn [until_reset]. unfold hrun, history. cbn [fold_left]. rewrite <- S1. change (hstep (h, g) OpFreeze) with (h, mkObj (o_lr g) (o_rl g) None (o_lm g) (o_rm g)) in *. apply follow_frozen; [exact O1|exact X|reflexivity].
Qed.
End Follow.

(** ** the object with the rows of the caller's dict, in an outer dict of its own *)
Record rows_of (C : dict str nat) (c : nat) (h : heap) (a b : nat) : Prop := {
  rw_b : bounded h c; rw_c : outv h c = C; rw_na : c <> a; rw_nb : c <> b; rw_db : disj (refs h b) (map snd C);
  rw_sub : forall l i, In (l, i) (outv h a) -> In (l, i) C;
  rw_gone : forall l i, In (l, i) C -> ~ In (l, i) (outv h a) -> rowv h i = [] }.
Lemma rows_rl C c h h' g : touches (o_rl g) h h' -> o_lr g <> o_rl g -> rows_of C c h (o_lr g) (o_rl g) -> rows_of C c h' (o_lr g) (o_rl g).
Proof.
  intros T NE [R1 R2 R3 R4 R5 R6 R7]. constructor; try assumption.
  - eapply touches_bounded; eassumption.
  - rewrite (to_out _ _ _ T) by exact R4. exact R2.
  - intros i J. apply R5, (to_refs _ _ _ T), J.
  - rewrite (to_out _ _ _ T) by exact NE. exact R6.
  - intros l i J1 J2. rewrite (to_out _ _ _ T) in J2 by exact NE. rewrite (to_row _ _ _ T); [eapply R7; eassumption|]. intros J3. apply (R5 i J3). apply (in_map snd) in J1. exact J1.
Qed.
Lemma dget_inn (d : dict str nat) a i : dget d a = Some i -> In (a, i) d.
Proof. induction d as [|[k j] d IH]; [discriminate|]. cbn [dget]. destruct (eqb_spec k a) as [->|]; [intros E; left; congruence|right; auto]. Qed.
Lemma NoDup_snd_inj {A} (d : list (A * nat)) a b i : NoDup (map snd d) -> In (a, i) d -> In (b, i) d -> a = b.
Proof.
  induction d as [|[k j] d IH]; intros N; [intros []|]. cbn [map snd] in N. inversion N as [|? ? NI ND]; subst. intros [E|J1] [F|J2]; [congruence| | |eauto].
  - exfalso. apply NI. apply (in_map snd) in J2. cbn [snd] in J2. congruence.
  - exfalso. apply NI. apply (in_map snd) in J1. cbn [snd] in J1. congruence.
Qed.
Lemma rows_set C c h g a i v : NoDup (map snd C) -> dget (outv h (o_lr g)) a = Some i -> rows_of C c h (o_lr g) (o_rl g) -> rows_of C c (set_row h i v) (o_lr g) (o_rl g).
Proof.
  intros NC G [R1 R2 R3 R4 R5 R6 R7]. constructor; try assumption. intros l j J1 J2. cbn [set_row outv rowv] in *. destruct (Nat.eqb_spec j i) as [->|]; [|eapply R7; eassumption].
  exfalso. apply J2. apply dget_inn in G. rewrite (NoDup_snd_inj C l a i NC J1 (R6 _ _ G)). exact G.
Qed.
Lemma rows_prim C c h h' g : NoDup (map snd C) -> NoDup (map fst C) -> owned h g -> prim g h h' -> rows_of C c h (o_lr g) (o_rl g) -> rows_of C c h' (o_lr g) (o_rl g).
Proof.
  intros NC NKC O P X. inversion P as [h0 a b z h1 E|h0 a b z h1 E|h0 a b z|h0 a b z]; subst.
  - unfold hadd2 in E. destruct (dget (outv h (o_lr g)) a) as [i|] eqn:G; [|discriminate]. destruct (dget (rowv h i) b) as [v|]; [|discriminate]. assert (h' = set_row h i (dset (rowv h i) b (v + z))) as -> by congruence. apply (rows_set _ _ _ _ a); assumption.
  - apply (rows_rl _ _ h); [eapply hadd2_touches; eassumption|apply O|exact X].
  - unfold hdec2. destruct (dget (outv h (o_lr g)) a) as [i|] eqn:G; [|exact X]. destruct (dget (rowv h i) b) as [v|]; [|exact X]. destruct (v - z <=? 0); [|apply (rows_set _ _ _ _ a); assumption].
    pose proof (rows_set C c h g a i (dpop (rowv h i) b) NC G X) as Y. destruct (dpop (rowv h i) b) as [|q d] eqn:D; [|exact Y].
    set (h1 := set_row h i []) in *. destruct Y as [R1 R2 R3 R4 R5 R6 R7]. pose proof (dget_inn _ _ _ G) as GI.
    assert (OX : forall o, o <> o_lr g -> outv (set_out h1 (o_lr g) (dpop (outv h (o_lr g)) a)) o = outv h1 o) by (intros o N; cbn [set_out outv]; destruct (Nat.eqb_spec o (o_lr g)); [congruence|reflexivity]).
    constructor; try assumption.
    + destruct R1 as [B1 B2]. split; [exact B1|]. unfold refs. rewrite OX by exact R3. exact B2.
    + rewrite OX by exact R3. exact R2.
    + unfold refs. rewrite OX by (apply not_eq_sym, O). exact R5.
    + intros l j. cbn [set_out outv]. rewrite Nat.eqb_refl. intros J. apply filter_In in J as [J _]. apply R6. exact J.
    + intros l j J1. cbn [set_out outv rowv]. rewrite Nat.eqb_refl. intros J2. unfold h1 in *. cbn [set_row rowv outv] in *.
      destruct (Nat.eqb_spec j i) as [->|Nj]; [reflexivity|]. specialize (R7 l j J1). destruct (Nat.eqb_spec j i) as [|_] in R7; [contradiction|]. apply R7. intros J3. apply J2. apply filter_In. split; [exact J3|]. cbn [fst]. destruct (eqb_spec l a) as [->|]; [|reflexivity]. exfalso. apply Nj.
      pose proof (R6 _ _ J3) as K1. pose proof (R6 _ _ GI) as K2. clear -NKC K1 K2. induction C as [|[k q] C IH]; [contradiction|]. cbn [map fst] in NKC. inversion NKC as [|? ? NI ND]; subst. destruct K1 as [E|K1], K2 as [F|K2]; [congruence| | |auto].
      * exfalso. apply NI. apply (in_map fst) in K2. cbn [fst] in K2. congruence.
      * exfalso. apply NI. apply (in_map fst) in K1. cbn [fst] in K1. congruence.
  - apply (rows_rl _ _ h); [apply hdec2_touches|apply O|exact X].
Qed.
Lemma rows_read C c h g : NoDup (map fst C) -> owned h g -> rows_of C c h (o_lr g) (o_rl g) -> read h c = map (fun l => (l, dgetd (read h (o_lr g)) l [])) (map fst C).
Proof.
  intros NK O [R1 R2 R3 R4 R5 R6 R7]. unfold read at 1. rewrite R2, map_map. apply map_ext_in. intros [l i] J. cbn [fst snd]. f_equal. unfold dgetd. rewrite read_dget. destruct (dget (outv h (o_lr g)) l) as [j|] eqn:G; cbn [option_map].
  - apply dget_inn in G. pose proof (R6 _ _ G) as J'. assert (i = j) as ->; [|reflexivity]. clear -NK J J'. induction C as [|[k q] C IH]; [contradiction|]. cbn [map fst] in NK. inversion NK as [|? ? NI ND]; subst. destruct J as [E|K1], J' as [F|K2]; [congruence| | |auto].
    + exfalso. apply NI. apply (in_map fst) in K2. cbn [fst] in K2. congruence.
    + exfalso. apply NI. apply (in_map fst) in K1. cbn [fst] in K1. congruence.
  - apply R7 with l; [exact J|]. intros J2. apply dget_None in G. apply G. apply (in_map fst) in J2. exact J2.
Qed.
