From Coq Require Import List ZArith Lia Bool.
Import ListNotations.
From Verif Require Import PyBase PyDict UtilsModel UtilsSpec UtilsProofs AliasModel AliasSpec AliasProofs.
Open Scope Z_scope.

(** ** primitive writes of the object *)
Inductive prim (g : obj) : heap -> heap -> Prop :=
| p_addl h a b c h' : hadd2 h (o_lr g) a b c = Ok h' -> prim g h h'
| p_addr h a b c h' : hadd2 h (o_rl g) a b c = Ok h' -> prim g h h'
| p_decl h a b c : prim g h (hdec2 h (o_lr g) a b c)
| p_decr h a b c : prim g h (hdec2 h (o_rl g) a b c).
Inductive prims (g : obj) : heap -> heap -> Prop :=
| ps_refl h : prims g h h
| ps_step h h1 h2 : prim g h h1 -> prims g h1 h2 -> prims g h h2.
Lemma prims_trans g h h1 h2 : prims g h h1 -> prims g h1 h2 -> prims g h h2.
Proof. intros P. induction P; intros Q; [exact Q|]. eapply ps_step; [eassumption|]. apply IHP, Q. Qed.
Lemma prims_one g h h1 : prim g h h1 -> prims g h h1.
Proof. intros P. eapply ps_step; [exact P|apply ps_refl]. Qed.
Lemma prims_inv (g : obj) (I : heap -> Prop) : (forall h h', prim g h h' -> I h -> I h') -> forall h h', prims g h h' -> I h -> I h'.
Proof. intros X h h' P. induction P; [auto|]. intros H0. apply IHP. eapply X; eassumption. Qed.
Lemma prim_touches g h h' : prim g h h' -> touches (o_lr g) h h' \/ touches (o_rl g) h h'.
Proof. intros P. inversion P; subst; [left|right|left|right]; try apply hdec2_touches; eapply hadd2_touches; eassumption. Qed.
Lemma prims_owned g h h' : prims g h h' -> owned h g -> owned h' g.
Proof. apply (prims_inv g (fun h => owned h g)). intros h1 h2 P O. destruct (prim_touches _ _ _ P) as [T|T]; eapply touches_owned; eassumption. Qed.

(** ** every call but reset_lrgraph is a sequence of primitive writes, and does what the model without references says *)
Lemma read_rl_of_lr h g h' : owned h g -> touches (o_lr g) h h' -> read h' (o_rl g) = read h (o_rl g).
Proof. intros O T. apply (touches_read _ _ _ _ T); [apply not_eq_sym, (ow_ne _ _ O)|apply (ow_dj _ _ O)]. Qed.
Lemma read_lr_of_rl h g h' : owned h g -> touches (o_rl g) h h' -> read h' (o_lr g) = read h (o_lr g).
Proof. intros O T. apply (touches_read _ _ _ _ T); [apply (ow_ne _ _ O)|]. intros i I J. exact (ow_dj _ _ O i J I). Qed.
Lemma read_or h g h' : owned h g -> touches (o_lr g) h h' \/ touches (o_rl g) h h' -> option_map (read h') (o_or g) = option_map (read h) (o_or g).
Proof.
  intros O T. pose proof (ow_or _ _ O) as W. destruct (o_or g) as [o|]; [|reflexivity]. cbn [option_map]. destruct W as (_ & N1 & N2 & D1 & D2 & _). f_equal. destruct T as [T|T]; eapply touches_read; try eassumption.
Qed.
Lemma den_lr h g h' d : owned h g -> touches (o_lr g) h h' -> read h' (o_lr g) = d -> denotes (h', g) = set_lr (denotes (h, g)) d.
Proof. intros O T <-. unfold denotes, set_lr. cbn [fst snd rl origin l_max r_max]. rewrite (read_rl_of_lr h g h' O T), (read_or h g h' O (or_introl T)). reflexivity. Qed.
Lemma den_rl h g h' d : owned h g -> touches (o_rl g) h h' -> read h' (o_rl g) = d -> denotes (h', g) = set_rl (denotes (h, g)) d.
Proof. intros O T <-. unfold denotes, set_rl. cbn [fst snd lr origin l_max r_max]. rewrite (read_lr_of_rl h g h' O T), (read_or h g h' O (or_intror T)). reflexivity. Qed.

Lemma add_pair_sim h g l r c : owned h g ->
  prims g h (fst (hadd_pair h g l r c)) /\ add_lr_pair (denotes (h, g)) l r c = (denotes (fst (hadd_pair h g l r c), g), snd (hadd_pair h g l r c)).
Proof.
  intros O. unfold add_lr_pair, hadd_pair. change (lr (denotes (h, g))) with (read h (o_lr g)). rewrite (hadd2_read h (o_lr g) l r c (ow_nlr _ _ O)).
  destruct (hadd2 h (o_lr g) l r c) as [h1|e] eqn:E1; [|split; [apply ps_refl|reflexivity]].
  pose proof (hadd2_touches _ _ _ _ _ _ E1) as T1. pose proof (touches_owned _ _ _ _ T1 O) as O1. pose proof (den_lr h g h1 _ O T1 eq_refl) as D1.
  pose proof (prims_one g h h1 (p_addl g h l r c h1 E1)) as P1.
  destruct r as [|x r']; [split; [exact P1|cbn [fst snd]; rewrite D1; reflexivity]|].
  rewrite <- D1. change (rl (denotes (h1, g))) with (read h1 (o_rl g)). rewrite (hadd2_read h1 (o_rl g) (x :: r') l c (ow_nrl _ _ O1)).
  destruct (hadd2 h1 (o_rl g) (x :: r') l c) as [h2|e] eqn:E2; [|split; [exact P1|reflexivity]].
  pose proof (hadd2_touches _ _ _ _ _ _ E2) as T2. cbn [fst snd]. split; [eapply prims_trans; [exact P1|apply prims_one, (p_addr g h1 _ _ _ _ E2)]|].
  rewrite (den_rl h1 g h2 _ O1 T2 eq_refl). reflexivity.
Qed.
Lemma add_splits_sim g e c is h : owned h g ->
  prims g h (fst (hadd_splits h g e is c)) /\ add_splits (denotes (h, g)) e is c = (denotes (fst (hadd_splits h g e is c), g), snd (hadd_splits h g e is c)).
Proof.
  revert h. induction is as [|i is IH]; intros h O; [split; [apply ps_refl|reflexivity]|]. cbn [hadd_splits add_splits].
  destruct (add_pair_sim h g (firstn i e) (skipn i e) c O) as [P E]. rewrite E. destruct (hadd_pair h g (firstn i e) (skipn i e) c) as [h1 [x|]]; cbn [fst snd] in *; [split; [exact P|reflexivity]|].
  destruct (IH h1 (prims_owned _ _ _ P O)) as [P2 E2]. split; [eapply prims_trans; eassumption|exact E2].
Qed.
Lemma remove_pair_sim h g l r c : owned h g -> prims g h (hremove_pair h g l r c) /\ remove_lr_pair (denotes (h, g)) l r c = denotes (hremove_pair h g l r c, g).
Proof.
  intros O. unfold hremove_pair, remove_lr_pair. set (h1 := hdec2 h (o_lr g) l r c). pose proof (hdec2_touches h (o_lr g) l r c) as T1. fold h1 in T1. pose proof (touches_owned _ _ _ _ T1 O) as O1.
  pose proof (hdec2_touches h1 (o_rl g) r l c) as T2. split; [eapply ps_step; [apply p_decl|apply prims_one, p_decr]|].
  rewrite (den_rl h1 g _ _ O1 T2 eq_refl), (hdec2_read h1 _ _ _ _ (ow_nrl _ _ O1) (ow_krl _ _ O1)), (den_lr h g h1 _ O T1 eq_refl). unfold h1 at 1. rewrite (hdec2_read h _ _ _ _ (ow_nlr _ _ O) (ow_klr _ _ O)).
  f_equal. cbn [rl set_lr denotes fst snd]. unfold h1. f_equal. symmetry. apply (read_rl_of_lr h g _ O T1).
Qed.
Lemma remove_eojeol_sim g e c h : owned h g -> prims g h (hremove_eojeol h g e c) /\ remove_eojeol (denotes (h, g)) e c = denotes (hremove_eojeol h g e c, g).
Proof.
  unfold hremove_eojeol, remove_eojeol. generalize (seq 1 (length e)) as is. intros is. revert h. induction is as [|i is IH]; intros h O; [split; [apply ps_refl|reflexivity]|]. cbn [fold_left].
  destruct (remove_pair_sim h g (firstn i e) (skipn i e) c O) as [P E]. rewrite E. destruct (IH _ (prims_owned _ _ _ P O)) as [P2 E2]. split; [eapply prims_trans; eassumption|exact E2].
Qed.

(** ** reset_lrgraph allocates *)
Lemma alloc_eq h d : alloc h d = (fst (alloc h d), nout h).
Proof. reflexivity. Qed.
Lemma alloc_nout h d : nout (fst (alloc h d)) = S (nout h).
Proof. reflexivity. Qed.
Lemma alloc_nd h d : NoDup (refs (fst (alloc h d)) (nout h)).
Proof. rewrite alloc_refs. apply seq_NoDup. Qed.
Lemma disj_sym a b : disj a b -> disj b a.
Proof. intros D i I J. exact (D i J I). Qed.
(** the reset of an object whose origin is [o] *)
Lemma fresh_object h o lm rm e : bounded h o -> NoDup (map fst (outv h o)) -> NoDup (map fst (e (read h o))) ->
  let h1 := fst (alloc h (read h o)) in let h2 := fst (alloc h1 (e (read h1 (nout h)))) in
  owned h2 (mkObj (nout h) (nout h1) (Some o) lm rm) /\ denotes (h2, mkObj (nout h) (nout h1) (Some o) lm rm) = mkLrg (read h o) (e (read h o)) (Some (read h o)) lm rm.
Proof.
  intros B K Ke h1 h2. assert (B1 : bounded h1 o) by apply alloc_bounded, B. assert (Bn : bounded h1 (nout h)) by apply alloc_new_bounded.
  assert (R1 : read h1 (nout h) = read h o) by apply alloc_read. assert (E2 : h2 = fst (alloc h1 (e (read h o)))) by (unfold h2; rewrite R1; reflexivity). clearbody h2. subst h2.
  assert (N1 : nout h1 = S (nout h)) by reflexivity. assert (Lo : (o < nout h)%nat) by apply B.
  assert (NR : NoDup (map fst (read h o))) by (rewrite read_keys; exact K). split.
  - constructor; cbn [o_lr o_rl o_or].
    + apply alloc_bounded, Bn.
    + apply alloc_new_bounded.
    + rewrite alloc_old_refs by exact Bn. unfold h1. apply alloc_nd.
    + apply alloc_nd.
    + rewrite alloc_old_out by apply Bn. unfold h1. rewrite alloc_keys. exact NR.
    + rewrite alloc_keys. exact Ke.
    + lia.
    + apply alloc_new_disj, Bn.
    + split; [apply alloc_bounded, B1|]. split; [lia|]. split; [lia|]. split; [|split].
      * rewrite !alloc_old_refs by assumption. unfold h1. apply disj_sym, alloc_new_disj, B.
      * apply disj_sym, alloc_new_disj, B1.
      * rewrite alloc_old_out by apply B1. unfold h1. rewrite alloc_old_out by apply B. exact K.
  - unfold denotes. cbn [fst snd o_lr o_rl o_or o_lm o_rm option_map]. rewrite alloc_old_read by exact Bn. rewrite R1, alloc_read. rewrite alloc_old_read by exact B1. unfold h1. rewrite alloc_old_read by exact B. reflexivity.
Qed.
Lemma hreset_some h g o : o_or g = Some o -> outv h o <> [] -> hreset h g = (fst (alloc (fst (alloc h (read h o))) (make_rl (read (fst (alloc h (read h o))) (nout h)))), mkObj (nout h) (nout (fst (alloc h (read h o)))) (Some o) (o_lm g) (o_rm g)).
Proof. intros E N. unfold hreset. rewrite E. destruct (outv h o) as [|p d] eqn:D; [congruence|]. reflexivity. Qed.
Lemma read_nil h o : read h o = [] <-> outv h o = [].
Proof. unfold read. destruct (outv h o); split; intros H; try reflexivity; discriminate. Qed.
Lemma reset_sim h g : owned h g -> denotes (hreset h g) = reset_lrgraph (denotes (h, g)) /\ owned (fst (hreset h g)) (snd (hreset h g)).
Proof.
  intros O. pose proof (ow_or _ _ O) as W. destruct (o_or g) as [o|] eqn:E.
  - destruct (outv h o) as [|p d] eqn:D.
    + unfold hreset. rewrite E, D. split; [|exact O]. unfold reset_lrgraph, denotes. cbn [fst snd origin]. rewrite E. cbn [option_map]. replace (read h o) with (@nil (str * dict str Z)) by (symmetry; apply read_nil, D). reflexivity.
    + assert (NE : outv h o <> []) by congruence. rewrite (hreset_some h g o E NE). destruct W as (B & _ & _ & _ & _ & K). try rewrite <- D in K.
      destruct (fresh_object h o (o_lm g) (o_rm g) make_rl B K (proj1 (make_rl_wf _))) as [F1 F2]. cbn [fst snd]. split; [|exact F1]. rewrite F2.
      unfold reset_lrgraph, denotes. cbn [fst snd origin l_max r_max]. rewrite E. cbn [option_map]. assert (NR : read h o <> []) by (intros X; apply NE, read_nil, X). destruct (read h o) as [|q r]; [congruence|]. reflexivity.
  - unfold hreset. rewrite E. split; [|exact O]. unfold reset_lrgraph, denotes. cbn [fst snd origin]. rewrite E. reflexivity.
Qed.
Lemma owned_freeze h g : owned h g -> owned h (mkObj (o_lr g) (o_rl g) None (o_lm g) (o_rm g)).
Proof. intros [A B C D E F G H I]. constructor; cbn [o_lr o_rl o_or]; try assumption. exact Logic.I. Qed.
Lemma step_sim h g o : owned h g -> denotes (hstep (h, g) o) = step (denotes (h, g)) o /\ owned (fst (hstep (h, g) o)) (snd (hstep (h, g) o)).
Proof.
  intros O. destruct o as [l r c|e c|l r c|e c| |]; cbn [hstep step fst snd].
  - destruct (add_pair_sim h g l r c O) as [P E]. rewrite E. split; [reflexivity|apply (prims_owned _ _ _ P O)].
  - unfold add_eojeol. destruct (add_splits_sim g e c (seq 1 (length e)) h O) as [P E]. rewrite E. split; [reflexivity|apply (prims_owned _ _ _ P O)].
  - destruct (remove_pair_sim h g l r c O) as [P E]. rewrite E. split; [reflexivity|apply (prims_owned _ _ _ P O)].
  - destruct (remove_eojeol_sim g e c h O) as [P E]. rewrite E. split; [reflexivity|apply (prims_owned _ _ _ P O)].
  - apply reset_sim, O.
  - split; [reflexivity|apply owned_freeze, O].
Qed.
Lemma run_sim ops h g : owned h g -> denotes (hrun (h, g) ops) = history (denotes (h, g)) ops /\ owned (fst (hrun (h, g) ops)) (snd (hrun (h, g) ops)).
Proof.
  revert h g. induction ops as [|o ops IH]; intros h g O; [split; [reflexivity|exact O]|]. destruct (step_sim h g o O) as [E O1]. unfold hrun, history. cbn [fold_left]. rewrite <- E. destruct (hstep (h, g) o) as [h1 g1]. apply IH, O1.
Qed.
(** a call is primitive writes, a reset or a freeze *)
Definition keeps (o : op) : bool := match o with OpReset | OpFreeze => false | _ => true end.
Lemma keeps_prims h g o : owned h g -> keeps o = true -> snd (hstep (h, g) o) = g /\ prims g h (fst (hstep (h, g) o)).
Proof.
  intros O. destruct o as [l r c|e c|l r c|e c| |]; cbn [keeps]; intros X; try discriminate; cbn [hstep fst snd]; split; try reflexivity.
  - apply (add_pair_sim h g l r c O). - apply add_splits_sim, O. - apply (remove_pair_sim h g l r c O). - apply remove_eojeol_sim, O.
Qed.
