(** * Proofs about LRNounExtractor (version 1): bounds, cohesion, removal, extraction *)
From Coq Require Import QArith Reals Permutation Lia Lra Sorted.
From Verif Require Import PyBase PyDict PySort SortLemmas CountLemmas QLemmas PyText PyFile UtilsModel UtilsSpec UtilsProofs UtilsProofs2 UtilsProofs3 UtilsProofs6 NounModel NounSpec NounProofs NounProofs2 NounProofs3 VectorizerSpec VectorizerProofs3 NounV1Model NounV1Spec JosaProofs NounV1Proofs NounV1Proofs2 NounV1Proofs3.
Open Scope Z_scope.

(** ** cohesion in whole numbers *)
Lemma pow_le_iff (x y : R) n : (0 < n)%nat -> (0 <= x)%R -> (0 <= y)%R -> ((x <= y)%R <-> (x ^ n <= y ^ n)%R).
Proof.
  intros N X Y. split; [intros H; apply pow_incr; split; assumption|]. intros H. destruct (Rle_lt_dec x y) as [L|L]; [exact L|]. exfalso.
  assert (K : (y ^ n < x ^ n)%R). { destruct (Rle_lt_or_eq_dec 0 y Y) as [P|E]; [|subst y; rewrite pow_i by exact N; apply pow_lt; exact L].
    rewrite <- !Rpower_pow by lra. apply Rlt_Rpower_l; [apply lt_0_INR; exact N|split; assumption]. }
  lra.
Qed.
Lemma root_pow x a b : (0 < a)%nat -> (0 < x)%R -> (Rpower x (1 / INR a) ^ (a * b) = x ^ b)%R.
Proof.
  intros A X. rewrite <- Rpower_pow by (apply exp_pos). rewrite Rpower_mult, mult_INR. replace (1 / INR a * (INR a * INR b))%R with (INR b) by (field; apply not_0_INR; lia).
  apply Rpower_pow. exact X.
Qed.
Lemma roots_le x y a b : (0 < a)%nat -> (0 < b)%nat -> (0 < x)%R -> (0 < y)%R -> ((Rpower x (1 / INR a) <= Rpower y (1 / INR b))%R <-> (x ^ b <= y ^ a)%R).
Proof.
  intros A B X Y. rewrite (pow_le_iff (Rpower x (1 / INR a)) (Rpower y (1 / INR b)) (a * b)); [|nia|apply Rlt_le, exp_pos|apply Rlt_le, exp_pos].
  rewrite root_pow by assumption. rewrite (Nat.mul_comm a b), root_pow by assumption. reflexivity.
Qed.
Lemma firstn1_removelast (w : str) : (2 <= length w)%nat -> firstn 1 (removelast w) = firstn 1 w.
Proof. destruct w as [|x [|y w]]; cbn [length]; [lia|lia|]. intros _. reflexivity. Qed.
Lemma removelast_length (w : str) : length (removelast w) = (length w - 1)%nat.
Proof. induction w as [|x [|y w] IH]; [reflexivity|reflexivity|]. change (removelast (x :: y :: w)) with (x :: removelast (y :: w)). cbn [length] in *. rewrite IH. lia. Qed.
Lemma IZR_pow z n : IZR (z ^ Z.of_nat n) = (IZR z ^ n)%R.
Proof. symmetry. apply pow_IZR. Qed.
Lemma longer_cohesion_spec sub (w : str) : (3 <= length w)%nat -> (forall x n, dget sub x = Some n -> 0 < n) ->
  longer_cohesion sub w = true <-> holds_together (fun x => dgetd sub x 0) w.
Proof.
  intros L P. unfold longer_cohesion, holds_together.
  assert (NN : forall x, 0 <= dgetd sub x 0). { intros x. unfold dgetd. destruct (dget sub x) eqn:E; [apply P in E; lia|lia]. }
  unfold v1_cohesion. rewrite firstn1_removelast, removelast_length by lia.
  set (b := dgetd sub (firstn 1 w) 0). set (cw := dgetd sub w 0). set (cm := dgetd sub (removelast w) 0).
  replace (length w <=? 1)%nat with false by (symmetry; apply Nat.leb_gt; lia). replace (length w - 1 <=? 1)%nat with false by (symmetry; apply Nat.leb_gt; lia). rewrite !orb_false_r.
  pose proof (NN (firstn 1 w)) as B. pose proof (NN w) as CW. pose proof (NN (removelast w)) as CM. fold b in B. fold cw in CW. fold cm in CM.
  destruct (Z.eqb_spec b 0) as [E|NE].
  - destruct (Rle_dec 0 0) as [_|N]; [|lra]. split; auto.
  - assert (B0 : (0 < IZR b)%R) by (apply IZR_lt; lia).
    replace (length w - 1 - 1)%nat with (length w - 2)%nat by lia. set (n1 := (length w - 1)%nat). set (n2 := (length w - 2)%nat). assert (N12 : (0 < n2)%nat /\ n1 = S n2) by (unfold n1, n2; lia). destruct N12 as [N2 N1]. clearbody n1 n2.
    assert (KEY : forall a c : Z, 0 < c -> 0 < a -> ((IZR c / IZR b) ^ n1 <= (IZR a / IZR b) ^ n2)%R <-> c ^ Z.of_nat n1 <= a ^ Z.of_nat n2 * b).
    { intros a c C A. unfold Rdiv. rewrite !Rpow_mult_distr. rewrite <- !Rinv_pow by lra. replace (IZR b ^ n1)%R with (IZR b * IZR b ^ n2)%R by (rewrite N1; reflexivity). pose proof (pow_lt (IZR b) n2 B0) as PB.
      split.
      - intros H. apply (Rmult_le_compat_r (IZR b * IZR b ^ n2)) in H; [|nra]. replace (IZR c ^ n1 * / (IZR b * IZR b ^ n2) * (IZR b * IZR b ^ n2))%R with (IZR c ^ n1)%R in H by (field; split; lra).
        replace (IZR a ^ n2 * / IZR b ^ n2 * (IZR b * IZR b ^ n2))%R with (IZR a ^ n2 * IZR b)%R in H by (field; lra). apply le_IZR. rewrite mult_IZR, !IZR_pow. exact H.
      - intros H. apply IZR_le in H. rewrite mult_IZR, !IZR_pow in H. apply (Rmult_le_reg_r (IZR b * IZR b ^ n2)); [nra|].
        replace (IZR c ^ n1 * / (IZR b * IZR b ^ n2) * (IZR b * IZR b ^ n2))%R with (IZR c ^ n1)%R by (field; split; lra).
        replace (IZR a ^ n2 * / IZR b ^ n2 * (IZR b * IZR b ^ n2))%R with (IZR a ^ n2 * IZR b)%R by (field; lra). exact H. }
    assert (Z0 : forall z, 0 <= z -> (IZR z / IZR b = 0)%R <-> z = 0). { intros z Hz. split; [|intros ->; unfold Rdiv; ring]. intros H. apply (f_equal (fun x => (x * IZR b)%R)) in H. replace (IZR z / IZR b * IZR b)%R with (IZR z) in H by (field; lra). rewrite Rmult_0_l in H. apply eq_IZR. exact H. }
    assert (POS : forall z, 0 < z -> (0 < IZR z / IZR b)%R) by (intros z Hz; apply Rdiv_lt_0_compat; [apply IZR_lt; exact Hz|exact B0]).
    destruct (Req_EM_T (IZR cm / IZR b) 0) as [E1|E1]; [apply Z0 in E1; [|exact CM]|]; (destruct (Req_EM_T (IZR cw / IZR b) 0) as [E2|E2]; [apply Z0 in E2; [|exact CW]|]).
    + destruct (Rle_dec 0 0); [|lra]. split; [intros _; right|auto]. rewrite E1, E2, !Z.pow_0_l by lia. lia.
    + match goal with |- context [Rle_dec 0 ?x] => destruct (Rle_dec 0 x) as [_|N]; [|exfalso; apply N, Rlt_le, exp_pos] end. split; [intros _; right|auto]. rewrite E1, Z.pow_0_l by lia. apply Z.mul_nonneg_nonneg; [apply Z.pow_nonneg; exact CW|exact B].
    + match goal with |- context [Rle_dec ?x 0] => destruct (Rle_dec x 0) as [N|_] end.
      * exfalso. match type of N with (Rpower ?a ?e <= 0)%R => pose proof (exp_pos (e * ln a)) as PP end. unfold Rpower in N. lra.
      * split; [discriminate|]. intros [H|H]; [congruence|]. exfalso. rewrite E2, Z.pow_0_l, Z.mul_0_l in H by lia. assert (0 < cm) by (destruct (Z.eq_dec cm 0) as [X|X]; [exfalso; apply E1, Z0; assumption|lia]). pose proof (Z.pow_pos_nonneg cm (Z.of_nat n1)). lia.
    + assert (C1 : 0 < cm) by (destruct (Z.eq_dec cm 0) as [X|X]; [exfalso; apply E1, Z0; assumption|lia]). assert (C2 : 0 < cw) by (destruct (Z.eq_dec cw 0) as [X|X]; [exfalso; apply E2, Z0; assumption|lia]).
      assert (N0 : (0 < n1)%nat) by lia. pose proof (roots_le (IZR cm / IZR b) (IZR cw / IZR b) n2 n1 N2 N0 (POS _ C1) (POS _ C2)) as RL. rewrite (KEY cw cm C1 C2) in RL.
      destruct (Rle_dec (Rpower (IZR cm / IZR b) (1 / INR n2)) (Rpower (IZR cw / IZR b) (1 / INR n1))) as [H|H]; split; try discriminate; try reflexivity.
      * intros _. right. apply RL, H.
      * intros [K|K]; [congruence|]. exfalso. apply H, RL, K.
Qed.

(** ** removal *)
Lemma last_char (w : str) (x : N) : x <> 0%N -> last w 0%N = x <-> exists a, w = a ++ [x].
Proof.
  intros NX. split.
  - intros H. destruct w as [|y w]; [cbn in H; congruence|]. exists (removelast (y :: w)). rewrite <- H. apply app_removelast_last. discriminate.
  - intros (a & ->). apply last_last.
Qed.
Lemma v1_removed_spec c sub ms (nouns : dict str (Q * Q)) w : (forall x n, dget sub x = Some n -> 0 < n) ->
  v1_removed c sub ms nouns w = true <-> v1_removal (v_coef c) (fun x => dgetd sub x 0) ms (fun x => dget nouns x <> None) w.
Proof.
  intros P. unfold v1_removed, v1_removal. destruct (N.eqb (last w 0%N) 46 || N.eqb (last w 0%N) 44) eqn:LC.
  - split; [intros _; left|reflexivity]. apply orb_true_iff in LC as [LC|LC]; apply N.eqb_eq in LC; apply last_char in LC; try discriminate; destruct LC as (a & E); exists a; [left|right]; exact E.
  - assert (NLC : ~ exists a, w = a ++ u "." \/ w = a ++ u ",").
    { intros (a & [E|E]); apply orb_false_iff in LC as [A B]; [apply N.eqb_neq in A; apply A|apply N.eqb_neq in B; apply B]; apply last_char; try discriminate; exists a; exact E. }
    destruct (Nat.leb_spec (length w) 2) as [L|L]; cbn [orb]; [split; [discriminate|intros [H|(H & _)]; [contradiction|lia]]|].
    pose proof (longer_cohesion_spec sub w ltac:(lia) P) as LC2. destruct (longer_cohesion sub w).
    + split; [discriminate|]. intros [H|(_ & H & _)]; [contradiction|]. exfalso. apply H, LC2. reflexivity.
    + rewrite existsb_exists. split.
      * intros (e & I & H). apply in_seq in I. apply andb_true_iff in H as [H1 H2]. right. split; [lia|]. split; [intros X; apply LC2 in X; discriminate|]. exists (firstn e w), (skipn e w). split; [symmetry; apply firstn_skipn|].
        split; [rewrite firstn_length; lia|]. split; [apply skipn_nonempty; lia|]. split; [apply dget_keys, dmem_keys, H1|]. apply negb_true_iff in H2. apply Qnot_le_lt. intros X. apply Qle_bool_iff in X. congruence.
      * intros [H|(_ & _ & l & r & -> & Ll & NR & D & Q)]; [contradiction|]. pose proof (nonempty_length r NR). exists (length l). rewrite firstn_pre, skipn_pre. split; [apply in_seq; rewrite app_length; lia|].
        apply andb_true_iff. split; [apply dmem_keys, dget_keys, D|]. apply negb_true_iff. destruct (Qle_bool _ ms) eqn:E; [|reflexivity]. apply Qle_bool_iff in E. exfalso. apply (Qlt_not_le _ _ Q E).
Qed.

(** ** the loop over the candidates *)
Lemma score_loop (f : str -> Q * Q) ms ws : forall d, NoDup (dkeys d) ->
  let d' := fold_left (fun (d : dict str (Q * Q)) word => if (length word <=? 1)%nat then d else if Qle_bool ms (fst (f word)) then dset d word (f word) else d) ws d in
  NoDup (dkeys d') /\ forall w v, (forall x y, dget d x = Some y -> y = f x) -> (dget d' w = Some v <-> (In w ws /\ (2 <= length w)%nat /\ (ms <= fst (f w))%Q \/ dget d w <> None) /\ v = f w).
Proof.
  induction ws as [|x ws IH]; intros d N; cbv zeta; cbn [fold_left].
  - split; [exact N|]. intros w v H. split.
    + intros D. split; [right; congruence|apply H, D].
    + intros [[[[] _]|D] ->]. destruct (dget d w) eqn:E; [rewrite (H _ _ E); reflexivity|congruence].
  - destruct (Nat.leb_spec (length x) 1) as [L|L]; [|destruct (Qle_bool ms (fst (f x))) eqn:Q].
    + destruct (IH d N) as [N' G]. split; [exact N'|]. intros w v H. rewrite (G w v H). split; (intros [[A|A] E]; split; [|exact E| |exact E]).
      * left. destruct A as (A & B). split; [right; exact A|exact B].
      * right. exact A.
      * destruct A as ([<-|A] & B & C); [lia|]. left. auto.
      * right. exact A.
    + destruct (IH (dset d x (f x)) (dwf_dset _ _ _ N)) as [N' G]. split; [exact N'|]. intros w v H. rewrite G.
      2:{ intros a b. rewrite dget_dset. destruct (eqb_spec x a) as [->|_]; [intros E; injection E as <-; reflexivity|apply H]. }
      rewrite dget_dset. apply Qle_bool_iff in Q. split; (intros [[A|A] E]; split; [|exact E| |exact E]).
      * left. destruct A as (A & B). split; [right; exact A|exact B].
      * destruct (eqb_spec x w) as [->|_]; [left; split; [left; reflexivity|]; split; [lia|exact Q]|right; exact A].
      * destruct A as ([<-|A] & B & C); [right; rewrite eqb_refl; discriminate|left; auto].
      * destruct (eqb_spec x w) as [->|_]; right; [discriminate|exact A].
    + destruct (IH d N) as [N' G]. split; [exact N'|]. intros w v H. rewrite (G w v H). split; (intros [[A|A] E]; split; [|exact E| |exact E]).
      * left. destruct A as (A & B). split; [right; exact A|exact B].
      * right. exact A.
      * destruct A as ([<-|A] & B & C); [exfalso; apply Qle_bool_iff in C; congruence|]. left. auto.
      * right. exact A.
Qed.
Lemma sorted_before {A} (R : A -> A -> Prop) a x b : StronglySorted R (a ++ x :: b) -> forall y, In y a -> R y x.
Proof.
  induction a as [|z a IH]; intros S y I; [destruct I|]. cbn [app] in S. inversion S as [|? ? S' F]; subst. destruct I as [<-|I].
  - rewrite Forall_forall in F. apply F. apply in_app_iff. right. left. reflexivity.
  - apply IH; assumption.
Qed.
Lemma sorted_after {A} (R : A -> A -> Prop) a x b : StronglySorted R (a ++ x :: b) -> forall y, In y b -> R x y.
Proof.
  induction a as [|z a IH]; intros S y I; cbn [app] in S; inversion S as [|? ? S' F]; subst; [rewrite Forall_forall in F; apply F, I|apply IH; assumption].
Qed.
Lemma fold_right_Zsum (rows : list (str * Z)) : fold_right Z.add 0 (map snd rows) = Zsum snd rows.
Proof. induction rows as [|x l IH]; [reflexivity|]. cbn [map fold_right Zsum]. rewrite IH. reflexivity. Qed.

Lemma freq_spec c pre sents mf st (nouns : dict str (Q * Q)) : v1_train c pre sents mf = Ok st -> NoDup (dkeys nouns) ->
  let p := v1_frequencies (v_graph st) nouns in reset_lrgraph (fst p) = v_graph st /\
  forall w, In w (dkeys nouns) -> exists n, dget (snd p) w = Some n /\ v1_frequency (v_lm c) (v_rm c) mf pre sents (fun x => In x (dkeys nouns)) w n.
Proof.
  intros H N p. pose proof (train_spec c pre sents mf st H) as (_ & _ & _ & (d & GD & ND) & W & HW & U). cbv zeta in HW.
  assert (HP : forall l r n, (W l r = true /\ (if 0 <? occurrences (l ++ r) (map pre sents) then Some (occurrences (l ++ r) (map pre sents)) else None) = Some n) <-> graph_pair (v_lm c) (v_rm c) mf pre sents l r n).
  { intros l r n. rewrite HW, occ_some. reflexivity. }
  assert (NS : NoDup ([] ++ sort_len (dkeys nouns))) by (cbn [app]; eapply Permutation_NoDup; [apply Permutation_sym, sort_perm|exact N]).
  destruct (freq_loop W _ (sort_len (dkeys nouns)) [] (v_graph st) [] NS U ltac:(intros ? ? E; discriminate E)) as (O & I & _ & Q). fold (v1_frequencies (v_graph st) nouns) in O, I, Q. fold p in O, I, Q.
  split.
  - unfold p, v1_frequencies. clear -GD ND.
    assert (X : forall ws g f, exists ops, Forall (fun o => o <> OpFreeze) ops /\ fst (fold_left freq_step ws (g, f)) = history g ops).
    { induction ws as [|w ws IH]; intros g f; [exists []; split; [constructor|reflexivity]|]. cbn [fold_left].
      destruct (IH (fst (freq_step (g, f) w)) (snd (freq_step (g, f) w))) as (ops & F & E). exists (map (fun rc => OpRemoveEojeol (w ++ fst rc) (snd rc)) (get_r g w (-1)) ++ ops). split.
      - apply Forall_app. split; [|exact F]. apply Forall_forall. intros o I. apply in_map_iff in I as (rc & <- & _). discriminate.
      - rewrite <- surjective_pairing in E. rewrite E. unfold history. rewrite fold_left_app. f_equal. cbn [freq_step fst snd]. generalize (get_r g w (-1)) as rows. intros rows. clear. revert g. induction rows as [|rc rows IH]; intros g; [reflexivity|]. cbn [map fold_left]. apply IH. }
    destruct (X (sort_len (dkeys nouns)) (v_graph st) []) as (ops & F & EQ). eapply eq_trans; [apply f_equal; exact EQ|]. eapply reset_history; eassumption.
  - intros w IW. assert (IS : In w (sort_len (dkeys nouns))) by (apply sort_In, IW). apply in_split in IS as (a & b & E). destruct (Q a w b E) as (rows & R1 & R2 & R3). exists (Zsum snd rows). split; [exact R3|].
    exists rows. split; [exact R1|]. split; [|symmetry; apply fold_right_Zsum]. intros r k. rewrite R2. cbn [app].
    pose proof (sort_len_sorted (dkeys nouns)) as SS. rewrite E in SS.
    assert (TK : takenW W a (w ++ r) = true <-> exists w' r', In w' a /\ w' ++ r' = w ++ r /\ W w' r' = true).
    { unfold takenW. rewrite existsb_exists. split.
      - intros (w' & I1 & B). apply beginsW_spec in B as (r' & E' & X). exists w', r'. auto.
      - intros (w' & r' & I1 & E' & X). exists w'. split; [exact I1|]. apply beginsW_spec. exists r'. auto. }
    assert (LONG : forall w' r', w' ++ r' = w ++ r -> (In w' a <-> In w' (dkeys nouns) /\ (length w < length w')%nat)).
    { intros w' r' EQ. split.
      - intros Ia. split; [apply (sort_In longer_first); fold (sort_len (dkeys nouns)); rewrite E; apply in_app_iff; left; exact Ia|].
        pose proof (sorted_before longer a w b SS w' Ia) as LE. unfold longer in LE. destruct (Nat.eq_dec (length w) (length w')) as [EL|NL]; [|lia]. exfalso.
        assert (w' = w). { apply (f_equal (firstn (length w))) in EQ. rewrite firstn_pre in EQ. rewrite EL, firstn_pre in EQ. exact EQ. } subst w'.
        cbn [app] in NS. rewrite E in NS. apply NoDup_remove_2 in NS. apply NS, in_app_iff. left. exact Ia.
      - intros [I1 L]. apply (proj2 (sort_In longer_first w' (dkeys nouns))) in I1. fold (sort_len (dkeys nouns)) in I1. rewrite E in I1. apply in_app_iff in I1 as [I1|[<-|I1]]; [exact I1|lia|].
        pose proof (sorted_after longer a w b SS w' I1) as LE. unfold longer in LE. lia. }
    split.
    + intros (A & B & T). split; [apply HP; split; assumption|]. intros (w' & r' & k' & I1 & L1 & EQ & G). apply HP in G as [G1 G2]. apply not_true_iff_false in T. apply T, TK. exists w', r'. split; [apply (LONG w' r' EQ); auto|]. split; assumption.
    + intros (G & NT). pose proof G as G0. apply HP in G as [A B]. split; [exact A|]. split; [exact B|]. apply not_true_iff_false. intros T. apply TK in T as (w' & r' & Ia & EQ & X). apply NT.
      apply (LONG w' r' EQ) in Ia as [I1 L1]. exists w', r', k. split; [exact I1|]. split; [exact L1|]. split; [exact EQ|]. apply HP. split; [exact X|]. rewrite EQ. exact B.
Qed.
