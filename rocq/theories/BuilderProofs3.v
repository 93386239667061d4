(** * Proofs about EojeolPatternTrainer: train_hits *)
From Coq Require Import QArith Lqa.
From Verif Require Import PyBase PyDict PyText CountLemmas UtilsModel UtilsSpec UtilsProofs NounModel BuilderModel.
Open Scope Q_scope.

Lemma qfold_init l : forall a, fold_left Qplus l a == a + fold_left Qplus l 0.
Proof. induction l as [|x l IH]; intros a; cbn [fold_left]; [lra|]. rewrite IH, (IH (0 + x)). lra. Qed.
Lemma qfold_nonneg l : (forall x, In x l -> 0 <= x) -> 0 <= fold_left Qplus l 0.
Proof. induction l as [|x l IH]; intros H; cbn [fold_left]; [lra|]. rewrite qfold_init. pose proof (H x (or_introl eq_refl)). assert (0 <= fold_left Qplus l 0) by (apply IH; intros y I; apply H; right; exact I). lra. Qed.
Lemma qfold_pos l x : (forall y, In y l -> 0 <= y) -> In x l -> 0 < x -> 0 < fold_left Qplus l 0.
Proof.
  induction l as [|y l IH]; intros H I P; [destruct I|]. cbn [fold_left]. rewrite qfold_init. pose proof (H y (or_introl eq_refl)). assert (H' : forall z, In z l -> 0 <= z) by (intros z J; apply H; right; exact J).
  destruct I as [->|I]; [pose proof (qfold_nonneg l H'); lra|]. pose proof (IH H' I P). lra.
Qed.
Definition dedup_step (s : list Q) (x : Q) : list Q := if existsb (Qeq_bool x) s then s else s ++ [x].
Lemma dedup_sub l : forall s x, In x (fold_left dedup_step l s) -> In x s \/ In x l.
Proof.
  induction l as [|y l IH]; intros s x I; [left; exact I|]. cbn [fold_left] in I. apply IH in I as [I|I]; [|right; right; exact I]. unfold dedup_step in I. destruct (existsb (Qeq_bool y) s); [left; exact I|]. apply in_app_iff in I as [I|[<-|[]]]; [left; exact I|right; left; reflexivity].
Qed.
Lemma dedup_keep l : forall s x, In x s -> In x (fold_left dedup_step l s).
Proof. induction l as [|y l IH]; intros s x I; [exact I|]. cbn [fold_left]. apply IH. unfold dedup_step. destruct (existsb (Qeq_bool y) s); [exact I|apply in_or_app; left; exact I]. Qed.
Lemma dedup_all l : forall s x, In x l -> exists y, In y (fold_left dedup_step l s) /\ x == y.
Proof.
  induction l as [|z l IH]; intros s x I; [destruct I|]. destruct I as [->|I].
  - cbn [fold_left]. unfold dedup_step at 2. destruct (existsb (Qeq_bool x) s) eqn:E.
    + apply existsb_exists in E as (y & I & E). apply Qeq_bool_iff in E. exists y. split; [apply dedup_keep, I|exact E].
    + exists x. split; [apply dedup_keep, in_or_app; right; left; reflexivity|reflexivity].
  - cbn [fold_left]. apply IH, I.
Qed.
Lemma set_sum_nonneg l : (forall x, In x l -> 0 <= x) -> 0 <= set_sum l.
Proof. intros H. unfold set_sum. apply qfold_nonneg. intros x I. apply (dedup_sub l []) in I as [[]|I]. apply H, I. Qed.
Lemma set_sum_pos l x : (forall y, In y l -> 0 <= y) -> In x l -> 0 < x -> 0 < set_sum l.
Proof.
  intros H I P. destruct (dedup_all l [] x I) as (y & J & E). unfold set_sum. apply (qfold_pos _ y); [|exact J|rewrite <- E; exact P]. intros z K. apply (dedup_sub l []) in K as [[]|K]. apply H, K.
Qed.
Lemma mapM_succeeds {A B} (f : A -> res B) l : (forall x, In x l -> exists y, f x = Ok y) -> exists ys, mapM f l = Ok ys.
Proof.
  induction l as [|x l IH]; intros H; [eexists; reflexivity|]. destruct (H x (or_introl eq_refl)) as [y E]. destruct IH as [ys E']; [intros z I; apply H; right; exact I|]. exists (y :: ys). cbn [mapM]. rewrite E. cbn [bind]. rewrite E'. reflexivity.
Qed.
Lemma mapM_In {A B} (f : A -> res B) l ys : mapM f l = Ok ys -> (forall y, In y ys -> exists x, In x l /\ f x = Ok y) /\ (forall x, In x l -> exists y, In y ys /\ f x = Ok y).
Proof.
  revert ys. induction l as [|x l IH]; intros ys E; cbn [mapM] in E; [injection E as <-; split; intros ? []|]. destruct (f x) as [y|] eqn:F; [|discriminate]. cbn [bind] in E. destruct (mapM f l) as [zs|] eqn:M; [|discriminate]. cbn [bind] in E. injection E as <-. destruct (IH zs eq_refl) as [H1 H2]. split.
  - intros z [<-|I]; [exists x; split; [left; reflexivity|exact F]|]. destruct (H1 z I) as (w & J & K). exists w. split; [right; exact J|exact K].
  - intros z [<-|I]; [exists y; split; [left; reflexivity|exact F]|]. destruct (H2 z I) as (w & J & K). exists w. split; [right; exact J|exact K].
Qed.
(** one half of a round *)
Lemma half_round (G : graph) (rank : dict str Q) (skip : bool) sr df k0 row0 k1 n1 : (forall k row k' n, In (k, row) G -> In (k', n) row -> (0 < n)%Z /\ (skip = true -> k' <> [] -> exists q, dget rank k' = Some q) /\ (skip = false -> exists q, dget rank k' = Some q)) ->
  (forall k q, dget rank k = Some q -> 0 < q) -> In (k0, row0) G -> In (k1, n1) row0 -> (skip = true -> k1 <> []) ->
  exists g, (do ng <- mapM (fun kr => do q <- h_rank rank skip (snd kr); Ok (fst kr, q)) G; h_normalize ng sr df) = Ok g.
Proof.
  intros HG HR I0 I1 NE.
  assert (HK : forall k row, In (k, row) G -> exists ps, mapM (fun kn : str * Z => match dget rank (fst kn) with Some q => Ok (inject_Z (snd kn) * q) | None => Err KeyError end) (filter (fun kn => negb (skip && eqb (fst kn) [])) row) = Ok ps /\
    (forall x, In x ps -> 0 <= x) /\ ((exists k' n, In (k', n) row /\ (skip = true -> k' <> [])) -> exists x, In x ps /\ 0 < x)).
  { intros k row I. assert (OKs : forall kn, In kn (filter (fun kn : str * Z => negb (skip && eqb (fst kn) [])) row) -> exists q, (match dget rank (fst kn) with Some q => Ok (inject_Z (snd kn) * q) | None => Err KeyError end) = Ok q /\ 0 < q).
    { intros [k' n] J. apply filter_In in J as [J B]. cbn [fst] in B. destruct (HG k row k' n I J) as (P & S1 & S2). assert (exists q, dget rank k' = Some q) as [q D].
      { destruct skip; [|apply S2; reflexivity]. apply S1; [reflexivity|]. intros ->. rewrite eqb_refl in B. discriminate B. }
      cbn [fst snd]. rewrite D. exists (inject_Z n * q). split; [reflexivity|]. pose proof (HR _ _ D). apply Qmult_lt_0_compat; [|assumption]. rewrite (Zlt_Qlt 0 n) in P. exact P. }
    destruct (mapM_succeeds _ _ (fun kn J => match OKs kn J with ex_intro _ q (conj E _) => ex_intro _ q E end)) as [ps E]. exists ps. split; [exact E|]. destruct (mapM_In _ _ _ E) as [M1 M2]. split.
    - intros x J. destruct (M1 x J) as (kn & K & F). destruct (OKs kn K) as (q & F' & P). rewrite F in F'. injection F' as ->. lra.
    - intros (k' & n & J & N). destruct (M2 (k', n)) as (x & K & F).
      { apply filter_In. split; [exact J|]. cbn [fst]. destruct skip; [|reflexivity]. specialize (N eq_refl). apply negb_true_iff. cbn [andb]. apply eqb_neq, N. }
      exists x. split; [exact K|]. destruct (OKs (k', n)) as (q & F' & P); [apply filter_In; split; [exact J|]; cbn [fst]; destruct skip; [|reflexivity]; specialize (N eq_refl); apply negb_true_iff; cbn [andb]; apply eqb_neq, N|]. rewrite F in F'. injection F' as ->. exact P. }
  assert (HQ : forall kr, In kr G -> exists q, h_rank rank skip (snd kr) = Ok q /\ 0 <= q /\ ((exists k' n, In (k', n) (snd kr) /\ (skip = true -> k' <> [])) -> 0 < q)).
  { intros [k row] I. destruct (HK k row I) as (ps & E & N & P). exists (set_sum ps). unfold h_rank. cbn [snd]. rewrite E. cbn [bind]. split; [reflexivity|]. split; [apply set_sum_nonneg, N|]. intros X. destruct (P X) as (x & J & L). apply (set_sum_pos ps x N J L). }
  destruct (mapM_succeeds (fun kr : str * dict str Z => do q <- h_rank rank skip (snd kr); Ok (fst kr, q)) G) as [ng E].
  { intros kr I. destruct (HQ kr I) as (q & E & _). rewrite E. eexists. reflexivity. }
  rewrite E. cbn [bind]. destruct (mapM_In _ _ _ E) as [M1 M2]. unfold h_normalize.
  assert (PS : 0 < fold_left Qplus (map snd ng) 0).
  { destruct (M2 (k0, row0) I0) as (y & J & F). destruct (HQ (k0, row0) I0) as (q & EQ & _ & P). rewrite EQ in F. cbn [bind] in F. injection F as <-. apply (qfold_pos _ q); [|apply in_map_iff; exists (fst (k0, row0), q); split; [reflexivity|exact J]|apply P; cbn [snd]; eauto].
    intros z K. apply in_map_iff in K as ([k q'] & <- & K). cbn [snd]. destruct (M1 _ K) as (kr & KI & KF). destruct (HQ kr KI) as (q2 & E2 & N2 & _). rewrite E2 in KF. cbn [bind] in KF. injection KF as _ <-. exact N2. }
  destruct (Qeq_bool _ 0) eqn:Z0; [apply Qeq_bool_iff in Z0; lra|]. destruct ng; [cbn in PS; lra|]. eexists. reflexivity.
Qed.
