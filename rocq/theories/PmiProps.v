(** * Property C62: pmi *)
From Coq Require Import Reals Lra Permutation.
From Verif Require Import PyBase PyDict CountLemmas VectorizerModel WordModel PmiModel.
Open Scope R_scope.

Lemma Rsum_cons x l : Rsum (x :: l) = x + Rsum l. Proof. reflexivity. Qed.
Lemma Rsum_nonneg {A} (f : A -> R) l : (forall x, In x l -> 0 <= f x) -> 0 <= Rsum (map f l).
Proof.
  induction l as [|x l IH]; intros H; [apply Rle_refl|]. cbn [map]. rewrite Rsum_cons. pose proof (H x (or_introl eq_refl)). assert (0 <= Rsum (map f l)) by (apply IH; intros; apply H; right; assumption). lra.
Qed.
Lemma Rsum_pos {A} (f : A -> R) l x : (forall x, In x l -> 0 <= f x) -> In x l -> 0 < f x -> 0 < Rsum (map f l).
Proof.
  induction l as [|y l IH]; intros H I P; [destruct I|]. cbn [map]. rewrite Rsum_cons. pose proof (H y (or_introl eq_refl)).
  destruct I as [->|I]; [assert (0 <= Rsum (map f l)) by (apply Rsum_nonneg; intros; apply H; right; assumption); lra|].
  assert (0 < Rsum (map f l)) by (apply IH; [intros; apply H; right; assumption|exact I|exact P]). lra.
Qed.
Lemma Rsum_scale {A} (f : A -> R) k l : Rsum (map (fun x => f x / k) l) = Rsum (map f l) / k.
Proof. induction l as [|x l IH]; cbn [map]; [unfold Rsum; cbn; lra|]. rewrite !Rsum_cons, IH. lra. Qed.
Lemma Rsum_zero {A} (f : A -> R) l : (forall x, In x l -> f x = 0) -> Rsum (map f l) = 0.
Proof. induction l as [|x l IH]; intros H; [reflexivity|]. cbn [map]. rewrite Rsum_cons, (H x (or_introl eq_refl)), IH; [lra|]. intros; apply H; right; assumption. Qed.
Lemma Rsum_one (x : R) i l : NoDup l -> In i l -> Rsum (map (fun k => if (i =? k)%Z then x else 0) l) = x.
Proof.
  induction l as [|k l IH]; intros N I; [destruct I|]. inversion N as [|? ? NI N']; subst. cbn [map]. rewrite Rsum_cons. destruct (Z.eqb_spec i k) as [->|D].
  - rewrite Rsum_zero; [lra|]. intros k' I'. destruct (Z.eqb_spec k k') as [->|]; [contradiction|reflexivity].
  - destruct I as [->|I]; [congruence|]. rewrite IH by assumption. lra.
Qed.
Lemma Rsum_group (key : Z * Z * R -> Z) ts l : NoDup l -> Forall (fun t => In (key t) l) ts ->
  Rsum (map (fun k => Rsum (map snd (filter (fun t => (key t =? k)%Z) ts))) l) = Rsum (map snd ts).
Proof.
  intros N F. induction F as [|t ts I F IH]; [apply Rsum_zero; reflexivity|]. cbn [map]. rewrite Rsum_cons, <- IH. rewrite <- (Rsum_one (snd t) (key t) l N I) at 1.
  clear IH N I F. induction l as [|k l IH]; cbn [map]; [unfold Rsum; cbn; lra|]. rewrite !Rsum_cons, IH. cbn [filter]. destruct (key t =? k)%Z; cbn [map]; rewrite ?Rsum_cons; lra.
Qed.
Lemma zrange_NoDup n : NoDup (zrange n).
Proof. apply FinFun.Injective_map_NoDup; [intros x y E; lia|apply seq_NoDup]. Qed.
Lemma zrange_In n i : In i (zrange n) <-> (0 <= i < n)%Z.
Proof. unfold zrange. rewrite in_map_iff. split; [intros (k & <- & I); apply in_seq in I; lia|]. intros H. exists (Z.to_nat i). split; [lia|]. apply in_seq. lia. Qed.
Lemma nthR_zrange (f : Z -> R) n i : (0 <= i < n)%Z -> nthR (map f (zrange n)) i = f i.
Proof.
  intros H. unfold nthR, zrange. rewrite map_map. rewrite (nth_indep _ 0 (f (Z.of_nat 0))) by (rewrite map_length, seq_length; lia).
  rewrite (map_nth (fun x => f (Z.of_nat x)) (seq 0 (Z.to_nat n)) 0%nat), seq_nth by lia. rewrite Nat.add_0_l, Z2Nat.id by lia. reflexivity.
Qed.
Lemma nthR_diag alpha p i : nthR (diag alpha p) i = if Req_EM_T (nthR p i) 0 then 0 else 1 / (nthR p i + alpha).
Proof.
  unfold nthR, diag. destruct (le_lt_dec (length p) (Z.to_nat i)) as [L|L].
  - rewrite !nth_overflow; [|exact L|rewrite map_length; exact L]. destruct (Req_EM_T 0 0); [reflexivity|congruence].
  - rewrite (nth_indep _ 0 ((fun v => if Req_EM_T v 0 then 0 else 1 / (v + alpha)) 0)) by (rewrite map_length; exact L). apply (map_nth (fun v => if Req_EM_T v 0 then 0 else 1 / (v + alpha))).
Qed.

(** ** specification: positive stored values, at least one *)
Definition counts (X : matrix R) : Prop := canonical X /\ triplets X <> [] /\ Forall (fun t => 0 < snd t) (triplets X).
(** the ratio whose logarithm is the PMI, for marginal probabilities [p] of rows and [q] of columns *)
Definition ratio (X : matrix R) (p q : R) (alpha x : R) : R := (x / total X) / (p * (q + alpha)).

Lemma total_pos X : counts X -> 0 < total X.
Proof.
  intros (_ & NE & P). unfold total. destruct (triplets X) as [|t ts] eqn:E; [congruence|]. rewrite <- E in *. apply (Rsum_pos snd _ t); rewrite ?E in *.
  - intros x I. eapply Forall_forall in P; [|exact I]. lra.
  - left. reflexivity.
  - inversion P; assumption.
Qed.
Lemma row_pos X i j x : counts X -> In (i, j, x) (triplets X) -> 0 < row_sum X i.
Proof.
  intros (_ & NE & P) I. unfold row_sum. assert (In (i, j, x) (filter (fun t : Z * Z * R => (fst (fst t) =? i)%Z) (triplets X))) as J by (apply filter_In; cbn; rewrite Z.eqb_refl; auto).
  apply (Rsum_pos snd _ (i, j, x)); [|exact J|].
  - intros y Iy. apply filter_In in Iy as [Iy _]. eapply Forall_forall in P; [|exact Iy]. lra.
  - eapply Forall_forall in P; [|exact I]. exact P.
Qed.
Lemma col_pos X i j x : counts X -> In (i, j, x) (triplets X) -> 0 < col_sum X j.
Proof.
  intros (_ & NE & P) I. unfold col_sum. assert (In (i, j, x) (filter (fun t : Z * Z * R => (snd (fst t) =? j)%Z) (triplets X))) as J by (apply filter_In; cbn; rewrite Z.eqb_refl; auto).
  apply (Rsum_pos snd _ (i, j, x)); [|exact J|].
  - intros y Iy. apply filter_In in Iy as [Iy _]. eapply Forall_forall in P; [|exact Iy]. lra.
  - eapply Forall_forall in P; [|exact I]. exact P.
Qed.
Lemma exp_In X alpha py i j e : counts X -> 0 <= alpha -> (forall k, 0 <= nthR py k) ->
  (In (i, j, e) (exp_pmi X (diag 0 (px_of X)) (diag alpha py)) <->
   exists x, In (i, j, x) (triplets X) /\ 0 < nthR py j /\ e = ratio X (nthR (px_of X) i) (nthR py j) alpha x).
Proof.
  intros C A PY. unfold exp_pmi. rewrite in_concat. setoid_rewrite in_map_iff.
  assert (forall i j x, In (i, j, x) (triplets X) -> 0 < nthR (px_of X) i) as PX.
  { intros i' j' x I. destruct C as (((_ & F) & ?) & ?) || destruct C as ((N & F) & NE & P). pose proof F as F0. eapply Forall_forall in F0 as [R1 R2]; [|exact I]. cbn in R1, R2.
    unfold px_of. rewrite nthR_zrange by exact R1. assert (counts X) as C by (split; [split; assumption|split; assumption]).
    apply Rdiv_lt_0_compat; [eapply row_pos; eauto|apply total_pos, C]. }
  assert (forall i j x, In (i, j, x) (triplets X) -> 0 < nthR py j -> nthR (diag 0 (px_of X)) i * (x / total X) * nthR (diag alpha py) j = ratio X (nthR (px_of X) i) (nthR py j) alpha x
     /\ nthR (diag 0 (px_of X)) i <> 0 /\ nthR (diag alpha py) j <> 0) as V.
  { intros i' j' x I Pj. rewrite !nthR_diag. pose proof (PX _ _ _ I) as Pi. destruct (Req_EM_T (nthR (px_of X) i') 0); [lra|]. destruct (Req_EM_T (nthR py j') 0); [lra|].
    split; [|split]. - unfold ratio. pose proof (total_pos X C). field. repeat split; lra.
    - rewrite Rplus_0_r. apply Rgt_not_eq, Rdiv_lt_0_compat; lra.
    - apply Rgt_not_eq, Rdiv_lt_0_compat; lra. }
  split.
  - intros (l & ([[i' j'] x] & <- & I) & J). destruct (Req_EM_T (nthR (diag 0 (px_of X)) i') 0); [destruct J|]. destruct (Req_EM_T (nthR (diag alpha py) j') 0) as [|NZ]; [destruct J|].
    destruct J as [J|[]]. injection J as <- <- <-. assert (0 < nthR py j') as Pj.
    { rewrite nthR_diag in NZ. destruct (Req_EM_T (nthR py j') 0) as [|NZ']; [congruence|]. specialize (PY j'). lra. }
    exists x. split; [exact I|]. split; [exact Pj|]. apply (V _ _ _ I Pj).
  - intros (x & I & Pj & ->). destruct (V _ _ _ I Pj) as (E & NZ1 & NZ2). eexists. split; [exists (i, j, x); split; [reflexivity|exact I]|].
    destruct (Req_EM_T (nthR (diag 0 (px_of X)) i) 0); [congruence|]. destruct (Req_EM_T (nthR (diag alpha py) j) 0); [congruence|]. left. rewrite E. reflexivity.
Qed.
Lemma Rsum_nth_nonneg l : (forall k, 0 <= nthR l k) -> forall x, In x l -> 0 <= x.
Proof. intros H x I. apply (In_nth _ _ 0) in I as (n & _ & E). specialize (H (Z.of_nat n)). unfold nthR in H. rewrite Nat2Z.id, E in H. exact H. Qed.
Lemma smooth_nonneg beta py : (forall k, 0 <= nthR py k) -> forall k, 0 <= nthR (smooth beta py) k.
Proof.
  intros H. unfold smooth. destruct (Rlt_dec beta 1); [|exact H]. cbv zeta. set (q := map (pow_beta beta) py).
  assert (forall x, In x q -> 0 <= x) as Q. { intros x I. apply in_map_iff in I as (v & <- & _). unfold pow_beta. destruct (Req_EM_T v 0); [lra|]. apply Rlt_le, exp_pos. }
  assert (0 <= Rsum q) as S. { rewrite <- (map_id q). apply (Rsum_nonneg (fun x => x)). exact Q. }
  intros k. unfold nthR. destruct (le_lt_dec (length q) (Z.to_nat k)) as [L|L].
  - rewrite nth_overflow; [lra|]. rewrite map_length. exact L.
  - rewrite (nth_indep _ 0 ((fun v => v / Rsum q) 0)) by (rewrite map_length; exact L). rewrite (map_nth (fun v => v / Rsum q)).
    destruct (Rle_lt_or_eq_dec _ _ S) as [S'|S'].
    + apply Rmult_le_pos; [apply Q, nth_In, L|apply Rlt_le, Rinv_0_lt_compat, S'].
    + rewrite <- S'. unfold Rdiv. rewrite Rinv_0. lra.
Qed.
Lemma py_nonneg X : counts X -> forall k, 0 <= nthR (py_of X) k.
Proof.
  intros C k. pose proof (total_pos X C). unfold nthR, py_of, zrange. rewrite map_map. destruct (le_lt_dec (Z.to_nat (ncols X)) (Z.to_nat k)) as [L|L].
  - rewrite nth_overflow; [lra|]. rewrite map_length, seq_length. exact L.
  - rewrite (nth_indep _ 0 ((fun x => col_sum X (Z.of_nat x) / total X) 0%nat)) by (rewrite map_length, seq_length; exact L). rewrite (map_nth (fun x => col_sum X (Z.of_nat x) / total X) _ 0%nat).
    apply Rmult_le_pos; [|apply Rlt_le, Rinv_0_lt_compat; assumption]. apply Rsum_nonneg. intros t I. apply filter_In in I as [I _].
    destruct C as (_ & _ & P). eapply Forall_forall in P; [|exact I]. lra.
Qed.

(** ** C62 *)
(** each stored value of the result is the logarithm of the ratio of a stored pair, and a pair is stored iff its ratio reaches the threshold *)
Theorem C62_values X py min_pmi alpha beta P px q : counts X -> 0 <= alpha -> match py with Some p => forall k, 0 <= nthR p k | None => True end ->
  pmi X py min_pmi alpha beta = Ok (P, px, q) ->
  nrows P = nrows X /\ ncols P = ncols X /\ forall i j v, In (i, j, v) (triplets P) <->
    exists x, In (i, j, x) (triplets X) /\ 0 < nthR q j /\ (if Req_EM_T min_pmi 0 then 1 else exp min_pmi) <= ratio X (nthR px i) (nthR q j) alpha x /\ v = ln (ratio X (nthR px i) (nthR q j) alpha x).
Proof.
  intros C A HP E. unfold pmi in E. destruct (Rlt_dec 0 beta); [|discriminate]. destruct (Rle_dec beta 1); [|discriminate]. injection E as <- <- <-. cbn [nrows ncols triplets].
  split; [reflexivity|]. split; [reflexivity|]. intros i j v. set (q := smooth beta _).
  assert (forall k, 0 <= nthR q k) as Q. { apply smooth_nonneg. destruct py as [p|]; [exact HP|apply py_nonneg, C]. }
  unfold log_ppmi. rewrite in_map_iff. fold (min_exp_of min_pmi). split.
  - intros ([ij e] & E & I). cbn [fst snd] in E. injection E as -> <-. apply filter_In in I as [I L]. cbn [snd] in L. destruct (Rle_dec (min_exp_of min_pmi) e) as [L'|]; [|discriminate].
    apply (exp_In X alpha q i j e C A Q) in I as (x & I & Pj & ->). exists x. auto.
  - intros (x & I & Pj & L & ->). exists (i, j, ratio X (nthR (px_of X) i) (nthR q j) alpha x). split; [reflexivity|]. apply filter_In. split; [apply (exp_In X alpha q i j _ C A Q); exists x; auto|].
    cbn [snd]. destruct (Rle_dec (min_exp_of min_pmi) (ratio X (nthR (px_of X) i) (nthR q j) alpha x)); [reflexivity|contradiction].
Qed.
Print Assumptions C62_values.
(** in particular the result holds exactly the values that are at least min_pmi; with the default 0 it is non-negative *)
Theorem C62_threshold X py min_pmi alpha beta P px q i j v : counts X -> 0 <= alpha -> match py with Some p => forall k, 0 <= nthR p k | None => True end ->
  pmi X py min_pmi alpha beta = Ok (P, px, q) -> In (i, j, v) (triplets P) -> min_pmi <= v.
Proof.
  intros C A HP E I. apply (C62_values X py min_pmi alpha beta P px q C A HP E) in I as (x & I & Pj & L & ->).
  destruct (Req_EM_T min_pmi 0) as [->|N].
  - rewrite <- ln_1. destruct L as [L|<-]; [apply Rlt_le, ln_increasing; lra|apply Rle_refl].
  - rewrite <- (ln_exp min_pmi). destruct L as [L|<-]; [apply Rlt_le, ln_increasing; [apply exp_pos|exact L]|apply Rle_refl].
Qed.
Print Assumptions C62_threshold.
(** px and (computed) py are the marginals, and are probability distributions; also after smoothing with beta < 1 *)
Theorem C62_marginals X min_pmi alpha beta P px q : counts X -> pmi X None min_pmi alpha beta = Ok (P, px, q) ->
  (forall i, (0 <= i < nrows X)%Z -> nthR px i = row_sum X i / total X) /\ Rsum px = 1 /\ Rsum q = 1 /\
  (beta = 1 -> forall j, (0 <= j < ncols X)%Z -> nthR q j = col_sum X j / total X).
Proof.
  intros C E. pose proof (total_pos X C) as TP. unfold pmi in E. destruct (Rlt_dec 0 beta) as [B0|]; [|discriminate]. destruct (Rle_dec beta 1); [|discriminate]. injection E as <- <- <-.
  pose proof C as ((_ & F) & NE & PF).
  assert (Rsum (py_of X) = 1) as PY.
  { unfold py_of. rewrite (Rsum_scale (col_sum X)). unfold col_sum. rewrite (Rsum_group (fun t => snd (fst t))); [|apply zrange_NoDup|].
    - fold (total X). field. lra.
    - eapply Forall_impl; [|exact F]. cbn. intros t [_ H]. apply zrange_In, H. }
  split; [intros i H; apply nthR_zrange, H|]. split; [|split].
  - unfold px_of. rewrite (Rsum_scale (row_sum X)). unfold row_sum. rewrite (Rsum_group (fun t => fst (fst t))); [|apply zrange_NoDup|].
    + fold (total X). field. lra.
    + eapply Forall_impl; [|exact F]. cbn. intros t [H _]. apply zrange_In, H.
  - unfold smooth. destruct (Rlt_dec beta 1); [|exact PY]. cbv zeta. rewrite (Rsum_scale (fun v => v)), map_id. apply Rinv_r, Rgt_not_eq.
    assert (exists v, In v (py_of X) /\ v <> 0) as (v & Iv & Nv).
    { destruct (triplets X) as [|[[i j] x] ts] eqn:ET; [congruence|]. assert (In (i, j, x) (triplets X)) as I by (rewrite ET; left; reflexivity).
      inversion F as [|? ? [_ R2] _]; subst. cbn in R2. exists (col_sum X j / total X). split; [unfold py_of; apply in_map_iff; exists j; split; [reflexivity|apply zrange_In, R2]|].
      apply Rgt_not_eq, Rdiv_lt_0_compat; [eapply col_pos; eauto|exact TP]. }
    apply (Rsum_pos (pow_beta beta) (py_of X) v); [|exact Iv|].
    + intros y _. unfold pow_beta. destruct (Req_EM_T y 0); [lra|apply Rlt_le, exp_pos].
    + unfold pow_beta. destruct (Req_EM_T v 0); [contradiction|apply exp_pos].
  - intros -> j H. unfold smooth. destruct (Rlt_dec 1 1); [lra|]. apply nthR_zrange, H.
Qed.
Print Assumptions C62_marginals.
(** a symmetric matrix has a symmetric PMI (without smoothing) *)
Lemma sym_sum (f g : Z * Z * R -> bool) (ts : list (Z * Z * R)) : NoDup (map fst ts) -> (forall i j x, In (i, j, x) ts <-> In (j, i, x) ts) ->
  (forall i j x, f (i, j, x) = g (j, i, x)) -> Rsum (map snd (filter f ts)) = Rsum (map snd (filter g ts)).
Proof.
  intros N S FG. assert (Permutation (map (fun t : Z * Z * R => (snd (fst t), fst (fst t), snd t)) (filter f ts)) (filter g ts)) as P.
  { assert (forall f, NoDup (filter f ts)) as ND. { intros h. apply NoDup_filter. eapply NoDup_map_inv, N. }
    apply NoDup_Permutation; [|apply ND|].
    - apply FinFun.Injective_map_NoDup; [|apply ND]. intros [[a b] c] [[d e] h] E. cbn in E. congruence.
    - intros [[i j] x]. rewrite in_map_iff, filter_In. split.
      + intros ([[a b] c] & E & I). cbn in E. injection E as <- <- <-. apply filter_In in I as [I H]. rewrite FG in H. split; [apply S, I|exact H].
      + intros [I H]. exists (j, i, x). split; [reflexivity|]. apply filter_In. rewrite FG. split; [apply S, I|exact H]. }
  assert (forall l1 l2 : list R, Permutation l1 l2 -> Rsum l1 = Rsum l2) as RP. { induction 1; rewrite ?Rsum_cons; [reflexivity|lra|lra|lra]. }
  rewrite <- (RP _ _ (Permutation_map snd P)), map_map. reflexivity.
Qed.
Theorem C62_symmetric X min_pmi P px q : counts X -> nrows X = ncols X -> (forall i j x, In (i, j, x) (triplets X) <-> In (j, i, x) (triplets X)) ->
  pmi X None min_pmi 0 1 = Ok (P, px, q) -> px = q /\ forall i j v, In (i, j, v) (triplets P) <-> In (j, i, v) (triplets P).
Proof.
  intros C SQ S E. assert (px = q) as EQ.
  { unfold pmi in E. destruct (Rlt_dec 0 1); [|discriminate]. destruct (Rle_dec 1 1); [|discriminate]. injection E as _ <- <-. unfold smooth. destruct (Rlt_dec 1 1); [lra|].
    unfold px_of, py_of. rewrite SQ. apply map_ext. intros k. f_equal. unfold row_sum, col_sum. apply sym_sum; [apply C|exact S|reflexivity]. }
  split; [exact EQ|]. subst q. destruct (C62_values X None min_pmi 0 1 P px px C (Rle_refl 0) I E) as (_ & _ & V).
  destruct (C62_marginals X min_pmi 0 1 P px px C E) as (MX & _ & _ & _). pose proof (total_pos X C) as TP.
  assert (forall i j x, In (i, j, x) (triplets X) -> 0 < nthR px i) as PX.
  { intros i j x H. pose proof C as ((_ & F) & _ & _). eapply Forall_forall in F as [R1 _]; [|exact H]. cbn in R1. rewrite MX by exact R1. apply Rdiv_lt_0_compat; [eapply row_pos; eauto|exact TP]. }
  assert (forall i j v, In (i, j, v) (triplets P) -> In (j, i, v) (triplets P)) as H.
  { intros i j v H. apply V in H as (x & H & Pj & L & ->). apply V. exists x.
    assert (ratio X (nthR px i) (nthR px j) 0 x = ratio X (nthR px j) (nthR px i) 0 x) as R. { unfold ratio. replace (nthR px i * (nthR px j + 0)) with (nthR px j * (nthR px i + 0)) by ring. reflexivity. }
    rewrite <- R. split; [apply S, H|]. split; [eapply PX, H|]. auto. }
  intros i j v. split; apply H.
Qed.
Print Assumptions C62_symmetric.
(** pmi_memory_friendly called as documented fails unless the matrix has exactly one column *)
Theorem C62_memory_friendly_refuted X min_pmi alpha beta : ncols X <> 1%Z -> pmi_memory_friendly X min_pmi alpha beta = Err AssertionError.
Proof.
  intros N. unfold pmi_memory_friendly. destruct (Rlt_dec 0 beta); [|reflexivity]. destruct (Rle_dec beta 1); [|reflexivity]. cbv zeta.
  destruct (Z.eqb_spec 1 (ncols X)); [congruence|reflexivity].
Qed.
Print Assumptions C62_memory_friendly_refuted.

(** a concrete matrix *)
Definition X0 : matrix R := mkMatrix 2 2 [(0%Z, 1%Z, 1); (1%Z, 0%Z, 1); (1%Z, 1%Z, 2)].
Example C62_counts : counts X0.
Proof.
  split; [split|split].
  - cbn. repeat constructor; cbn; intuition congruence.
  - cbn. repeat (apply Forall_cons; [cbn; lia|]). apply Forall_nil.
  - discriminate.
  - cbn. repeat (apply Forall_cons; [cbn; lra|]). apply Forall_nil.
Qed.
Example C62_value_example : exists P px q, pmi X0 None 0 0 1 = Ok (P, px, q) /\ In (0%Z, 1%Z, ln (4 / 3)) (triplets P) /\ ~ exists v, In (1%Z, 1%Z, v) (triplets P).
Proof.
  destruct (pmi X0 None 0 0 1) as [[[P px] q]|e] eqn:E.
  2:{ exfalso. unfold pmi in E. destruct (Rlt_dec 0 1); [|lra]. destruct (Rle_dec 1 1); [discriminate|lra]. }
  exists P, px, q. split; [reflexivity|]. destruct (C62_values X0 None 0 0 1 P px q C62_counts (Rle_refl 0) I E) as (_ & _ & V).
  destruct (C62_marginals X0 0 0 1 P px q C62_counts E) as (MX & _ & _ & MY). specialize (MY eq_refl).
  assert (total X0 = 4) as T by (unfold total, X0, Rsum; cbn; lra).
  assert (nthR px 0 = 1/4) as X1. { rewrite MX by (cbn; lia). rewrite T. unfold row_sum, X0, Rsum. cbn. lra. }
  assert (nthR px 1 = 3/4) as X2. { rewrite MX by (cbn; lia). rewrite T. unfold row_sum, X0, Rsum. cbn. lra. }
  assert (nthR q 1 = 3/4) as Y2. { rewrite MY by (cbn; lia). rewrite T. unfold col_sum, X0, Rsum. cbn. lra. }
  destruct (Req_EM_T 0 0); [|congruence]. split.
  - apply V. exists 1. assert (ratio X0 (nthR px 0) (nthR q 1) 0 1 = 4 / 3) as R by (unfold ratio; rewrite T, X1, Y2; lra). rewrite R.
    split; [left; reflexivity|]. split; [rewrite Y2; lra|]. split; [lra|reflexivity].
  - intros [v H]. apply V in H as (x & H & _ & L & _). cbn in H. destruct H as [H|[H|[H|[]]]]; try discriminate. injection H as <-.
    assert (ratio X0 (nthR px 1) (nthR q 1) 0 2 = 8 / 9) as R by (unfold ratio; rewrite T, X2, Y2; lra). rewrite R in L. lra.
Qed.
