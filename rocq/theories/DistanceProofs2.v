From Coq Require Import Reals QArith Lra Psatz Permutation.
From Verif Require Import PyBase PyDict CountLemmas HangleModel DistanceModel.
Open Scope Z_scope.

(** ** jaccard_distance *)
Definition same_chars (s1 s2 : str) := forall c, In c s1 <-> In c s2.

Lemma ex_In (s : str) : s <> [] -> exists c, In c s.
Proof. destruct s as [|c s]; [congruence|]. intros _. exists c. left; reflexivity. Qed.

Section J.
  Variables s1 s2 : str.
  Let a := nodup N.eq_dec s1.
  Let b := nodup N.eq_dec s2.
  Let inter := filter (fun c => mem c b) a.
  Let union := nodup N.eq_dec (a ++ b).

  Lemma inter_In c : In c inter <-> In c s1 /\ In c s2.
  Proof. unfold inter. rewrite filter_In, mem_In. unfold a, b. rewrite !nodup_In. tauto. Qed.
  Lemma union_In c : In c union <-> In c s1 \/ In c s2.
  Proof. unfold union. rewrite nodup_In, in_app_iff. unfold a, b. rewrite !nodup_In. tauto. Qed.
  Lemma inter_nodup : NoDup inter. Proof. apply NoDup_filter, NoDup_nodup. Qed.
  Lemma union_nodup : NoDup union. Proof. apply NoDup_nodup. Qed.

  Lemma jaccard_unfold : s1 <> [] -> s2 <> [] ->
    jaccard_distance s1 s2 = (1 - inject_Z (Z.of_nat (length inter)) / inject_Z (Z.of_nat (length union)))%Q.
  Proof. clear. destruct s1; [congruence|]. destruct s2; [congruence|]. reflexivity. Qed.
  Lemma union_pos : s1 <> [] -> (0 < length union)%nat.
  Proof.
    intros N. destruct (ex_In _ N) as (c & Ic).
    assert (I : In c union) by (apply union_In; left; exact Ic).
    destruct (length union) eqn:E; [|lia]. apply length_zero_iff_nil in E. rewrite E in I. destruct I.
  Qed.
  Lemma inter_le_union : (length inter <= length union)%nat.
  Proof.
    apply NoDup_incl_length; [apply inter_nodup|]. intros c I. apply inter_In in I. apply union_In. tauto.
  Qed.
End J.

Definition inter_of s1 s2 := filter (fun c => mem c (nodup N.eq_dec s2)) (nodup N.eq_dec s1).
Definition union_of s1 s2 := nodup N.eq_dec (nodup N.eq_dec s1 ++ nodup N.eq_dec s2).

Lemma jaccard_exact s1 s2 I Un : s1 <> [] -> s2 <> [] ->
  NoDup I -> (forall c, In c I <-> In c s1 /\ In c s2) ->
  NoDup Un -> (forall c, In c Un <-> In c s1 \/ In c s2) ->
  jaccard_distance s1 s2 = (1 - inject_Z (Z.of_nat (length I)) / inject_Z (Z.of_nat (length Un)))%Q /\ (0 < length Un)%nat /\ (length I <= length Un)%nat.
Proof.
  intros N1 N2 NI HI NU HU. rewrite jaccard_unfold by assumption.
  assert (EI : length (inter_of s1 s2) = length I).
  { apply Permutation_length, NoDup_Permutation; [apply inter_nodup|exact NI|].
    intros c. unfold inter_of. rewrite inter_In, HI. tauto. }
  assert (EU : length (union_of s1 s2) = length Un).
  { apply Permutation_length, NoDup_Permutation; [apply union_nodup|exact NU|].
    intros c. unfold union_of. rewrite union_In, HU. tauto. }
  unfold inter_of in EI. unfold union_of in EU. rewrite EI, EU. split; [reflexivity|]. split.
  - rewrite <- EU. apply union_pos; assumption.
  - rewrite <- EU, <- EI. apply inter_le_union.
Qed.

Lemma frac_bounds (i n : nat) : (0 < n)%nat -> (i <= n)%nat ->
  (0 <= 1 - inject_Z (Z.of_nat i) / inject_Z (Z.of_nat n) <= 1)%Q.
Proof.
  intros Hn Hi.
  assert (P : (0 < inject_Z (Z.of_nat n))%Q) by (change 0%Q with (inject_Z 0); rewrite <- Zlt_Qlt; lia).
  assert (L : (inject_Z (Z.of_nat i) / inject_Z (Z.of_nat n) <= 1)%Q).
  { apply Qle_shift_div_r; [exact P|]. rewrite Qmult_1_l, <- Zle_Qle. lia. }
  assert (G : (0 <= inject_Z (Z.of_nat i) / inject_Z (Z.of_nat n))%Q).
  { apply Qle_shift_div_l; [exact P|]. rewrite Qmult_0_l. change 0%Q with (inject_Z 0). rewrite <- Zle_Qle. lia. }
  revert L G. generalize (inject_Z (Z.of_nat i) / inject_Z (Z.of_nat n))%Q. intros q L G. split; lra.
Qed.

Lemma frac_one_iff (i n : nat) : (0 < n)%nat -> (1 - inject_Z (Z.of_nat i) / inject_Z (Z.of_nat n) == 0)%Q <-> i = n.
Proof.
  intros Hn.
  assert (P : (0 < inject_Z (Z.of_nat n))%Q) by (change 0%Q with (inject_Z 0); rewrite <- Zlt_Qlt; lia).
  split.
  - intros E. assert (E' : (inject_Z (Z.of_nat i) / inject_Z (Z.of_nat n) == 1)%Q) by (revert E; generalize (inject_Z (Z.of_nat i) / inject_Z (Z.of_nat n))%Q; intros q E; lra).
    assert (E2 : (inject_Z (Z.of_nat i) == inject_Z (Z.of_nat n))%Q).
    { rewrite <- (Qmult_1_l (inject_Z (Z.of_nat n))), <- E'. field. intro X; rewrite X in P; discriminate P. }
    apply (proj1 (inject_Z_injective _ _)) in E2. lia.
  - intros ->. field. intro X; rewrite X in P; discriminate P.
Qed.
Lemma frac_zero_iff (i n : nat) : (0 < n)%nat -> (1 - inject_Z (Z.of_nat i) / inject_Z (Z.of_nat n) == 1)%Q <-> i = 0%nat.
Proof.
  intros Hn.
  assert (P : (0 < inject_Z (Z.of_nat n))%Q) by (change 0%Q with (inject_Z 0); rewrite <- Zlt_Qlt; lia).
  split.
  - intros E. assert (E' : (inject_Z (Z.of_nat i) / inject_Z (Z.of_nat n) == 0)%Q) by (revert E; generalize (inject_Z (Z.of_nat i) / inject_Z (Z.of_nat n))%Q; intros q E; lra).
    assert (E2 : (inject_Z (Z.of_nat i) == inject_Z 0)%Q).
    { change (inject_Z 0) with 0%Q. rewrite <- (Qmult_0_l (inject_Z (Z.of_nat n))), <- E'. field. intro X; rewrite X in P; discriminate P. }
    apply (proj1 (inject_Z_injective _ _)) in E2. lia.
  - intros ->. change (inject_Z (Z.of_nat 0)) with 0%Q. field. intro X; rewrite X in P; discriminate P.
Qed.

Lemma jaccard_props s1 s2 : s1 <> [] -> s2 <> [] ->
  (0 <= jaccard_distance s1 s2 <= 1)%Q /\ jaccard_distance s1 s2 = jaccard_distance s2 s1 /\
  ((jaccard_distance s1 s2 == 0)%Q <-> forall c, In c s1 <-> In c s2) /\
  ((jaccard_distance s1 s2 == 1)%Q <-> forall c, In c s1 -> ~ In c s2).
Proof.
  intros N1 N2.
  destruct (jaccard_exact s1 s2 (inter_of s1 s2) (union_of s1 s2) N1 N2 (inter_nodup s1 s2) (inter_In s1 s2) (union_nodup s1 s2) (union_In s1 s2)) as (E & P & L).
  destruct (jaccard_exact s2 s1 (inter_of s1 s2) (union_of s1 s2) N2 N1 (inter_nodup s1 s2)
     ltac:(intros c; unfold inter_of; rewrite inter_In; tauto) (union_nodup s1 s2)
     ltac:(intros c; unfold union_of; rewrite union_In; tauto)) as (E' & _ & _).
  split; [rewrite E; apply frac_bounds; assumption|]. split; [congruence|]. rewrite E. split.
  - rewrite frac_one_iff by exact P. split.
    + intros EL. assert (IN : incl (union_of s1 s2) (inter_of s1 s2)).
      { apply NoDup_length_incl; [apply inter_nodup|lia|].
        intros c I. unfold inter_of in I. rewrite inter_In in I. unfold union_of. rewrite union_In. tauto. }
      intros c. assert (X : In c s1 \/ In c s2 -> In c s1 /\ In c s2).
      { intros H. unfold union_of, inter_of in IN. specialize (IN c). rewrite union_In, inter_In in IN. tauto. }
      tauto.
    + intros S. apply Permutation_length, NoDup_Permutation; [apply inter_nodup|apply union_nodup|].
      intros c. unfold inter_of, union_of. rewrite inter_In, union_In. specialize (S c). tauto.
  - rewrite frac_zero_iff by exact P. split.
    + intros Z0 c I1 I2. assert (I : In c (inter_of s1 s2)) by (unfold inter_of; rewrite inter_In; tauto).
      destruct (inter_of s1 s2); [destruct I|discriminate].
    + intros D. destruct (inter_of s1 s2) as [|c l] eqn:X; [reflexivity|].
      assert (I : In c (inter_of s1 s2)) by (rewrite X; left; reflexivity).
      unfold inter_of in I. rewrite inter_In in I. exfalso. apply (D c); tauto.
Qed.

(** ** cosine_distance *)
Lemma counter_dcount (s : str) d : fold_left (fun d c => dset d c (dgetd d c 0 + 1)) s d = dcount (map (fun c => (c, 1)) s) d.
Proof. revert d; induction s as [|c s IH]; intros d; [reflexivity|]. simpl. rewrite IH. reflexivity. Qed.
Lemma dgetd_counter s c : dgetd (counter s) c 0 = occ c s.
Proof.
  unfold counter. rewrite counter_dcount, dgetd_dcount, Zsum_map. cbn [fst snd].
  unfold dgetd at 1. simpl dget. unfold occ. rewrite Z.add_0_l. apply Zsum_ext.
  intros x _. rewrite eqb_sym. reflexivity.
Qed.
Lemma dwf_counter s : dwf (counter s).
Proof. unfold counter. rewrite counter_dcount. apply dwf_dcount, dwf_nil. Qed.
Lemma keys_counter s c : In c (dkeys (counter s)) <-> In c s.
Proof.
  unfold counter. rewrite counter_dcount, dkeys_dcount. rewrite map_map. simpl. rewrite map_id. tauto.
Qed.
Lemma items_counter s c f : In (c, f) (counter s) -> f = occ c s.
Proof.
  intros I. rewrite <- dgetd_counter. unfold dgetd. rewrite (In_dget _ _ _ (dwf_counter s) I). reflexivity.
Qed.
Lemma Zsum_items s (g : N -> Z -> Z) : Zsum (fun kv => g (fst kv) (snd kv)) (counter s) = Zsum (fun c => g c (occ c s)) (dkeys (counter s)).
Proof.
  unfold dkeys. rewrite Zsum_map. apply Zsum_ext. intros [c f] I. simpl. rewrite (items_counter _ _ _ I). reflexivity.
Qed.

Section Cos.
  Variables s1 s2 : str.
  Variable L : list N.
  Hypothesis NL : NoDup L.
  Hypothesis C1 : forall c, In c s1 -> In c L.
  Hypothesis C2 : forall c, In c s2 -> In c L.

  Lemma sum_keys s (g : N -> Z) : (forall c, In c s -> In c L) -> (forall c, ~ In c s -> g c = 0) ->
    Zsum g (dkeys (counter s)) = Zsum g L.
  Proof.
    intros C Z0. symmetry. apply Zsum_superset; [apply dwf_counter|exact NL| |].
    - intros c I. apply C. apply keys_counter. exact I.
    - intros c _ I. apply Z0. intro X. apply I. apply keys_counter. exact X.
  Qed.

  Lemma prod_eq : fold_left (fun acc kv => acc + snd kv * dgetd (counter s2) (fst kv) 0) (counter s1) 0 = Zsum (fun c => occ c s1 * occ c s2) L.
  Proof.
    rewrite (Zsum_fold (fun kv => snd kv * dgetd (counter s2) (fst kv) 0)).
    rewrite Z.add_0_l, (Zsum_items s1 (fun c f => f * dgetd (counter s2) c 0)).
    rewrite (Zsum_ext _ (fun c => occ c s1 * occ c s2)); [|intros; rewrite dgetd_counter; reflexivity].
    apply sum_keys; [exact C1|]. intros c N. apply occ_zero_iff in N. rewrite N. reflexivity.
  Qed.
  Lemma sq_eq s : (forall c, In c s -> In c L) ->
    fold_left (fun acc f => acc + f * f) (dvals (counter s)) 0 = Zsum (fun c => occ c s * occ c s) L.
  Proof.
    intros C. rewrite (Zsum_fold (fun f => f * f)). unfold dvals. rewrite Zsum_map, Z.add_0_l.
    rewrite (Zsum_items s (fun c f => f * f)).
    apply sum_keys; [exact C|]. intros c N. apply occ_zero_iff in N. rewrite N. reflexivity.
  Qed.
End Cos.

Lemma Zsum_mul_bilin {A} (a b : A -> Z) B C l :
  Zsum (fun x => (B * a x - C * b x) * (B * a x - C * b x)) l =
  B * B * Zsum (fun x => a x * a x) l - 2 * B * C * Zsum (fun x => a x * b x) l + C * C * Zsum (fun x => b x * b x) l.
Proof. induction l as [|x l IH]; cbn [Zsum]; [lia|]. rewrite IH. ring. Qed.

Lemma cauchy_schwarz {A} (a b : A -> Z) l :
  Zsum (fun x => a x * b x) l * Zsum (fun x => a x * b x) l <= Zsum (fun x => a x * a x) l * Zsum (fun x => b x * b x) l.
Proof.
  set (AA := Zsum (fun x => a x * a x) l). set (BB := Zsum (fun x => b x * b x) l). set (AB := Zsum (fun x => a x * b x) l).
  assert (HB : 0 <= BB) by (apply Zsum_nonneg; intros; apply Z.square_nonneg).
  assert (HA : 0 <= AA) by (apply Zsum_nonneg; intros; apply Z.square_nonneg).
  destruct (Z.eq_dec BB 0) as [Z0|NZ].
  - assert (E : AB = 0).
    { unfold AB. apply Zsum_zero. intros x I.
      assert (b x * b x <= BB) by (apply (Zsum_In_le (fun x => b x * b x)); [intros; apply Z.square_nonneg|exact I]).
      pose proof (Z.square_nonneg (b x)). assert (E0 : b x * b x = 0) by lia.
      apply Z.mul_eq_0 in E0. assert (E1 : b x = 0) by tauto. rewrite E1. lia. }
    rewrite E, Z0. lia.
  - assert (G : 0 <= Zsum (fun x => (BB * a x - AB * b x) * (BB * a x - AB * b x)) l) by (apply Zsum_nonneg; intros; apply Z.square_nonneg).
    rewrite Zsum_mul_bilin in G. fold AA BB AB in G.
    assert (X : 0 <= BB * (AA * BB - AB * AB)) by (replace (BB * (AA * BB - AB * AB)) with (BB * BB * AA - 2 * BB * AB * AB + AB * AB * BB) by ring; exact G).
    clear G. assert (0 <= AA * BB - AB * AB); [|lia].
    apply (Z.mul_nonneg_cancel_l BB); [lia|exact X].
Qed.

Lemma sq_pos (s L : str) : s <> [] -> (forall c, In c s -> In c L) -> 0 < Zsum (fun c => occ c s * occ c s) L.
Proof.
  intros N C. destruct s as [|c s]; [congruence|].
  assert (P : 0 < occ c (c :: s)) by (apply occ_pos_iff; left; reflexivity).
  assert (occ c (c :: s) * occ c (c :: s) <= Zsum (fun x => occ x (c :: s) * occ x (c :: s)) L).
  { apply (Zsum_In_le (fun x => occ x (c :: s) * occ x (c :: s))); [intros; apply Z.square_nonneg|]. apply C. left; reflexivity. }
  nia.
Qed.

Lemma cosine_exact s1 s2 L : s1 <> [] -> s2 <> [] -> NoDup L ->
  (forall c, In c s1 -> In c L) -> (forall c, In c s2 -> In c L) ->
  cosine_distance s1 s2 =
   (1 - IZR (Zsum (fun c => occ c s1 * occ c s2)%Z L) /
        sqrt (IZR (Zsum (fun c => occ c s1 * occ c s1) L * Zsum (fun c => occ c s2 * occ c s2) L)%Z))%R.
Proof.
  intros N1 N2 NL C1 C2. unfold cosine_distance.
  rewrite <- (prod_eq s1 s2 L NL C1), <- (sq_eq L NL s1 C1), <- (sq_eq L NL s2 C2).
  destruct s1; [congruence|]. destruct s2; [congruence|]. reflexivity.
Qed.

Lemma cosine_props s1 s2 : s1 <> [] -> s2 <> [] ->
  (0 <= cosine_distance s1 s2 <= 1)%R /\ cosine_distance s1 s2 = cosine_distance s2 s1 /\
  cosine_distance s1 s1 = 0%R /\
  (cosine_distance s1 s2 = 1%R <-> forall c, In c s1 -> ~ In c s2).
Proof.
  intros N1 N2.
  set (L := nodup N.eq_dec (s1 ++ s2)).
  assert (NL : NoDup L) by apply NoDup_nodup.
  assert (C1 : forall c, In c s1 -> In c L) by (intros c I; apply nodup_In, in_or_app; auto).
  assert (C2 : forall c, In c s2 -> In c L) by (intros c I; apply nodup_In, in_or_app; auto).
  rewrite (cosine_exact s1 s2 L N1 N2 NL C1 C2), (cosine_exact s2 s1 L N2 N1 NL C2 C1), (cosine_exact s1 s1 L N1 N1 NL C1 C1).
  pose proof (cauchy_schwarz (fun c => occ c s1) (fun c => occ c s2) L) as CS. cbv beta in CS.
  pose proof (sq_pos s1 L N1 C1) as P1. pose proof (sq_pos s2 L N2 C2) as P2.
  assert (P0 : 0 <= Zsum (fun c => occ c s1 * occ c s2) L).
  { apply Zsum_nonneg. intros c _. pose proof (occ_nonneg c s1). pose proof (occ_nonneg c s2). nia. }
  rewrite (Zsum_ext (fun c : N => (occ c s2 * occ c s1)%Z) (fun c : N => (occ c s1 * occ c s2)%Z)) by (intros; ring).
  remember (Zsum (fun c => occ c s1 * occ c s2) L) as C eqn:EC.
  set (A := Zsum (fun c => occ c s1 * occ c s1) L) in *.
  set (B := Zsum (fun c => occ c s2 * occ c s2) L) in *.
  assert (PAB : (0 < IZR (A * B)%Z)%R) by (apply IZR_lt; nia).
  assert (SP : (0 < sqrt (IZR (A * B)%Z))%R) by (apply sqrt_lt_R0; exact PAB).
  assert (PC : (0 <= IZR C)%R) by (apply IZR_le; exact P0).
  assert (LE : (IZR C <= sqrt (IZR (A * B)%Z))%R).
  { rewrite <- (sqrt_square (IZR C)) by exact PC. apply sqrt_le_1_alt. rewrite <- mult_IZR. apply IZR_le. exact CS. }
  assert (D : (0 <= IZR C / sqrt (IZR (A * B)%Z) <= 1)%R).
  { split.
    - apply Rmult_le_pos; [exact PC|]. left. apply Rinv_0_lt_compat. exact SP.
    - apply (Rmult_le_reg_r (sqrt (IZR (A * B)%Z))); [exact SP|]. unfold Rdiv.
      rewrite Rmult_assoc, Rinv_l by lra. lra. }
  split; [lra|]. split; [rewrite (Z.mul_comm B A); reflexivity|]. split.
  - rewrite mult_IZR, sqrt_square by (apply IZR_le; lia).
    assert (0 < IZR A)%R by (apply IZR_lt; exact P1). field. lra.
  - split.
    + intros E. assert (E0 : (IZR C / sqrt (IZR (A * B)%Z) = 0)%R) by lra.
      assert (EC0 : C = 0).
      { apply eq_IZR. apply (Rmult_eq_reg_r (/ sqrt (IZR (A * B)%Z))); [|apply Rinv_neq_0_compat; lra].
        unfold Rdiv in E0. rewrite E0. ring. }
      intros c I1 I2.
      assert (X : occ c s1 * occ c s2 <= C).
      { rewrite EC. apply (Zsum_In_le (fun c => occ c s1 * occ c s2)); [|apply C1; exact I1].
        intros y _. pose proof (occ_nonneg y s1). pose proof (occ_nonneg y s2). nia. }
      apply occ_pos_iff in I1, I2. nia.
    + intros D'. assert (C0 : C = 0).
      { rewrite EC. apply Zsum_zero. intros c _. destruct (mem c s1) eqn:M.
        - apply mem_In in M. apply D' in M. apply occ_zero_iff in M. rewrite M. lia.
        - apply mem_In_false in M. apply occ_zero_iff in M. rewrite M. lia. }
      rewrite C0. unfold Rdiv. rewrite Rmult_0_l. lra.
Qed.
