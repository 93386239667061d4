From Verif Require Import PyBase PyDict HangleModel HangleProofs DistanceModel DistanceSpec.
Open Scope Z_scope.

(** ** Alignments *)
Section Align.
  Context {A : Type}.
  Variable U : Z.
  Variable c : A -> A -> Z.

  Lemma align_app s1 t1 k1 s2 t2 k2 : align U c s1 t1 k1 -> align U c s2 t2 k2 ->
    align U c (s1 ++ s2) (t1 ++ t2) (k1 + k2).
  Proof.
    intros A1 A2. induction A1 as [|x s t k H IH|y s t k H IH|x y s t k H IH]; simpl.
    - exact A2.
    - replace (k + U + k2) with (k + k2 + U) by lia. constructor; exact IH.
    - replace (k + U + k2) with (k + k2 + U) by lia. constructor; exact IH.
    - replace (k + c x y + k2) with (k + k2 + c x y) by lia. constructor; exact IH.
  Qed.

  Lemma align_rev s t k : align U c s t k -> align U c (rev s) (rev t) k.
  Proof.
    induction 1 as [|x s t k H IH|y s t k H IH|x y s t k H IH]; simpl.
    - constructor.
    - rewrite <- (app_nil_r (rev t)). apply align_app; [exact IH|].
      replace U with (0 + U) at 2 by lia. repeat constructor.
    - rewrite <- (app_nil_r (rev s)). apply align_app; [exact IH|].
      replace U with (0 + U) at 2 by lia. repeat constructor.
    - apply align_app; [exact IH|]. replace (c x y) with (0 + c x y) by lia. repeat constructor.
  Qed.

  Lemma align_snoc_inv p x q y k : align U c (p ++ [x]) (q ++ [y]) k ->
    (exists k', align U c p (q ++ [y]) k' /\ k = k' + U) \/
    (exists k', align U c (p ++ [x]) q k' /\ k = k' + U) \/
    (exists k', align U c p q k' /\ k = k' + c x y).
  Proof.
    intros H. apply align_rev in H. rewrite !rev_app_distr in H. simpl in H.
    inversion H as [|x' s t k' H' E1 E2 E3|y' s t k' H' E1 E2 E3|x' y' s t k' H' E1 E2 E3]; subst;
    apply align_rev in H'; simpl in H'; rewrite ?rev_involutive in H'.
    - left. eauto.
    - right. left. eauto.
    - right. right. eauto.
  Qed.

  Lemma align_nil_r s k : align U c s [] k -> k = Z.of_nat (length s) * U.
  Proof.
    revert k; induction s as [|x s IH]; intros k H; inversion H; subst; simpl length; [lia|].
    match goal with X : align U c s [] _ |- _ => apply IH in X; rewrite X end. lia.
  Qed.
  Lemma align_del_all s : align U c s [] (Z.of_nat (length s) * U).
  Proof.
    induction s as [|x s IH]; [constructor|].
    replace (Z.of_nat (length (x :: s)) * U) with (Z.of_nat (length s) * U + U) by (simpl length; lia).
    constructor; exact IH.
  Qed.
  Lemma align_nil_l t k : align U c [] t k -> k = Z.of_nat (length t) * U.
  Proof.
    revert k; induction t as [|x t IH]; intros k H; inversion H; subst; simpl length; [lia|].
    match goal with X : align U c [] t _ |- _ => apply IH in X; rewrite X end. lia.
  Qed.
  Lemma align_ins_all s : align U c [] s (Z.of_nat (length s) * U).
  Proof.
    induction s as [|x s IH]; [constructor|].
    replace (Z.of_nat (length (x :: s)) * U) with (Z.of_nat (length s) * U + U) by (simpl length; lia).
    constructor; exact IH.
  Qed.

  Lemma least_snoc p x q y a b d :
    least_cost U c p (q ++ [y]) a -> least_cost U c (p ++ [x]) q b -> least_cost U c p q d ->
    least_cost U c (p ++ [x]) (q ++ [y]) (Z.min (Z.min (a + U) (b + U)) (d + c x y)).
  Proof.
    intros [A1 A2] [B1 B2] [D1 D2]. split.
    - destruct (Z.min_spec (Z.min (a + U) (b + U)) (d + c x y)) as [[_ ->]|[_ ->]];
        [destruct (Z.min_spec (a + U) (b + U)) as [[_ ->]|[_ ->]]|].
      + rewrite <- (app_nil_r (q ++ [y])). apply align_app; [exact A1|].
        replace U with (0 + U) at 2 by lia. repeat constructor.
      + rewrite <- (app_nil_r (p ++ [x])). apply align_app; [exact B1|].
        replace U with (0 + U) at 2 by lia. repeat constructor.
      + apply align_app; [exact D1|]. replace (c x y) with (0 + c x y) by lia. repeat constructor.
    - intros k H. apply align_snoc_inv in H.
      destruct H as [(k' & H & ->)|[(k' & H & ->)|(k' & H & ->)]].
      + apply A2 in H. lia.
      + apply B2 in H. lia.
      + apply D2 in H. lia.
  Qed.

  Lemma least_nil_r p : least_cost U c p [] (Z.of_nat (length p) * U).
  Proof. split; [apply align_del_all|]. intros k H. apply align_nil_r in H. lia. Qed.
  Lemma least_nil_l p : least_cost U c [] p (Z.of_nat (length p) * U).
  Proof. split; [apply align_ins_all|]. intros k H. apply align_nil_l in H. lia. Qed.
  Lemma least_unique p q a b : least_cost U c p q a -> least_cost U c p q b -> a = b.
  Proof. intros [A1 A2] [B1 B2]. apply A2 in B1. apply B2 in A1. lia. Qed.

  (** ** The dynamic programme computes the least cost *)
  (** [row] holds the least costs of [p] against all prefixes of [q0 ++ q] that extend [q0] *)
  Fixpoint good_row (p q0 q : list A) (row : list Z) {struct row} : Prop :=
    match row with
    | [] => False
    | v :: row' => least_cost U c p q0 v /\
      match q with [] => row' = [] | y :: q' => good_row p (q0 ++ [y]) q' row' end
    end.

  Lemma lev_row_good p x q q0 prev left :
    good_row p q0 q prev -> least_cost U c (p ++ [x]) q0 left ->
    good_row (p ++ [x]) q0 q (left :: lev_row U c x q prev left).
  Proof.
    revert q0 prev left. induction q as [|y q IH]; intros q0 prev left G L.
    - simpl. destruct prev; simpl; auto.
    - destruct prev as [|p0 prev]; [destruct G|]. destruct G as [G0 G1].
      destruct prev as [|p1 prev]; [destruct G1|].
      assert (P1 : least_cost U c p (q0 ++ [y]) p1) by (destruct q; destruct G1 as [X _]; exact X).
      cbn [lev_row]. split; [exact L|].
      apply IH; [exact G1|]. apply least_snoc; assumption.
  Qed.

  Lemma lev_rows_good s1 s2 p row :
    good_row p [] s2 row -> good_row (p ++ s1) [] s2 (lev_rows U c (length p) s1 s2 row).
  Proof.
    revert p row. induction s1 as [|x s1 IH]; intros p row G; cbn [lev_rows].
    - rewrite app_nil_r. exact G.
    - replace (p ++ x :: s1) with ((p ++ [x]) ++ s1) by (rewrite <- app_assoc; reflexivity).
      assert (EL : (length p + 1)%nat = length (p ++ [x])) by (rewrite app_length; reflexivity).
      rewrite EL. apply IH.
      apply lev_row_good; [exact G|apply least_nil_r].
  Qed.

  Lemma init_row_good q q0 : good_row [] q0 q (map (fun j => Z.of_nat j * U) (seq (length q0) (length q + 1))).
  Proof.
    revert q0; induction q as [|y q IH]; intros q0; cbn [length plus seq map good_row].
    - split; [apply least_nil_l|reflexivity].
    - split; [apply least_nil_l|]. specialize (IH (q0 ++ [y])).
      replace (length (q0 ++ [y])) with (S (length q0)) in IH by (rewrite app_length; simpl; lia). exact IH.
  Qed.

  Lemma good_row_last p q q0 row : good_row p q0 q row -> least_cost U c p (q0 ++ q) (last row 0).
  Proof.
    revert q0 row; induction q as [|y q IH]; intros q0 row G; destruct row as [|v row]; try (destruct G; fail).
    - destruct G as [G ->]. rewrite app_nil_r. exact G.
    - destruct G as [_ G]. destruct row as [|v2 row]; [destruct q; destruct G|].
      specialize (IH _ _ G). rewrite <- app_assoc in IH. exact IH.
  Qed.

  Lemma lev_core_least s1 s2 : least_cost U c s1 s2 (lev_core U c s1 s2).
  Proof.
    unfold lev_core. destruct s2 as [|y s2]; [apply least_nil_r|].
    pose proof (init_row_good (y :: s2) []) as G. cbn [length] in G.
    apply (lev_rows_good s1 (y :: s2) []) in G. apply (good_row_last s1 (y :: s2) []). exact G.
  Qed.
End Align.

Lemma align_sym {A} U (c c' : A -> A -> Z) s t k : (forall x y, c x y = c' y x) -> align U c s t k -> align U c' t s k.
Proof.
  intros E. induction 1 as [|x s t k H IH|y s t k H IH|x y s t k H IH]; try (constructor; exact IH).
  rewrite E. constructor. exact IH.
Qed.
Lemma least_sym {A} U (c c' : A -> A -> Z) s t k : (forall x y, c x y = c' y x) -> least_cost U c s t k -> least_cost U c' t s k.
Proof.
  intros E [A1 A2]. split; [eapply align_sym; eauto|]. intros k' H.
  apply A2. eapply align_sym; [|exact H]. intros; symmetry; apply E.
Qed.

Lemma align_ext {A} U (c c' : A -> A -> Z) s t k : (forall x y, c x y = c' x y) -> align U c s t k -> align U c' s t k.
Proof.
  intros E. induction 1 as [|x s t k H IH|y s t k H IH|x y s t k H IH]; try (constructor; exact IH).
  rewrite E. constructor. exact IH.
Qed.
Lemma least_ext {A} U (c c' : A -> A -> Z) s t k : (forall x y, c x y = c' x y) -> least_cost U c s t k -> least_cost U c' s t k.
Proof.
  intros E [A1 A2]. split; [eapply align_ext; eauto|]. intros k' H. apply A2. eapply align_ext; [|exact H]; auto.
Qed.

(** ** Metric properties of least costs *)
Section Metric.
  Context {A : Type}.
  Variable U : Z.
  Variable c : A -> A -> Z.
  Hypothesis Upos : 0 < U.
  Hypothesis c0 : forall x, c x x = 0.
  Hypothesis cpos : forall x y, x <> y -> 0 < c x y.
  Hypothesis cbound : forall x y, c x y <= U.
  Hypothesis ctri : forall x y z, c x z <= c x y + c y z.

  Lemma cnonneg x y : 0 <= c x y.
  Proof. pose proof (ctri x y x) as T. pose proof (ctri y x y) as T2. rewrite c0 in T, T2.
    (* c x y + c y x >= 0; use positivity classically avoided: both cases *)
    destruct (Z_lt_le_dec (c x y) 0) as [H|H]; [|exact H].
    exfalso. assert (N : ~ x <> y) by (intro X; apply cpos in X; lia).
    assert (x = y -> False) by (intros ->; rewrite c0 in H; lia). apply N. assumption.
  Qed.

  Lemma align_refl s : align U c s s 0.
  Proof. induction s as [|x s IH]; [constructor|]. replace 0 with (0 + c x x) by (rewrite c0; reflexivity). constructor; exact IH. Qed.

  Lemma align_nonneg s t k : align U c s t k -> 0 <= k.
  Proof. induction 1 as [|x s t k H IH|y s t k H IH|x y s t k H IH]; try lia. pose proof (cnonneg x y). lia. Qed.

  Lemma align_zero_eq (dec : forall x y : A, {x = y} + {x <> y}) s t k : align U c s t k -> k = 0 -> s = t.
  Proof.
    induction 1 as [|x s t k H IH|y s t k H IH|x y s t k H IH]; intros E.
    - reflexivity.
    - apply align_nonneg in H. lia.
    - apply align_nonneg in H. lia.
    - pose proof (align_nonneg _ _ _ H). pose proof (cnonneg x y).
      destruct (dec x y) as [->|N]; [|apply cpos in N; lia]. rewrite IH by lia. reflexivity.
  Qed.

  Lemma align_trans s t k1 : align U c s t k1 -> forall v k2, align U c t v k2 -> exists k, align U c s v k /\ k <= k1 + k2.
  Proof.
    induction 1 as [|x s t k H IH|y s t k H IH|x y s t k H IH]; intros v k2 H2.
    - exists k2. split; [exact H2|lia].
    - destruct (IH v k2 H2) as (k' & H' & L). exists (k' + U). split; [constructor; exact H'|lia].
    - (* y inserted in t *)
      remember (y :: t) as t' eqn:Et. induction H2 as [|x' s' v' k' H' IH'|y' s' v' k' H' IH'|x' y' s' v' k' H' IH'].
      + discriminate.
      + injection Et as -> ->. destruct (IH _ _ H') as (k'' & H'' & L). exists k''. split; [exact H''|lia].
      + destruct (IH' Et) as (k'' & H'' & L). exists (k'' + U). split; [constructor; exact H''|lia].
      + injection Et as -> ->. destruct (IH _ _ H') as (k'' & H'' & L). exists (k'' + U). split; [constructor; exact H''|].
        pose proof (cnonneg y y'). lia.
    - remember (y :: t) as t' eqn:Et. induction H2 as [|x' s' v' k' H' IH'|y' s' v' k' H' IH'|x' y' s' v' k' H' IH'].
      + discriminate.
      + injection Et as -> ->. destruct (IH _ _ H') as (k'' & H'' & L). exists (k'' + U). split; [constructor; exact H''|].
        pose proof (cnonneg x y). lia.
      + destruct (IH' Et) as (k'' & H'' & L). exists (k'' + U). split; [constructor; exact H''|lia].
      + injection Et as -> ->. destruct (IH _ _ H') as (k'' & H'' & L). exists (k'' + c x y'). split; [constructor; exact H''|].
        pose proof (ctri x y y'). lia.
  Qed.

  Lemma align_len s t k : align U c s t k -> Z.abs (Z.of_nat (length s) - Z.of_nat (length t)) * U <= k.
  Proof.
    induction 1 as [|x s t k H IH|y s t k H IH|x y s t k H IH]; simpl length.
    - simpl. lia.
    - nia.
    - nia.
    - pose proof (cnonneg x y). nia.
  Qed.

  Lemma align_upper s t : exists k, align U c s t k /\ k <= Z.of_nat (Nat.max (length s) (length t)) * U.
  Proof.
    revert t; induction s as [|x s IH]; intros t.
    - exists (Z.of_nat (length t) * U). split; [apply align_ins_all|simpl; lia].
    - destruct t as [|y t].
      + exists (Z.of_nat (length (x :: s)) * U). split; [apply align_del_all|simpl; lia].
      + destruct (IH t) as (k & H & L). exists (k + c x y). split; [constructor; exact H|].
        pose proof (cbound x y). simpl length. rewrite <- Nat.succ_max_distr. nia.
  Qed.

  Lemma least_metric_zero s : least_cost U c s s 0.
  Proof. split; [apply align_refl|]. intros k H; apply align_nonneg in H; lia. Qed.
End Metric.

(** a smaller substitution cost gives a smaller distance *)
Lemma align_mono {A} U (c c' : A -> A -> Z) s t k : (forall x y, c' x y <= c x y) -> align U c s t k -> exists k', align U c' s t k' /\ k' <= k.
Proof.
  intros E. induction 1 as [|x s t k H (k' & IH & L)|y s t k H (k' & IH & L)|x y s t k H (k' & IH & L)].
  - exists 0. split; [constructor|lia].
  - exists (k' + U). split; [constructor; exact IH|lia].
  - exists (k' + U). split; [constructor; exact IH|lia].
  - exists (k' + c' x y). split; [constructor; exact IH|]. pose proof (E x y). lia.
Qed.
Lemma align_scale {A} m U (c : A -> A -> Z) s t k : align U c s t k -> align (m * U) (fun x y => m * c x y) s t (m * k).
Proof.
  induction 1 as [|x s t k H IH|y s t k H IH|x y s t k H IH].
  - rewrite Z.mul_0_r. constructor.
  - rewrite Z.mul_add_distr_l. constructor; exact IH.
  - rewrite Z.mul_add_distr_l. constructor; exact IH.
  - rewrite Z.mul_add_distr_l. apply (al_sub _ (fun x y => m * c x y)). exact IH.
Qed.

(** ** levenshtein *)
Section Lev.
  Context {A : Type} `{EqB A}.
  Implicit Types s t : list A.

  Lemma get_cost_unit x y : get_cost 1 ([] : dict (A*A) Z) x y = unit_cost x y.
  Proof. reflexivity. Qed.
  Lemma unit_sym (x y : A) : unit_cost x y = unit_cost y x.
  Proof. unfold unit_cost. rewrite eqb_sym. reflexivity. Qed.

  Lemma levenshtein_least s t : least_cost 1 unit_cost s t (levenshtein s t).
  Proof.
    unfold levenshtein, levenshtein_u. destruct (length s <? length t)%nat.
    - eapply least_sym; [|apply lev_core_least]. intros; apply unit_sym.
    - apply lev_core_least.
  Qed.

  Lemma unit0 (x : A) : unit_cost x x = 0.
  Proof. unfold unit_cost. rewrite eqb_refl. reflexivity. Qed.
  Lemma unit_pos (x y : A) : x <> y -> 0 < unit_cost x y.
  Proof. intros N. unfold unit_cost. apply eqb_neq in N. rewrite N. lia. Qed.
  Lemma unit_bound (x y : A) : unit_cost x y <= 1.
  Proof. unfold unit_cost. destruct (eqb x y); lia. Qed.
  Lemma unit_tri (x y z : A) : unit_cost x z <= unit_cost x y + unit_cost y z.
  Proof.
    unfold unit_cost. destruct (eqb_spec x y), (eqb_spec y z), (eqb_spec x z); subst; try congruence; lia.
  Qed.

  Lemma levenshtein_zero_iff s t : levenshtein s t = 0 <-> s = t.
  Proof.
    destruct (levenshtein_least s t) as [A1 A2]. split.
    - intros E. exact (align_zero_eq 1 unit_cost ltac:(lia) unit0 unit_pos unit_bound unit_tri eq_dec_of s t _ A1 E).
    - intros ->. eapply (least_unique 1 unit_cost t t); [apply levenshtein_least|].
      apply least_metric_zero; auto using unit0, unit_pos, unit_bound, unit_tri. lia.
  Qed.
  Lemma levenshtein_sym s t : levenshtein s t = levenshtein t s.
  Proof.
    eapply (least_unique 1 unit_cost s t); [apply levenshtein_least|].
    eapply least_sym; [|apply levenshtein_least]. intros; apply unit_sym.
  Qed.
  Lemma levenshtein_tri s t v : levenshtein s v <= levenshtein s t + levenshtein t v.
  Proof.
    destruct (levenshtein_least s t) as [A1 _]. destruct (levenshtein_least t v) as [B1 _].
    destruct (align_trans 1 unit_cost ltac:(lia) unit0 unit_pos unit_bound unit_tri s t _ A1 v _ B1) as (k & K & L).
    destruct (levenshtein_least s v) as [_ C2]. apply C2 in K. lia.
  Qed.
  Lemma levenshtein_bounds s t :
    Z.abs (Z.of_nat (length s) - Z.of_nat (length t)) <= levenshtein s t <= Z.of_nat (Nat.max (length s) (length t)).
  Proof.
    destruct (levenshtein_least s t) as [A1 A2]. split.
    - apply (align_len 1 unit_cost) in A1; auto using unit0, unit_pos, unit_bound, unit_tri; try reflexivity. lia.
    - assert (X : exists k, align 1 unit_cost s t k /\ k <= Z.of_nat (Nat.max (length s) (length t)) * 1)
        by (apply align_upper; auto using unit0, unit_pos, unit_bound, unit_tri; reflexivity).
      destruct X as (k & K & L). apply A2 in K. lia.
  Qed.
End Lev.

(** custom costs *)
Section Custom.
  Context {A : Type} `{EqB A}.
  Lemma levenshtein_custom U (s t : list A) cost : (length t <= length s)%nat ->
    least_cost U (fun x y => if eqb x y then 0 else match dget cost (x, y) with Some v => v | None => U end) s t
      (levenshtein_u U s t cost).
  Proof.
    intros L. unfold levenshtein_u. replace (length s <? length t)%nat with false by (symmetry; apply Nat.ltb_ge; exact L).
    apply lev_core_least.
  Qed.
  Lemma levenshtein_custom_ignored U (s t : list A) cost : (length s < length t)%nat ->
    least_cost U (fun x y => if eqb x y then 0 else U) s t (levenshtein_u U s t cost).
  Proof.
    intros L. unfold levenshtein_u. replace (length s <? length t)%nat with true by (symmetry; apply Nat.ltb_lt; exact L).
    eapply least_sym; [|apply lev_core_least]. intros x y. unfold get_cost, dgetd. simpl. rewrite eqb_sym. reflexivity.
  Qed.
End Custom.

(** ** jamo_levenshtein *)
Lemma triple_inj t1 t2 : triple_list t1 = triple_list t2 -> t1 = t2.
Proof. destruct t1 as [[a b] c], t2 as [[d e] f]. simpl. congruence. Qed.

Lemma triple_len t : length (triple_list t) = 3%nat.
Proof. destruct t as [[a b] c]. reflexivity. Qed.

Lemma jcost_sym x y : get_jamo_cost x y = get_jamo_cost y x.
Proof.
  unfold get_jamo_cost. rewrite N.eqb_sym. destruct (N.eqb y x); [reflexivity|].
  destruct (decompose x), (decompose y); try reflexivity. apply levenshtein_sym.
Qed.
Lemma jcost0 x : get_jamo_cost x x = 0.
Proof. unfold get_jamo_cost. rewrite N.eqb_refl. reflexivity. Qed.
Lemma lev_triple_bounds t1 t2 : 0 <= levenshtein (triple_list t1) (triple_list t2) <= 3.
Proof.
  pose proof (levenshtein_bounds (triple_list t1) (triple_list t2)) as B. rewrite !triple_len in B. simpl in B. lia.
Qed.
Lemma jcost_pos x y : x <> y -> 0 < get_jamo_cost x y.
Proof.
  intros N. unfold get_jamo_cost. apply N.eqb_neq in N as E. rewrite E.
  destruct (decompose x) as [t1|] eqn:D1, (decompose y) as [t2|] eqn:D2; try lia.
  pose proof (lev_triple_bounds t1 t2).
  assert (levenshtein (triple_list t1) (triple_list t2) <> 0); [|lia].
  intros Z0. apply levenshtein_zero_iff in Z0. apply triple_inj in Z0. subst. apply N.
  eapply decompose_inj; eauto.
Qed.
Lemma jcost_bound x y : get_jamo_cost x y <= 3.
Proof.
  unfold get_jamo_cost. destruct (N.eqb x y); [lia|].
  destruct (decompose x) as [t1|], (decompose y) as [t2|]; try lia. apply lev_triple_bounds.
Qed.
Lemma jcost_nonneg x y : 0 <= get_jamo_cost x y.
Proof.
  unfold get_jamo_cost. destruct (N.eqb x y); [lia|].
  destruct (decompose x) as [t1|], (decompose y) as [t2|]; try lia. apply lev_triple_bounds.
Qed.
Lemma jcost_decomp x y t1 t2 : decompose x = Some t1 -> decompose y = Some t2 ->
  get_jamo_cost x y = levenshtein (triple_list t1) (triple_list t2).
Proof.
  intros D1 D2. unfold get_jamo_cost. destruct (N.eqb_spec x y) as [->|N].
  - assert (t1 = t2) by congruence. subst. symmetry. apply levenshtein_zero_iff. reflexivity.
  - rewrite D1, D2. reflexivity.
Qed.
Lemma jcost_none_l x y : decompose x = None -> x <> y -> get_jamo_cost x y = 3.
Proof. intros D N. unfold get_jamo_cost. apply N.eqb_neq in N. rewrite N, D. reflexivity. Qed.
Lemma jcost_none_r x y : decompose y = None -> x <> y -> get_jamo_cost x y = 3.
Proof. intros D N. rewrite jcost_sym. apply jcost_none_l; congruence. Qed.

Lemma jcost_tri x y z : get_jamo_cost x z <= get_jamo_cost x y + get_jamo_cost y z.
Proof.
  destruct (N.eq_dec x y) as [->|Nxy]; [pose proof (jcost_nonneg y y); lia|].
  destruct (N.eq_dec y z) as [->|Nyz]; [pose proof (jcost_nonneg z z); lia|].
  pose proof (jcost_bound x z) as B. pose proof (jcost_nonneg x y). pose proof (jcost_nonneg y z).
  destruct (decompose x) as [tx|] eqn:Dx; [|rewrite (jcost_none_l x y Dx Nxy); lia].
  destruct (decompose y) as [ty|] eqn:Dy; [|rewrite (jcost_none_r x y Dy Nxy); lia].
  destruct (decompose z) as [tz|] eqn:Dz; [|rewrite (jcost_none_r y z Dz Nyz); lia].
  rewrite (jcost_decomp x z tx tz), (jcost_decomp x y tx ty), (jcost_decomp y z ty tz) by assumption.
  apply levenshtein_tri.
Qed.

Lemma jamo_least s t : least_cost 3 get_jamo_cost s t (jamo_levenshtein3 s t).
Proof.
  unfold jamo_levenshtein3. destruct (length s <? length t)%nat.
  - eapply least_sym; [|apply lev_core_least]. intros; apply jcost_sym.
  - apply lev_core_least.
Qed.
Lemma jamo_zero_iff s t : jamo_levenshtein3 s t = 0 <-> s = t.
Proof.
  destruct (jamo_least s t) as [A1 A2]. split.
  - intros E. exact (align_zero_eq 3 get_jamo_cost ltac:(lia) jcost0 jcost_pos jcost_bound jcost_tri N.eq_dec s t _ A1 E).
  - intros ->. eapply (least_unique 3 get_jamo_cost t t); [apply jamo_least|].
    apply least_metric_zero; auto using jcost0, jcost_pos, jcost_bound, jcost_tri. lia.
Qed.
Lemma jamo_sym s t : jamo_levenshtein3 s t = jamo_levenshtein3 t s.
Proof.
  eapply (least_unique 3 get_jamo_cost s t); [apply jamo_least|].
  eapply least_sym; [|apply jamo_least]. intros; apply jcost_sym.
Qed.
Lemma jamo_tri s t v : jamo_levenshtein3 s v <= jamo_levenshtein3 s t + jamo_levenshtein3 t v.
Proof.
  destruct (jamo_least s t) as [A1 _]. destruct (jamo_least t v) as [B1 _].
  destruct (align_trans 3 get_jamo_cost ltac:(lia) jcost0 jcost_pos jcost_bound jcost_tri s t _ A1 v _ B1) as (k & K & L).
  destruct (jamo_least s v) as [_ C2]. apply C2 in K. lia.
Qed.
Lemma jamo_le_lev s t : 0 <= jamo_levenshtein3 s t <= 3 * levenshtein s t.
Proof.
  destruct (jamo_least s t) as [A1 A2]. split.
  - apply (align_nonneg 3 get_jamo_cost) in A1; auto using jcost0, jcost_pos, jcost_bound, jcost_tri. lia.
  - destruct (levenshtein_least s t) as [L _]. apply (align_scale 3) in L.
    apply (align_mono _ _ get_jamo_cost) in L.
    + destruct L as (k & K & Le). apply A2 in K. lia.
    + intros x y. unfold unit_cost. cbn [eqb EqB_N]. destruct (N.eqb_spec x y) as [->|]; [rewrite jcost0; lia|].
      pose proof (jcost_bound x y). lia.
Qed.
