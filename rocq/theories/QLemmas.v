(** * Boolean comparison of rationals *)
From Coq Require Import QArith Lqa.
From Verif Require Import PyBase TokenizerModel.
Open Scope nat_scope.

Lemma qltb_true x y : qltb x y = true <-> (x < y)%Q.
Proof.
  unfold qltb. rewrite negb_true_iff. split; intros H.
  - apply Qnot_le_lt. intros L. apply Qle_bool_iff in L. congruence.
  - apply not_true_is_false. rewrite Qle_bool_iff. apply Qlt_not_le, H.
Qed.
Lemma qltb_false x y : qltb x y = false <-> (y <= x)%Q.
Proof. unfold qltb. rewrite negb_false_iff. apply Qle_bool_iff. Qed.
Lemma qleb_false x y : Qle_bool x y = false <-> (y < x)%Q.
Proof. rewrite <- qltb_true. unfold qltb. rewrite negb_true_iff. reflexivity. Qed.
Lemma qeqb_false x y : Qeq_bool x y = false <-> ~ (x == y)%Q.
Proof. rewrite <- Qeq_bool_iff. destruct (Qeq_bool x y); split; congruence. Qed.

(** reduce goals about boolean comparisons to linear arithmetic *)
Ltac qb := repeat progress rewrite ?orb_true_iff, ?andb_true_iff, ?orb_false_iff, ?andb_false_iff, ?qltb_true, ?qltb_false, ?Qle_bool_iff, ?qleb_false, ?Qeq_bool_iff, ?qeqb_false,
  ?Nat.leb_le, ?Nat.ltb_lt, ?Nat.eqb_eq, ?Nat.leb_gt, ?Nat.ltb_ge in *.

Lemma Qtri x y : (x < y)%Q \/ (x == y)%Q \/ (y < x)%Q.
Proof. destruct (Qlt_le_dec x y) as [|H]; [auto|]. destruct (Qlt_le_dec y x); [auto|]. right; left. apply Qle_antisym; assumption. Qed.

Lemma qmax_spec l d : (In (qmax l d) (d :: l)) /\ forall x, In x (d :: l) -> (x <= qmax l d)%Q.
Proof.
  induction l as [|y l [IH1 IH2]]; simpl.
  - split; [auto|]. intros x [->|[]]. apply Qle_refl.
  - fold (qmax l d). destruct (Qle_bool (qmax l d) y) eqn:E; qb.
    + split; [auto|]. intros x [->|[->|I]].
      * eapply Qle_trans; [apply IH2; left; reflexivity|exact E].
      * apply Qle_refl.
      * eapply Qle_trans; [apply IH2; right; exact I|exact E].
    + split; [simpl in IH1; tauto|]. intros x [->|[->|I]].
      * apply IH2; left; reflexivity.
      * apply Qlt_le_weak, E.
      * apply IH2; right; exact I.
Qed.
