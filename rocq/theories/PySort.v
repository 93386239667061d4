(** * PySort: [sorted] as a stable insertion sort. *)
From Verif Require Import PyBase.
From Coq Require Export Permutation Sorting.Sorted.

Section Sort.
  Context {A : Type}.
  Variable le : A -> A -> bool.

  Fixpoint insert (x : A) (l : list A) : list A :=
    match l with
    | [] => [x]
    | y :: l' => if le x y then x :: y :: l' else y :: insert x l'
    end.
  (** [sorted(l, key=k)] with [le x y := k x <= k y]; equal keys keep their order.
      [sorted(l, key=k, reverse=True)] is [sort] with [le x y := k y <= k x]. *)
  Fixpoint sort (l : list A) : list A :=
    match l with [] => [] | x :: l' => insert x (sort l') end.

  Lemma insert_perm x l : Permutation (insert x l) (x :: l).
  Proof.
    induction l as [|y l IH]; simpl; [reflexivity|].
    destruct (le x y); [reflexivity|]. rewrite IH. apply perm_swap.
  Qed.
  Lemma sort_perm l : Permutation (sort l) l.
  Proof. induction l as [|x l IH]; simpl; [reflexivity|]. rewrite insert_perm, IH. reflexivity. Qed.
  Lemma sort_In x l : In x (sort l) <-> In x l.
  Proof.
    split; intro I; eapply Permutation_in; try exact I; [apply sort_perm|apply Permutation_sym, sort_perm].
  Qed.
  Lemma sort_length l : length (sort l) = length l.
  Proof. apply Permutation_length, sort_perm. Qed.

  Hypothesis le_total : forall x y, le x y = true \/ le y x = true.
  Hypothesis le_trans : forall x y z, le x y = true -> le y z = true -> le x z = true.

  Definition sorted_le := StronglySorted (fun x y => le x y = true).

  Lemma insert_sorted x l : sorted_le l -> sorted_le (insert x l).
  Proof.
    unfold sorted_le. induction l as [|y l IH]; simpl; intros S.
    - repeat constructor.
    - inversion S as [|? ? S' F]; subst. destruct (le x y) eqn:E.
      + constructor; [exact S|]. constructor; [exact E|].
        eapply Forall_impl; [|exact F]. intros z Hz. eapply le_trans; eauto.
      + constructor; [auto|].
        assert (Hyx : le y x = true) by (destruct (le_total x y); congruence).
        eapply Permutation_Forall; [apply Permutation_sym, insert_perm|]. constructor; auto.
  Qed.
  Lemma sort_sorted l : sorted_le (sort l).
  Proof. induction l as [|x l IH]; simpl; [constructor|apply insert_sorted, IH]. Qed.

  (** Stability: elements equivalent to [k] keep their relative order. *)
  Definition equivb x y := le x y && le y x.

  Lemma insert_filter_eq k x l : equivb k x = true -> sorted_le l ->
    filter (equivb k) (insert x l) = x :: filter (equivb k) l.
  Proof.
    intros Hk S. induction l as [|y l IH]; simpl; [rewrite Hk; reflexivity|].
    inversion S as [|? ? S' F]; subst.
    destruct (le x y) eqn:E; simpl; [rewrite Hk; reflexivity|].
    rewrite IH by exact S'.
    destruct (equivb k y) eqn:Ey; [|reflexivity].
    unfold equivb in *. apply andb_true_iff in Hk, Ey. destruct Hk as [K1 K2], Ey as [Y1 Y2].
    assert (le x y = true) by (eapply le_trans; eauto). congruence.
  Qed.
  Lemma insert_filter_neq k x l : equivb k x = false ->
    filter (equivb k) (insert x l) = filter (equivb k) l.
  Proof.
    intros Hk. induction l as [|y l IH]; simpl; [rewrite Hk; reflexivity|].
    destruct (le x y); simpl; [rewrite Hk; reflexivity|]. rewrite IH. reflexivity.
  Qed.
  Lemma sort_stable k l : filter (equivb k) (sort l) = filter (equivb k) l.
  Proof.
    induction l as [|x l IH]; simpl; [reflexivity|].
    destruct (equivb k x) eqn:E.
    - rewrite insert_filter_eq by (auto using sort_sorted). rewrite IH. reflexivity.
    - rewrite insert_filter_neq by exact E. exact IH.
  Qed.

  Lemma le_refl x : le x x = true.
  Proof. destruct (le_total x x); assumption. Qed.

  (** A sorted list is not changed. *)
  Lemma sort_id l : sorted_le l -> sort l = l.
  Proof.
    induction l as [|x l IH]; simpl; intros S; [reflexivity|].
    inversion S as [|? ? S' F]; subst. rewrite IH by exact S'.
    destruct l as [|y l]; simpl; [reflexivity|].
    inversion F as [|? ? Hy ?]; subst. rewrite Hy. reflexivity.
  Qed.
End Sort.

(** Uniqueness: a permutation of [l] sorted for an antisymmetric order (on the
    elements of [l]) is unique. *)
Lemma sorted_unique {A} (R : A -> A -> Prop) (l1 l2 : list A) :
  (forall x y, In x l1 -> In y l1 -> R x y -> R y x -> x = y) ->
  StronglySorted R l1 -> StronglySorted R l2 -> Permutation l1 l2 -> l1 = l2.
Proof.
  revert l2; induction l1 as [|x l1 IH]; intros l2 AS S1 S2 P.
  - apply Permutation_nil in P. congruence.
  - destruct l2 as [|y l2]; [apply Permutation_sym, Permutation_nil in P; discriminate|].
    inversion S1 as [|? ? S1' F1]; inversion S2 as [|? ? S2' F2]; subst.
    assert (E : x = y).
    { assert (Ix : In x (y :: l2)) by (eapply Permutation_in; [exact P|left; reflexivity]).
      assert (Iy : In y (x :: l1)) by (eapply Permutation_in; [apply Permutation_sym, P|left; reflexivity]).
      destruct Ix as [->|Ix]; [reflexivity|]. destruct Iy as [->|Iy]; [reflexivity|].
      apply AS; [left; reflexivity|right; exact Iy| |].
      - rewrite Forall_forall in F1. apply F1; exact Iy.
      - rewrite Forall_forall in F2. apply F2; exact Ix. }
    subst y. f_equal. apply IH; auto.
    + intros; apply AS; auto; right; assumption.
    + apply Permutation_cons_inv in P. exact P.
Qed.
