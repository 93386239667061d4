(** * More facts about the stable sort *)
From Verif Require Import PyBase PySort.

Section S.
  Context {A : Type}.
  Variable le : A -> A -> bool.
  Hypothesis le_total : forall x y, le x y = true \/ le y x = true.
  Hypothesis le_trans : forall x y z, le x y = true -> le y z = true -> le x z = true.

  Lemma sort_hd l x : hd_error (sort le l) = Some x -> In x l /\ forall y, In y l -> le x y = true.
  Proof.
    intros H. pose proof (sort_sorted le le_total le_trans l) as S. destruct (sort le l) as [|z t] eqn:E; [discriminate|].
    injection H as ->. split.
    - apply (sort_In le). rewrite E. left; reflexivity.
    - intros y I. apply (sort_In le) in I. rewrite E in I. destruct I as [->|I]; [apply (PySort.le_refl le le_total)|].
      inversion S as [|? ? _ F]. rewrite Forall_forall in F. apply F, I.
  Qed.
  Lemma sort_hd_some l : l <> [] -> exists x, hd_error (sort le l) = Some x.
  Proof.
    intros N. destruct (sort le l) as [|x t] eqn:E; [|exists x; reflexivity].
    exfalso. apply N. apply length_zero_iff_nil. rewrite <- (sort_length le), E. reflexivity.
  Qed.

  (** two sorted lists that agree on every class of equivalent elements are equal *)
  Lemma stable_unique l1 : forall l2, sorted_le le l1 -> sorted_le le l2 ->
    (forall k, filter (equivb le k) l1 = filter (equivb le k) l2) -> l1 = l2.
  Proof.
    assert (R : forall x, equivb le x x = true) by (intros x; unfold equivb; rewrite (PySort.le_refl le le_total); reflexivity).
    induction l1 as [|x l1 IH]; intros l2 S1 S2 F.
    - destruct l2 as [|y l2]; [reflexivity|]. specialize (F y). simpl in F. rewrite R in F. discriminate.
    - destruct l2 as [|y l2]. { specialize (F x). simpl in F. rewrite R in F. discriminate. }
      assert (Ex : equivb le x y = true).
      { assert (Ix : In x (y :: l2)). { assert (I : In x (filter (equivb le x) (x :: l1))) by (simpl; rewrite R; left; reflexivity). rewrite F in I. apply filter_In in I. apply I. }
        assert (Iy : In y (x :: l1)). { assert (I : In y (filter (equivb le y) (y :: l2))) by (simpl; rewrite R; left; reflexivity). rewrite <- F in I. apply filter_In in I. apply I. }
        inversion S1 as [|? ? _ F1]; inversion S2 as [|? ? _ F2]; subst. rewrite Forall_forall in F1, F2.
        unfold equivb. apply andb_true_iff. split.
        - destruct Iy as [->|Iy]; [apply (PySort.le_refl le le_total)|apply F1, Iy].
        - destruct Ix as [->|Ix]; [apply (PySort.le_refl le le_total)|apply F2, Ix]. }
      assert (E : x = y). { specialize (F x). simpl in F. rewrite R, Ex in F. congruence. }
      subst y. f_equal. inversion S1; inversion S2; subst. apply IH; auto.
      intros k. specialize (F k). simpl in F. destruct (equivb le k x); congruence.
  Qed.

  Lemma sort_unique l l' : sorted_le le l' -> (forall k, filter (equivb le k) l = filter (equivb le k) l') -> sort le l = l'.
  Proof.
    intros S F. apply stable_unique; [apply sort_sorted; assumption|exact S|]. intros k. rewrite sort_stable by assumption. apply F.
  Qed.
End S.

Lemma StronglySorted_impl {A} (R1 R2 : A -> A -> Prop) l : (forall x y, R1 x y -> R2 x y) -> StronglySorted R1 l -> StronglySorted R2 l.
Proof. intros I S. induction S as [|x l S IH F]; constructor; auto. eapply Forall_impl; [|exact F]. auto. Qed.

(** sorting by a natural number key *)
Section Key.
  Context {A : Type}.
  Variable key : A -> nat.
  Definition le_key (x y : A) : bool := key x <=? key y.
  Lemma le_key_total x y : le_key x y = true \/ le_key y x = true.
  Proof. unfold le_key. rewrite !Nat.leb_le. lia. Qed.
  Lemma le_key_trans x y z : le_key x y = true -> le_key y z = true -> le_key x z = true.
  Proof. unfold le_key. rewrite !Nat.leb_le. lia. Qed.
  Lemma sort_key_strict l l' : StronglySorted (fun x y => key x < key y) l' -> Permutation l l' -> sort le_key l = l'.
  Proof.
    intros S P. symmetry. apply (sorted_unique (fun x y => key x <= key y)).
    - intros x y Ix Iy H1 H2. assert (E : key x = key y) by lia. clear H1 H2. clear P. induction S as [|z t S IH F]; [destruct Ix|].
      rewrite Forall_forall in F. destruct Ix as [->|Ix], Iy as [->|Iy]; auto.
      + specialize (F _ Iy). lia.
      + specialize (F _ Ix). lia.
    - eapply StronglySorted_impl; [|exact S]. intros; cbv beta in *; lia.
    - eapply StronglySorted_impl; [|apply sort_sorted; [apply le_key_total|apply le_key_trans]]. intros x y H. apply Nat.leb_le, H.
    - rewrite sort_perm. symmetry. exact P.
  Qed.
End Key.

Lemma SS_app {A} (R : A -> A -> Prop) l1 l2 : StronglySorted R l1 -> StronglySorted R l2 ->
  (forall x y, In x l1 -> In y l2 -> R x y) -> StronglySorted R (l1 ++ l2).
Proof.
  intros S1 S2 H. induction S1 as [|x l1 S1 IH F]; [exact S2|]. simpl. constructor.
  - apply IH. intros; apply H; [right; assumption|assumption].
  - apply Forall_app. split; [exact F|]. apply Forall_forall. intros y I. apply H; [left; reflexivity|exact I].
Qed.
Lemma SS_app_inv {A} (R : A -> A -> Prop) l1 l2 : StronglySorted R (l1 ++ l2) -> StronglySorted R l1 /\ StronglySorted R l2 /\ (forall x y, In x l1 -> In y l2 -> R x y).
Proof.
  induction l1 as [|x l1 IH]; simpl; intros S.
  - split; [constructor|]. split; [exact S|]. intros x y [].
  - inversion S as [|? ? S' F]; subst. destruct (IH S') as (A1 & A2 & A3). apply Forall_app in F as [F1 F2]. split; [constructor; assumption|].
    split; [exact A2|]. intros a b [<-|I] J; [rewrite Forall_forall in F2; apply F2, J|apply A3; assumption].
Qed.
Lemma SS_filter {A} (R : A -> A -> Prop) f l : StronglySorted R l -> StronglySorted R (filter f l).
Proof.
  induction 1 as [|x l S IH F]; simpl; [constructor|]. destruct (f x); [|exact IH]. constructor; [exact IH|].
  apply Forall_forall. intros y I. apply filter_In in I as [I _]. rewrite Forall_forall in F. apply F, I.
Qed.

(** sorting a list that consists of blocks of equal keys, with different keys for different blocks *)
Section Blocks.
  Context {A : Type}.
  Variable key : A -> nat.
  Definition block := (nat * list A)%type.
  Definition block_ok (b : block) : Prop := Forall (fun x => key x = fst b) (snd b).
  Definition flat (bs : list block) : list A := flat_map snd bs.

  Lemma filter_block κ (b : block) : block_ok b -> fst b <> κ -> filter (fun x => key x =? κ) (snd b) = [].
  Proof.
    destruct b as [k l]. unfold block_ok. simpl. intros F N. induction F as [|x l Hx F IH]; simpl; [reflexivity|].
    destruct (Nat.eqb_spec (key x) κ); [congruence|exact IH].
  Qed.
  Lemma filter_flat κ bs : filter (fun x => key x =? κ) (flat bs) = flat_map (fun b : block => filter (fun x => key x =? κ) (snd b)) bs.
  Proof. induction bs as [|b bs IH]; simpl; [reflexivity|]. unfold flat in *. simpl. rewrite filter_app, IH. reflexivity. Qed.
  Lemma blocks_perm κ bs bs' : Permutation bs bs' -> Forall block_ok bs -> NoDup (map fst bs) ->
    filter (fun x => key x =? κ) (flat bs) = filter (fun x => key x =? κ) (flat bs').
  Proof.
    intros P. rewrite !filter_flat. induction P as [|b bs bs' P IH|b c bs|b1 b2 b3 P1 IH1 P2 IH2]; intros F ND; simpl; auto.
    - inversion F; inversion ND; subst. rewrite IH by assumption. reflexivity.
    - inversion F as [|? ? Fc F']; inversion F' as [|? ? Fb F'']; subst. rewrite !app_assoc. f_equal.
      destruct (Nat.eq_dec (fst c) κ) as [E|E].
      + rewrite (filter_block κ b Fb); [rewrite app_nil_r; reflexivity|]. simpl in ND. inversion ND as [|? ? NI _]; subst. simpl in NI. intros E'. apply NI. left. congruence.
      + rewrite (filter_block κ c Fc E). rewrite app_nil_r. reflexivity.
    - rewrite IH1 by assumption. apply IH2; [eapply Permutation_Forall; eassumption|].
      eapply Permutation_NoDup; [|exact ND]. apply Permutation_map, P1.
  Qed.
  Lemma flat_sorted bs : Forall block_ok bs -> StronglySorted (fun b c : block => fst b < fst c) bs ->
    StronglySorted (fun x y => key x <= key y) (flat bs).
  Proof.
    intros F S. induction S as [|b bs S IH H]; [constructor|]. inversion F as [|? ? Fb F']; subst. unfold flat in *. simpl. apply SS_app.
    - unfold block_ok in Fb. clear - Fb. induction Fb as [|x l Hx Fb IH]; constructor; [exact IH|]. eapply Forall_impl; [|exact Fb]. simpl. intros; lia.
    - apply IH, F'.
    - intros x y Ix Iy. apply in_flat_map in Iy as (c & Ic & Iy). rewrite Forall_forall in H, F'. specialize (H _ Ic). specialize (F' _ Ic).
      unfold block_ok in *. rewrite Forall_forall in Fb, F'. rewrite (Fb _ Ix), (F' _ Iy). lia.
  Qed.
  Lemma SS_lt_NoDup (bs : list block) : StronglySorted (fun b c : block => fst b < fst c) bs -> NoDup (map fst bs).
  Proof.
    induction 1 as [|b bs S IH H]; simpl; constructor; [|exact IH]. intros I. apply in_map_iff in I as (c & E & I). rewrite Forall_forall in H. specialize (H _ I). lia.
  Qed.
  Lemma sort_blocks bs bs' l : l = flat bs -> Permutation bs bs' -> Forall block_ok bs ->
    StronglySorted (fun b c : block => fst b < fst c) bs' -> sort (le_key key) l = flat bs'.
  Proof.
    intros -> P F S. apply sort_unique.
    - apply le_key_total.
    - apply le_key_trans.
    - eapply StronglySorted_impl; [|apply flat_sorted; [eapply Permutation_Forall; eassumption|exact S]]. intros x y H. apply Nat.leb_le, H.
    - intros k. assert (E : forall m, filter (equivb (le_key key) k) m = filter (fun x => key x =? key k) m).
      { intros m. apply filter_ext. intros x. unfold equivb, le_key. apply eq_true_iff_eq. rewrite andb_true_iff, !Nat.leb_le, Nat.eqb_eq. lia. }
      rewrite !E. apply blocks_perm; [exact P|exact F|].
      eapply Permutation_NoDup; [apply Permutation_map, Permutation_sym, P|]. apply SS_lt_NoDup, S.
  Qed.
End Blocks.
