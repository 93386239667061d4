(** Counting dictionaries and finite sums (library lemmas). *)
From Verif Require Import PyBase PyDict.
From Coq Require Import Permutation.
Open Scope Z_scope.

(** [d\[k\] = d.get(k, 0) + v] *)
Definition dincr {K} `{EqB K} (d : dict K Z) (k : K) (v : Z) : dict K Z := dset d k (dgetd d k 0 + v).

Fixpoint Zsum {A} (f : A -> Z) (l : list A) : Z :=
  match l with [] => 0 | x :: l' => f x + Zsum f l' end.

Lemma Zsum_app {A} (f : A -> Z) l1 l2 : Zsum f (l1 ++ l2) = Zsum f l1 + Zsum f l2.
Proof. induction l1 as [|x l1 IH]; simpl; [lia|]. rewrite IH. lia. Qed.
Lemma Zsum_perm {A} (f : A -> Z) l1 l2 : Permutation l1 l2 -> Zsum f l1 = Zsum f l2.
Proof. induction 1; simpl; lia. Qed.
Lemma Zsum_ext {A} (f g : A -> Z) l : (forall x, In x l -> f x = g x) -> Zsum f l = Zsum g l.
Proof.
  induction l as [|x l IH]; intros E; simpl; [reflexivity|].
  rewrite (E x (or_introl eq_refl)), IH; [reflexivity|]. intros; apply E; right; assumption.
Qed.
Lemma Zsum_map {A B} (f : B -> Z) (g : A -> B) l : Zsum f (map g l) = Zsum (fun x => f (g x)) l.
Proof. induction l as [|x l IH]; simpl; [reflexivity|]. rewrite IH. reflexivity. Qed.
Lemma Zsum_nonneg {A} (f : A -> Z) l : (forall x, In x l -> 0 <= f x) -> 0 <= Zsum f l.
Proof.
  induction l as [|x l IH]; intros E; simpl; [lia|].
  pose proof (E x (or_introl eq_refl)). assert (0 <= Zsum f l) by (apply IH; intros; apply E; right; assumption). lia.
Qed.
Lemma Zsum_zero {A} (f : A -> Z) l : (forall x, In x l -> f x = 0) -> Zsum f l = 0.
Proof. intros E. rewrite (Zsum_ext f (fun _ => 0) l E). induction l; simpl; auto. apply IHl. intros; apply E; right; assumption. Qed.
Lemma Zsum_add {A} (f g : A -> Z) l : Zsum (fun x => f x + g x) l = Zsum f l + Zsum g l.
Proof. induction l as [|x l IH]; simpl; lia. Qed.
Lemma Zsum_scale {A} k (f : A -> Z) l : Zsum (fun x => k * f x) l = k * Zsum f l.
Proof. induction l as [|x l IH]; simpl; lia. Qed.
Lemma Zsum_le {A} (f g : A -> Z) l : (forall x, In x l -> f x <= g x) -> Zsum f l <= Zsum g l.
Proof.
  induction l as [|x l IH]; intros E; simpl; [lia|].
  pose proof (E x (or_introl eq_refl)). assert (Zsum f l <= Zsum g l) by (apply IH; intros; apply E; right; assumption). lia.
Qed.
Lemma Zsum_In_le {A} (f : A -> Z) l x : (forall y, In y l -> 0 <= f y) -> In x l -> f x <= Zsum f l.
Proof.
  induction l as [|y l IH]; intros E I; simpl; [destruct I|].
  assert (0 <= Zsum f l) by (apply Zsum_nonneg; intros; apply E; right; assumption).
  destruct I as [->|I]; [lia|]. pose proof (E y (or_introl eq_refl)).
  assert (f x <= Zsum f l) by (apply IH; [intros; apply E; right; assumption|exact I]). lia.
Qed.
Lemma Zsum_fold {A} (f : A -> Z) l a : fold_left (fun acc x => acc + f x) l a = a + Zsum f l.
Proof. revert a; induction l as [|x l IH]; intros a; simpl; [lia|]. rewrite IH. lia. Qed.

Lemma NoDup_app_intro {A} (a b : list A) : NoDup a -> NoDup b -> (forall x, In x a -> ~ In x b) -> NoDup (a ++ b).
Proof.
  induction a as [|x a IH]; intros NA NB D; simpl; [exact NB|].
  inversion NA as [|? ? Hx NA']; subst. constructor.
  - rewrite in_app_iff. intros [I|I]; [tauto|]. apply (D x (or_introl eq_refl)). exact I.
  - apply IH; auto. intros; apply D; right; assumption.
Qed.

(** sums over a superset where the rest contributes 0 *)
Lemma Zsum_superset {A} `{EqB A} (f : A -> Z) K L :
  NoDup K -> NoDup L -> (forall c, In c K -> In c L) -> (forall c, In c L -> ~ In c K -> f c = 0) ->
  Zsum f L = Zsum f K.
Proof.
  intros NK NL S Z0.
  assert (P : Permutation L (K ++ filter (fun c => negb (mem c K)) L)).
  { apply NoDup_Permutation.
    - exact NL.
    - apply NoDup_app_intro; [exact NK|apply NoDup_filter; exact NL|].
      intros x Ix If. apply filter_In in If. destruct If as [_ If].
      apply mem_In in Ix. rewrite Ix in If. discriminate.
    - intros x. rewrite in_app_iff, filter_In. rewrite negb_true_iff, mem_In_false. split; [|intros [I|[I _]]; auto].
      intros I. destruct (mem x K) eqn:M; [left; apply mem_In; exact M|right; split; [exact I|]].
      apply mem_In_false. exact M. }
  rewrite (Zsum_perm f _ _ P), Zsum_app.
  rewrite (Zsum_zero f (filter _ L)); [lia|].
  intros x I. apply filter_In in I. destruct I as [I M]. apply Z0; [exact I|].
  apply mem_In_false. destruct (mem x K); [discriminate|reflexivity].
Qed.

(** occurrences of an element in a list, as [Z] *)
Definition occ {A} `{EqB A} (x : A) (l : list A) : Z := Zsum (fun y => if eqb x y then 1 else 0) l.

Lemma occ_nonneg {A} `{EqB A} (x : A) l : 0 <= occ x l.
Proof. apply Zsum_nonneg. intros y _. destruct (eqb x y); lia. Qed.
Lemma occ_pos_iff {A} `{EqB A} (x : A) l : 0 < occ x l <-> In x l.
Proof.
  unfold occ. induction l as [|y l IH]; simpl; [split; [lia|tauto]|].
  pose proof (occ_nonneg x l) as NN. unfold occ in NN.
  destruct (eqb_spec x y) as [->|N]; [split; [auto|lia]|].
  rewrite Z.add_0_l, IH. split; [auto|]. intros [E|I]; [congruence|exact I].
Qed.
Lemma occ_zero_iff {A} `{EqB A} (x : A) l : occ x l = 0 <-> ~ In x l.
Proof. rewrite <- occ_pos_iff. pose proof (occ_nonneg x l). lia. Qed.
Lemma occ_app {A} `{EqB A} (x : A) l1 l2 : occ x (l1 ++ l2) = occ x l1 + occ x l2.
Proof. apply Zsum_app. Qed.

Section Incr.
  Context {K : Type} `{EqB K}.
  Implicit Types d : dict K Z.

  Lemma dgetd_dincr d k v k' : dgetd (dincr d k v) k' 0 = dgetd d k' 0 + (if eqb k k' then v else 0).
  Proof.
    unfold dincr, dgetd. rewrite dget_dset. destruct (eqb_spec k k') as [->|]; lia.
  Qed.
  Lemma dget_dincr d k v k' : dget (dincr d k v) k' = if eqb k k' then Some (dgetd d k 0 + v) else dget d k'.
  Proof. unfold dincr. apply dget_dset. Qed.
  Lemma dwf_dincr d k v : dwf d -> dwf (dincr d k v).
  Proof. apply dwf_dset. Qed.

  (** counting a list of keys with weights *)
  Definition dcount (l : list (K * Z)) d : dict K Z := fold_left (fun d kv => dincr d (fst kv) (snd kv)) l d.
  Lemma dgetd_dcount l d k : dgetd (dcount l d) k 0 = dgetd d k 0 + Zsum (fun kv => if eqb (fst kv) k then snd kv else 0) l.
  Proof.
    revert d; induction l as [|[k' v] l IH]; intros d; simpl; [lia|].
    unfold dcount in *. simpl. rewrite IH, dgetd_dincr. lia.
  Qed.
  Lemma dkeys_dcount l d k : In k (dkeys (dcount l d)) <-> In k (dkeys d) \/ In k (map fst l).
  Proof.
    revert d; induction l as [|[k' v] l IH]; intros d; [simpl; tauto|].
    unfold dcount in *. simpl. rewrite IH.
    assert (E : In k (dkeys (dincr d k' v)) <-> In k (dkeys d) \/ k' = k).
    { unfold dincr. rewrite <- !dget_keys, dget_dset. destruct (eqb_spec k' k); [split; [auto|congruence]|].
      tauto. }
    rewrite E. tauto.
  Qed.
  Lemma dwf_dcount l d : dwf d -> dwf (dcount l d).
  Proof. revert d; induction l as [|[k' v] l IH]; intros d W; [exact W|]. apply IH, dwf_dincr, W. Qed.
End Incr.
