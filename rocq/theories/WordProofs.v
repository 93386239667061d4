(** Proofs about WordExtractor.train: counts *)
From Coq Require Import Reals QArith.
From Verif Require Import PyBase PyDict PySort PyText CountLemmas UtilsProofs WordModel WordSpec.
Open Scope Z_scope.

(** ** counters *)
Section Counter.
Context {K : Type} `{EqB K}.
Definition ctr (d : dict K Z) : Prop := dwf d /\ Forall (fun kv => 0 < snd kv) d.
Lemma ctr_nil : ctr []. Proof. split; constructor. Qed.
Lemma ctr_pos d k v : ctr d -> dget d k = Some v -> 0 < v.
Proof. intros [_ F] E. apply dget_In in E. rewrite Forall_forall in F. exact (F _ E). Qed.
Lemma ctr_nonneg d k : ctr d -> 0 <= dgetd d k 0.
Proof. intros C. unfold dgetd. destruct (dget d k) eqn:E; [apply (ctr_pos d k z C) in E|]; lia. Qed.
Lemma ctr_mem d k : ctr d -> (0 < dgetd d k 0 <-> dget d k <> None).
Proof. intros C. unfold dgetd. destruct (dget d k) eqn:E; [apply (ctr_pos d k z C) in E; split; [congruence|lia]|split; [lia|congruence]]. Qed.
Lemma ctr_get d k : ctr d -> dget d k = if 0 <? dgetd d k 0 then Some (dgetd d k 0) else None.
Proof. intros C. unfold dgetd. destruct (dget d k) eqn:E; [|reflexivity]. apply (ctr_pos d k z C) in E. destruct (Z.ltb_spec 0 z); [reflexivity|lia]. Qed.
Lemma ctr_filter f d : ctr d -> ctr (dfilter f d).
Proof. intros [W F]. split; [apply dwf_dfilter; exact W|]. rewrite Forall_forall in *. intros x I. apply filter_In in I. apply F, I. Qed.
Lemma ctr_dset d k v : ctr d -> 0 < v -> ctr (dset d k v).
Proof. intros [W F] P. split; [apply dwf_dset; exact W|]. rewrite Forall_forall in *. intros p I. apply dset_keys_In in I. destruct I as [->|I]; auto. Qed.
Lemma ctr_incr d k : ctr d -> ctr (dincr d k 1).
Proof. intros C. apply ctr_dset; [exact C|]. pose proof (ctr_nonneg d k C). lia. Qed.
Lemma ctr_bump ks : forall d, ctr d -> ctr (bump_all ks d).
Proof. induction ks as [|k ks IH]; intros d C; cbn; [exact C|]. apply IH, ctr_incr, C. Qed.
Lemma bump_get ks : forall d k, dgetd (bump_all ks d) k 0 = dgetd d k 0 + occ k ks.
Proof.
  unfold occ, bump_all. induction ks as [|k' ks IH]; intros d k; cbn [fold_left Zsum]; [lia|]. rewrite IH, dgetd_dincr, (eqb_sym k k'). lia.
Qed.
Lemma filter_getd f d k : ctr d -> dgetd (dfilter f d) k 0 = match dget d k with Some v => if f k v then v else 0 | None => 0 end.
Proof. intros [W _]. unfold dgetd. rewrite dget_dfilter by exact W. destruct (dget d k) as [v|]; [|reflexivity]. destruct (f k v); reflexivity. Qed.
Lemma ctr_perm d d' : ctr d -> ctr d' -> (forall k, dgetd d k 0 = dgetd d' k 0) -> Permutation d d'.
Proof. intros C C' E. apply dict_ext_perm; [apply C|apply C'|]. intros k. rewrite (ctr_get d k C), (ctr_get d' k C'), E. reflexivity. Qed.
End Counter.

Lemma prune_getd mf (d : dict str Z) k : ctr d -> dgetd (prune mf d) k 0 = at_least mf (dgetd d k 0).
Proof.
  intros C. unfold prune, at_least. rewrite filter_getd by exact C. unfold dgetd. destruct (dget d k) as [v|].
  - rewrite Z.geb_leb. reflexivity.
  - destruct (mf <=? 0); reflexivity.
Qed.
Lemma prune_a_getd (d : dict str Z) k : ctr d -> dgetd (prune_a d) k 0 = at_least 2 (dgetd d k 0).
Proof.
  intros C. unfold prune_a, at_least. rewrite filter_getd by exact C. unfold dgetd. destruct (dget d k) as [v|]; [|reflexivity].
  destruct (v >? 1) eqn:E, (2 <=? v) eqn:E2; try reflexivity; lia.
Qed.

Lemma occ_concat {A B} `{EqB B} (k : B) (f : A -> list B) l : occ k (concat (map f l)) = Zsum (fun a => occ k (f a)) l.
Proof. induction l as [|a l IH]; cbn [map concat Zsum]; [reflexivity|]. rewrite occ_app, IH. reflexivity. Qed.
Lemma count_cons {A} (p : A -> bool) x l : count p (x :: l) = (if p x then 1 else 0) + count p l.
Proof. unfold count. cbn. destruct (p x); cbn [length]; lia. Qed.
Lemma count_app {A} (p : A -> bool) a b : count p (a ++ b) = count p a + count p b.
Proof. unfold count. rewrite filter_app, app_length. lia. Qed.
Lemma count_Zsum {A} (p : A -> bool) l : count p l = Zsum (fun x => if p x then 1 else 0) l.
Proof. induction l as [|x l IH]; [reflexivity|]. rewrite count_cons, IH. reflexivity. Qed.
Lemma count_nonneg {A} (p : A -> bool) l : 0 <= count p l. Proof. unfold count. lia. Qed.
Lemma count_concat {A B} (p : B -> bool) (f : A -> list B) l : count p (concat (map f l)) = Zsum (fun a => count p (f a)) l.
Proof. induction l as [|a l IH]; cbn [map concat Zsum]; [reflexivity|]. rewrite count_app, IH. reflexivity. Qed.

(** a list indexed by lengths contains each string at most once *)
Lemma occ_range (f : nat -> str) (k : str) (c a n : nat) :
  (forall i, (a <= i < a + n)%nat -> length (f i) = (i + c)%nat) ->
  occ k (map f (seq a n)) = if (a + c <=? length k)%nat && (length k <? a + n + c)%nat && eqb k (f (length k - c)%nat) then 1 else 0.
Proof.
  unfold occ. revert a. induction n as [|n IH]; intros a L; cbn [seq map Zsum].
  - destruct (Nat.leb_spec (a + c) (length k)), (Nat.ltb_spec (length k) (a + 0 + c)); cbn; try reflexivity. lia.
  - rewrite IH by (intros i Hi; apply L; lia). pose proof (L a ltac:(lia)) as La.
    destruct (eqb_spec k (f a)) as [->|N].
    + rewrite La. replace (a + c - c)%nat with a by lia. rewrite eqb_refl.
      destruct (Nat.leb_spec (S a + c) (a + c)), (Nat.leb_spec (a + c) (a + c)), (Nat.ltb_spec (a + c) (a + S n + c)); cbn; try lia.
    + destruct (Nat.eq_dec (length k) (a + c)) as [E|E].
      * rewrite E. replace (a + c - c)%nat with a by lia. destruct (eqb_spec k (f a)) as [E'|_]; [congruence|]. rewrite !andb_false_r. reflexivity.
      * destruct (Nat.leb_spec (S a + c) (length k)), (Nat.leb_spec (a + c) (length k)), (Nat.ltb_spec (length k) (S a + n + c)), (Nat.ltb_spec (length k) (a + S n + c)); cbn; try lia; destruct (eqb k _); reflexivity.
Qed.

Lemma lastn_length {A} i (s : list A) : (i <= length s)%nat -> length (lastn i s) = i.
Proof. intros. unfold lastn. rewrite skipn_length. lia. Qed.
Lemma lastn_rev {A} i (s : list A) : rev (firstn i (rev s)) = lastn i s.
Proof. unfold lastn. rewrite firstn_rev, rev_involutive. reflexivity. Qed.
Lemma ends_with_lastn w e : ends_with w e = eqb (lastn (length w) e) w.
Proof. unfold ends_with. rewrite lastn_rev. reflexivity. Qed.
Lemma starts_with_spec w e : starts_with w e = true <-> exists t, e = w ++ t.
Proof.
  unfold starts_with. rewrite eqb_eq. split.
  - intros E. exists (skipn (length w) e). rewrite <- E at 1. symmetry. apply firstn_skipn.
  - intros [t ->]. rewrite firstn_app, Nat.sub_diag, firstn_all, firstn_O. apply app_nil_r.
Qed.
Lemma ends_with_spec w e : ends_with w e = true <-> exists t, e = t ++ w.
Proof.
  unfold ends_with. rewrite eqb_eq. split.
  - intros E. exists (rev (skipn (length w) (rev e))). transitivity (rev (skipn (length w) (rev e)) ++ rev (firstn (length w) (rev e))); [|rewrite E; reflexivity]. rewrite <- rev_app_distr, firstn_skipn. symmetry. apply rev_involutive.
  - intros [t ->]. rewrite rev_app_distr, firstn_app, rev_length, Nat.sub_diag, firstn_O, app_nil_r.
    rewrite <- (rev_length w), firstn_all. apply rev_involutive.
Qed.
Lemma starts_with_length w e : starts_with w e = true -> (length w <= length e)%nat.
Proof. intros E. apply starts_with_spec in E. destruct E as [t ->]. rewrite app_length. lia. Qed.
Lemma ends_with_length w e : ends_with w e = true -> (length w <= length e)%nat.
Proof. intros E. apply ends_with_spec in E. destruct E as [t ->]. rewrite app_length. lia. Qed.

Lemma occ_keys_L ml w e : occ w (keys_L ml e) = if (2 <=? length e)%nat && starts_with w e && len_in w (ml + 1) then 1 else 0.
Proof.
  unfold keys_L. destruct (Nat.leb_spec (length e) 1) as [L|L].
  - destruct (Nat.leb_spec 2 (length e)); [lia|]. reflexivity.
  - destruct (Nat.leb_spec 2 (length e)); [|lia]. unfold range.
    rewrite (occ_range (fun i => firstn i e) w 0).
    + rewrite Nat.sub_0_r, (eqb_sym w). unfold len_in. change (eqb (firstn (length w) e) w) with (starts_with w e).
      destruct (starts_with w e) eqn:S; [apply starts_with_length in S|rewrite !andb_false_r; reflexivity]. cbn [andb]. rewrite andb_true_r.
      rewrite Nat.add_0_r. destruct (Nat.leb_spec 1 (length w)); [|reflexivity]. cbn [andb].
      destruct (Nat.ltb_spec (length w) (1 + (Z.to_nat (Z.min (ml + 1) (Z.of_nat (length e)) + 1) - 1) + 0)), (Z.leb_spec (Z.of_nat (length w)) (ml + 1)); try reflexivity; lia.
    + intros i Hi. rewrite firstn_length. lia.
Qed.

Lemma occ_keys_R mr w e : occ w (keys_R mr e) = if (2 <=? length e)%nat && (length w <? length e)%nat && ends_with w e && len_in w mr then 1 else 0.
Proof.
  unfold keys_R. destruct (Nat.leb_spec (length e) 1) as [L|L].
  - destruct (Nat.leb_spec 2 (length e)); [lia|]. reflexivity.
  - destruct (Nat.leb_spec 2 (length e)); [|lia]. unfold range.
    rewrite (occ_range (fun i => lastn i e) w 0).
    + rewrite Nat.sub_0_r, (eqb_sym w). unfold len_in. rewrite ends_with_lastn.
      destruct (eqb (lastn (length w) e) w) eqn:S; [|rewrite !andb_false_r; reflexivity]. rewrite !andb_true_r. cbn [andb].
      rewrite Nat.add_0_r. destruct (Nat.leb_spec 1 (length w)); [|cbn [andb]; rewrite andb_false_r; reflexivity]. cbn [andb].
      destruct (Nat.ltb_spec (length w) (1 + (Z.to_nat (Z.min (mr + 1) (Z.of_nat (length e))) - 1) + 0)), (Z.leb_spec (Z.of_nat (length w)) mr), (Nat.ltb_spec (length w) (length e)); try reflexivity; lia.
    + intros i Hi. rewrite lastn_length; lia.
Qed.

(** ** the ring of eojeols *)
Lemma rot_right_nth {A} (l : list A) d i : (i < length l)%nat -> nth i (rot_right l d) d = nth ((i + length l - 1) mod length l) l d.
Proof.
  intros L. unfold rot_right. destruct l as [|a l] using rev_ind; [cbn in L; lia|]. clear IHl. rewrite last_last, removelast_last.
  rewrite app_length in *. cbn [length] in *. destruct i as [|i]; cbn [nth].
  - replace (0 + (length l + 1) - 1)%nat with (length l) by lia. rewrite Nat.mod_small by lia. rewrite app_nth2, Nat.sub_diag by lia. reflexivity.
  - replace (S i + (length l + 1) - 1)%nat with (i + 1 * (length l + 1))%nat by lia. rewrite Nat.mod_add, Nat.mod_small, app_nth1 by lia. reflexivity.
Qed.
Lemma rot_left_nth {A} (l : list A) d i : (i < length l)%nat -> nth i (rot_left l d) d = nth ((i + 1) mod length l) l d.
Proof.
  intros L. unfold rot_left. destruct l as [|a l]; [cbn in L; lia|]. cbn [tl hd length] in *.
  destruct (Nat.eq_dec i (length l)) as [->|N].
  - rewrite app_nth2, Nat.sub_diag by lia. replace (length l + 1)%nat with (S (length l)) by lia. rewrite Nat.mod_same by lia. reflexivity.
  - rewrite app_nth1, Nat.mod_small by lia. rewrite Nat.add_1_r. reflexivity.
Qed.
Lemma rot_right_length {A} (l : list A) d : l <> [] -> length (rot_right l d) = length l.
Proof. intros N. unfold rot_right. destruct l as [|a l] using rev_ind; [congruence|]. rewrite removelast_last, app_length. cbn. lia. Qed.
Lemma rot_left_length {A} (l : list A) d : l <> [] -> length (rot_left l d) = length l.
Proof. intros N. unfold rot_left. destruct l; [congruence|]. rewrite app_length. cbn. lia. Qed.
Lemma zip3_nth {A B C} (a : list A) (b : list B) (c : list C) da db dc : length a = length b -> length c = length b ->
  zip3 a b c = map (fun i => (nth i a da, nth i b db, nth i c dc)) (seq 0 (length b)).
Proof.
  revert b c. induction a as [|x a IH]; intros [|y b] [|z c] L1 L2; cbn in *; try discriminate; try reflexivity.
  f_equal. rewrite <- seq_shift, map_map. rewrite (IH b c) by lia. reflexivity.
Qed.
Lemma triples_ring ws : ws <> [] ->
  triples ws = map (fun i => (nth ((i + length ws - 1) mod length ws) ws [], nth i ws [], nth ((i + 1) mod length ws) ws [])) (seq 0 (length ws)).
Proof.
  intros N. unfold triples. rewrite (zip3_nth _ _ _ [] [] []) by (rewrite ?rot_right_length, ?rot_left_length; auto).
  apply map_ext_in. intros i I. apply in_seq in I. rewrite rot_right_nth, rot_left_nth by lia. reflexivity.
Qed.
(** shifting the ring by one *)
Lemma ring_shift ws : ws <> [] ->
  Permutation (map (fun t => (fst (fst t), snd (fst t))) (triples ws)) (map (fun t => (snd (fst t), snd t)) (triples ws)).
Proof.
  intros N. rewrite triples_ring by exact N. rewrite !map_map. cbn [fst snd]. 
  assert (Hn : (0 < length ws)%nat) by (destruct ws; [congruence|cbn; lia]). clear N. rename ws into l. generalize dependent (length l). intros n Hn.
  set (f := fun i : nat => (nth i l [], nth ((i + 1) mod n) l [])).
  transitivity (map f (map (fun i => (i + n - 1) mod n)%nat (seq 0 n))).
  - rewrite map_map. apply Permutation_refl'. apply map_ext_in. intros i I. apply in_seq in I. unfold f. f_equal. f_equal.
    destruct i as [|i].
    + replace (0 + n - 1)%nat with (n - 1)%nat by lia. rewrite (Nat.mod_small (n - 1)) by lia. replace (n - 1 + 1)%nat with n by lia. rewrite Nat.mod_same by lia. reflexivity.
    + replace (S i + n - 1)%nat with (i + 1 * n)%nat by lia. rewrite Nat.mod_add, (Nat.mod_small i) by lia. rewrite Nat.add_1_r, Nat.mod_small by lia. reflexivity.
  - apply Permutation_map. destruct n as [|m]; [lia|]. assert (E : seq 0 (S m) = seq 0 m ++ [m]) by apply seq_S. apply (Permutation_trans (l' := m :: seq 0 m)); [|rewrite E; apply Permutation_cons_append].
    cbn [seq]. rewrite map_cons. replace (0 + S m - 1)%nat with m by lia. rewrite (Nat.mod_small m) by lia. apply perm_skip.
    rewrite <- seq_shift, map_map. apply Permutation_refl'. transitivity (map (fun i => i) (seq 0 m)); [|apply map_id]. apply map_ext_in. intros i I. apply in_seq in I.
    replace (S i + S m - 1)%nat with (i + 1 * S m)%nat by lia. rewrite Nat.mod_add, Nat.mod_small by lia. reflexivity.
Qed.
