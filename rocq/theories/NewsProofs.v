(** * Proofs about NewsNounExtractor: training *)
From Coq Require Import QArith Permutation Lqa.
From Verif Require Import PyBase PyDict CountLemmas QLemmas PyText UtilsModel UtilsSpec UtilsProofs UtilsProofs2 NounModel NounSpec NounProofs NounProofs2 VectorizerSpec VectorizerProofs3 JosaProofs NounV1Model NounV1Proofs NounV1Proofs3 NewsModel NewsSpec.
Open Scope Z_scope.

(** ** lists without repetition *)
Definition add1 (s : list str) (x : str) : list str := if mem x s then s else s ++ [x].
Lemma first_seen_In l : forall s x, In x (fold_left add1 l s) <-> In x s \/ In x l.
Proof.
  induction l as [|y l IH]; intros s x; cbn [fold_left In]; [tauto|]. rewrite IH. unfold add1. destruct (mem y s) eqn:M.
  - apply mem_In in M. split; [tauto|]. intros [H|[<-|H]]; tauto.
  - rewrite in_app_iff. cbn [In]. tauto.
Qed.
Lemma first_seen_NoDup_gen l : forall s, NoDup s -> NoDup (fold_left add1 l s).
Proof.
  induction l as [|y l IH]; intros s H; cbn [fold_left]; [exact H|]. apply IH. unfold add1. destruct (mem y s) eqn:M; [exact H|].
  apply NoDup_app_intro; [exact H|constructor; [tauto|constructor]|]. intros x I [<-|[]]. apply mem_In in I. congruence.
Qed.
Lemma fs_In l x : In x (first_seen l) <-> In x l.
Proof. unfold first_seen. change (fun s x => if mem x s then s else s ++ [x]) with add1. rewrite first_seen_In. cbn [In]. tauto. Qed.
Lemma fs_NoDup l : NoDup (first_seen l).
Proof. apply first_seen_NoDup_gen. constructor. Qed.

(** ** keys of dictionaries in order *)
Lemma dset_keys {V} (d : dict str V) k v : dkeys (dset d k v) = add1 (dkeys d) k.
Proof.
  unfold add1. induction d as [|[k' v'] d IH]; [reflexivity|]. cbn [dset dkeys map fst]. unfold mem. cbn [existsb].
  destruct (eqb_spec k' k) as [->|n]; [rewrite eqb_refl; reflexivity|].
  replace (eqb k k') with false by (symmetry; apply eqb_neq; congruence). cbn [orb dkeys map fst]. unfold dkeys in IH. rewrite IH. unfold mem.
  destruct (existsb (eqb k) (map fst d)); reflexivity.
Qed.
Lemma incs_keys T : forall g, dkeys (incs T g) = fold_left add1 (map (fun t => fst (fst t)) T) (dkeys g).
Proof.
  induction T as [|t T IH]; intros g; [reflexivity|]. unfold incs in *. cbn [fold_left map]. rewrite IH. f_equal. unfold inc2. apply dset_keys.
Qed.
Lemma dincr_keys (L : list str) : forall d : dict str Z, dkeys (fold_left (fun d w => dincr d w 1) L d) = fold_left add1 L (dkeys d).
Proof. induction L as [|w L IH]; intros d; [reflexivity|]. cbn [fold_left]. rewrite IH. f_equal. apply dset_keys. Qed.

(** ** counters and bags *)
(** d counts the elements of the bag *)
Definition counts (d : dict str Z) (B : list str) : Prop := NoDup (dkeys d) /\ forall r, dget d r = if 0 <? occ r B then Some (occ r B) else None.
Lemma counts_In d B : counts d B -> forall r n, In (r, n) d <-> n = occ r B /\ 0 < n.
Proof.
  intros [ND G] r n. rewrite <- (dget_In_iff _ _ _ ND), G. destruct (Z.ltb_spec 0 (occ r B)) as [H|H].
  - split; [intros [= <-]; auto|intros [-> _]; reflexivity].
  - split; [discriminate|lia].
Qed.
Lemma counts_keys d B r : counts d B -> In r (dkeys d) <-> In r B.
Proof. intros [ND G]. rewrite <- dget_keys, G, <- occ_pos_iff. destruct (Z.ltb_spec 0 (occ r B)); split; congruence || lia || auto. Qed.
Lemma bag_step (K : list str) (f : str -> Q) x : NoDup K -> In x K -> (Qsum (map (fun r => inject_Z (if eqb r x then 1%Z else 0%Z) * f r) K) == f x)%Q.
Proof.
  induction K as [|y K IH]; intros ND I; [destruct I|]. inversion ND as [|? ? NI ND']; subst. cbn [map Qsum fold_right]. destruct I as [->|I].
  - rewrite eqb_refl. assert (Z : (Qsum (map (fun r => inject_Z (if eqb r x then 1%Z else 0%Z) * f r) K) == 0)%Q).
    { clear IH ND. induction K as [|z K IH]; [reflexivity|]. inversion ND' as [|? ? ? ND'']; subst. cbn [map Qsum fold_right]. unfold Qsum in IH. rewrite IH; [|intros I; apply NI; right; exact I|exact ND''].
      destruct (eqb_spec z x) as [->|_]; [exfalso; apply NI; left; reflexivity|]. change (inject_Z 0) with 0%Q. ring. }
    unfold Qsum in Z. rewrite Z. change (inject_Z 1) with 1%Q. ring.
  - unfold Qsum in IH. rewrite IH by assumption. destruct (eqb_spec y x) as [->|_]; [contradiction|]. change (inject_Z 0) with 0%Q. ring.
Qed.
Lemma bag_sum (K B : list str) (f : str -> Q) : NoDup K -> (forall x, In x B -> In x K) -> (Qsum (map (fun r => inject_Z (occ r B) * f r) K) == Qsum (map f B))%Q.
Proof.
  intros ND. induction B as [|x B IH]; intros H.
  - cbn [map]. clear H ND. induction K as [|y K IH]; [reflexivity|]. cbn [map Qsum fold_right]. unfold Qsum in *. rewrite IH. unfold occ. cbn [Zsum]. change (inject_Z 0) with 0%Q. cbn [fold_right map]. ring.
  - cbn [map Qsum fold_right]. fold (Qsum (map f B)). rewrite <- IH by (intros y I; apply H; right; exact I). rewrite <- (bag_step K f x ND (H x (or_introl eq_refl))).
    clear. induction K as [|y K IH]; [reflexivity|]. cbn [map Qsum fold_right]. unfold Qsum in IH. rewrite IH. unfold occ at 1. cbn [Zsum]. fold (occ y B). rewrite inject_Z_plus. ring.
Qed.
Lemma counts_Qsum d B f : counts d B -> (Qsum (map (fun rc => inject_Z (snd rc) * f (fst rc)) d) == Qsum (map f B))%Q.
Proof.
  intros C. rewrite <- (bag_sum (dkeys d) B f); [|apply C|intros x I; apply (counts_keys d B x C), I]. unfold dkeys. rewrite map_map.
  pose proof (counts_In d B C) as H. clear C. induction d as [|[r n] d IH]; [reflexivity|]. cbn [map Qsum fold_right fst snd].
  assert (E : n = occ r B) by (apply (H r n); left; reflexivity). rewrite <- E. apply Qplus_comp; [reflexivity|].
  clear IH E. assert (HH : forall r n, In (r, n) d -> n = occ r B) by (intros r' n' I; apply (H r' n'); right; exact I). clear H.
  induction d as [|[r' n'] d IH]; [reflexivity|]. cbn [map fold_right fst snd]. rewrite <- (HH r' n' (or_introl eq_refl)), IH; [reflexivity|]. intros; apply HH; right; assumption.
Qed.
Lemma Zsum_bag (K B : list str) (b : str -> bool) : NoDup K -> (forall x, In x B -> In x K) -> Zsum (fun r => if b r then occ r B else 0) K = len (filter b B).
Proof.
  intros ND. induction B as [|x B IH]; intros H.
  - apply Zsum_zero. intros r _. destruct (b r); reflexivity.
  - rewrite (Zsum_ext _ (fun r => (if b r then occ r B else 0) + (if eqb r x then (if b x then 1 else 0) else 0))).
    + rewrite Zsum_add, IH by (intros y I; apply H; right; exact I). specialize (H x (or_introl eq_refl)).
      assert (E : Zsum (fun r => if eqb r x then if b x then 1 else 0 else 0) K = if b x then 1 else 0).
      { clear IH. induction K as [|y K IH]; [destruct H|]. inversion ND as [|? ? NI ND']; subst. cbn [Zsum]. destruct H as [->|H].
        - rewrite eqb_refl. rewrite Zsum_zero; [lia|]. intros r I. destruct (eqb_spec r x) as [->|_]; [contradiction|reflexivity].
        - rewrite IH by assumption. destruct (eqb_spec y x) as [->|_]; [contradiction|lia]. }
      rewrite E. cbn [filter]. unfold len. destruct (b x); cbn [length]; lia.
    + intros r _. unfold occ at 1. cbn [Zsum]. fold (occ r B). destruct (eqb_spec r x) as [->|_]; destruct (b _); lia.
Qed.
Lemma counts_Zsum d B (b : str -> bool) : counts d B -> Zsum (fun rc => if b (fst rc) then snd rc else 0) d = len (filter b B).
Proof.
  intros C. rewrite <- (Zsum_bag (dkeys d) B b); [|apply C|intros x I; apply (counts_keys d B x C), I]. unfold dkeys. rewrite Zsum_map. apply Zsum_ext.
  intros [r n] I. apply (counts_In d B C) in I as [-> _]. reflexivity.
Qed.
Lemma filter_all {A} (l : list A) : filter (fun _ => true) l = l.
Proof. induction l as [|x l IH]; [reflexivity|]. cbn [filter]. rewrite IH. reflexivity. Qed.
Lemma counts_total d B : counts d B -> Zsum snd d = len B.
Proof. intros C. rewrite <- (filter_all B). rewrite <- (counts_Zsum d B (fun _ => true) C). reflexivity. Qed.
Lemma counts_nil d B : counts d B -> (d = [] <-> B = []).
Proof.
  intros C. pose proof (counts_keys d B) as K. split; intros ->.
  - destruct B as [|x B]; [reflexivity|]. exfalso. apply (proj2 (K x C)). left. reflexivity.
  - destruct d as [|[x n] d]; [reflexivity|]. exfalso. apply (proj1 (K x C)). left. reflexivity.
Qed.

(** ** training *)
Lemma occ_len w (W : list str) : occ w W = len (filter (eqb w) W).
Proof. unfold occ, len. induction W as [|x W IH]; [reflexivity|]. cbn [Zsum filter]. rewrite IH. destruct (eqb w x); cbn [length]; lia. Qed.
Lemma occ_filter w (p : str -> bool) W : occ w (filter p W) = if p w then occ w W else 0.
Proof.
  unfold occ. induction W as [|x W IH]; [destruct (p w); reflexivity|]. cbn [filter Zsum]. destruct (p x) eqn:P; cbn [Zsum]; rewrite IH.
  - destruct (eqb_spec w x) as [->|_]; [rewrite P; reflexivity|reflexivity].
  - destruct (eqb_spec w x) as [->|_]; [rewrite P; reflexivity|destruct (p w); lia].
Qed.
Lemma after_occ lm rm W l r : occ r (after lm rm W l) = if in_window lm rm l r then occ (l ++ r) W else 0.
Proof.
  unfold after, occ. rewrite Zsum_map. induction W as [|w W IH]; [destruct (in_window lm rm l r); reflexivity|]. cbn [filter Zsum].
  destruct (eqb_spec (l ++ skipn (length l) w) w) as [E|n]; cbn [andb].
  - destruct (eqb_spec (l ++ r) w) as [<-|n].
    + rewrite skipn_pre. destruct (in_window lm rm l r) eqn:WI; [|exact IH]. cbn [Zsum]. rewrite IH, skipn_pre, eqb_refl. reflexivity.
    + destruct (in_window lm rm l (skipn (length l) w)); [cbn [Zsum]|]; rewrite IH; [|destruct (in_window lm rm l r); lia].
      destruct (eqb_spec r (skipn (length l) w)) as [->|_]; [congruence|]. destruct (in_window lm rm l r); lia.
  - rewrite IH. destruct (eqb_spec (l ++ r) w) as [<-|_]; [rewrite skipn_pre in n; congruence|]. destruct (in_window lm rm l r); lia.
Qed.
Lemma window_len lm rm l r : in_window lm rm l r = true -> len (l ++ r) <= lm + rm.
Proof. unfold in_window, len. rewrite !andb_true_iff, !Nat.leb_le, Z.leb_le, app_length. lia. Qed.
Lemma news_eojeols_counts c sents : counts (news_eojeols c sents) (filter (fun w => len w <=? w_lm c + w_rm c) (words sents)).
Proof. exact (dincr_count (filter (fun w => Z.of_nat (length w) <=? w_lm c + w_rm c) (concat (map split sents)))). Qed.
Lemma alone_get c sents w : dgetd (news_eojeols c sents) w 0 = alone (w_lm c) (w_rm c) (words sents) w.
Proof.
  unfold dgetd. destruct (news_eojeols_counts c sents) as [_ ->]. rewrite occ_filter. unfold alone. rewrite <- occ_len.
  pose proof (occ_nonneg w (words sents)). destruct (len w <=? w_lm c + w_rm c); [|reflexivity]. destruct (Z.ltb_spec 0 (occ w (words sents))); lia.
Qed.
Lemma row_counts c sents l : let g := fold_left (lrgraph_word (w_lm c) (w_rm c)) (news_eojeols c sents) [] in
  counts (match dget g l with Some d => d | None => [] end) (after (w_lm c) (w_rm c) (words sents) l).
Proof.
  cbv zeta. set (g := fold_left (lrgraph_word (w_lm c) (w_rm c)) (news_eojeols c sents) []). assert (G : is_graph g) by (unfold g; rewrite to_lrgraph_incs; apply gwf_incs; split; constructor).
  assert (P : forall r, pget g l r = if 0 <? occ r (after (w_lm c) (w_rm c) (words sents) l) then Some (occ r (after (w_lm c) (w_rm c) (words sents) l)) else None).
  { intros r. unfold g. rewrite to_lrgraph_pget by apply (news_eojeols_counts c sents). rewrite after_occ. destruct (in_window (w_lm c) (w_rm c) l r) eqn:WI; [|reflexivity].
    destruct (news_eojeols_counts c sents) as [_ ->]. rewrite occ_filter. apply window_len in WI. replace (len (l ++ r) <=? w_lm c + w_rm c) with true by (symmetry; apply Z.leb_le, WI). reflexivity. }
  unfold pget in P. destruct (dget g l) as [d|] eqn:D; split.
  - destruct G as [_ F]. rewrite Forall_forall in F. apply dget_In in D. exact (F _ D).
  - exact P.
  - constructor.
  - exact P.
Qed.
Lemma lefts_keys c sents : dkeys (fold_left (lrgraph_word (w_lm c) (w_rm c)) (news_eojeols c sents) []) = lefts (w_lm c) (w_rm c) (words sents).
Proof.
  rewrite to_lrgraph_incs, incs_keys. unfold lefts. cbn [dkeys map]. unfold first_seen at 1. change (fun s x => if mem x s then s else s ++ [x]) with add1. f_equal. rewrite concat_map, map_map.
  assert (K : dkeys (news_eojeols c sents) = first_seen (filter (fun w => len w <=? w_lm c + w_rm c) (words sents))) by (unfold news_eojeols; rewrite dincr_keys; reflexivity).
  rewrite <- K. unfold dkeys. rewrite map_map. f_equal. apply map_ext. intros [w n]. cbn [fst snd]. unfold word_trips. rewrite map_map. cbn [fst].
  set (b := fun l => in_window (w_lm c) (w_rm c) l (skipn (length l) w)).
  assert (SQ : seq 1 (length w) = seq 1 (Nat.min (Z.to_nat (w_lm c)) (length w)) ++ seq (1 + Nat.min (Z.to_nat (w_lm c)) (length w)) (length w - Nat.min (Z.to_nat (w_lm c)) (length w))).
  { rewrite <- seq_app. f_equal. lia. }
  rewrite SQ, map_app, filter_app.
  assert (E2 : forall a m, (Nat.min (Z.to_nat (w_lm c)) (length w) < a)%nat -> (a + m <= S (length w))%nat -> filter b (map (fun k => firstn k w) (seq a m)) = []).
  { intros a m. revert a. induction m as [|m IH]; intros a H1 H2; [reflexivity|]. cbn [seq map filter]. unfold b at 1, in_window. rewrite firstn_length.
    replace (Nat.min a (length w) <=? Z.to_nat (w_lm c))%nat with false by (symmetry; apply Nat.leb_gt; lia). rewrite andb_false_r. cbn [andb]. apply IH; lia. }
  rewrite (E2 (1 + Nat.min (Z.to_nat (w_lm c)) (length w))%nat) by lia. rewrite app_nil_r.
  assert (E1 : forall a m, (1 <= a)%nat -> (a + m <= 1 + Nat.min (Z.to_nat (w_lm c)) (length w))%nat ->
    map (fun e => firstn e w) (filter (fun e => negb (Z.of_nat (length (skipn e w)) >? w_rm c)) (seq a m)) = filter b (map (fun k => firstn k w) (seq a m))).
  { intros a m. revert a. induction m as [|m IH]; intros a H1 H2; [reflexivity|]. cbn [seq map filter]. unfold b at 1, in_window. rewrite firstn_length.
    replace (Nat.min a (length w)) with a by lia. replace (1 <=? a)%nat with true by (symmetry; apply Nat.leb_le; lia). replace (a <=? Z.to_nat (w_lm c))%nat with true by (symmetry; apply Nat.leb_le; lia). cbn [andb].
    rewrite Z.gtb_ltb, Z.ltb_antisym, negb_involutive. destruct (Z.of_nat (length (skipn a w)) <=? w_rm c); cbn [map]; rewrite IH by lia; reflexivity. }
  apply E1; lia.
Qed.
Lemma lefts_In lm rm W l : In l (lefts lm rm W) <-> 0 < freq lm rm W l.
Proof.
  unfold lefts. rewrite fs_In, in_concat. unfold freq, len. split.
  - intros (ls & I & L). apply in_map_iff in I as (w & <- & I). rewrite fs_In in I. apply filter_In in I as [I _]. apply filter_In in L as [L B]. apply in_map_iff in L as (k & E & K). apply in_seq in K.
    assert (J : In (skipn (length l) w) (after lm rm W l)).
    { unfold after. apply in_map_iff. exists w. split; [reflexivity|]. apply filter_In. split; [exact I|]. rewrite B, andb_true_r. apply eqb_eq. subst l. rewrite firstn_length. replace (Nat.min k (length w)) with k by lia. apply firstn_skipn. }
    destruct (after lm rm W l); [destruct J|cbn [length]; lia].
  - destruct (after lm rm W l) as [|r A] eqn:E; [cbn [length]; lia|]. intros _. assert (J : In r (after lm rm W l)) by (rewrite E; left; reflexivity).
    unfold after in J. apply in_map_iff in J as (w & R & J). apply filter_In in J as [J B]. apply andb_true_iff in B as [B1 B2]. apply eqb_eq in B1.
    eexists. split; [apply in_map_iff; exists w; split; [reflexivity|]|].
    + rewrite fs_In. apply filter_In. split; [exact J|]. apply Z.leb_le. rewrite <- B1. apply window_len in B2. exact B2.
    + apply filter_In. split; [|exact B2]. apply in_map_iff. exists (length l). split; [rewrite <- B1; apply firstn_pre|]. unfold in_window in B2. apply andb_true_iff in B2 as [B2 _]. apply andb_true_iff in B2 as [B2 _]. apply Nat.leb_le in B2.
      apply in_seq. apply (f_equal (@length N)) in B1. rewrite app_length in B1. lia.
Qed.
Lemma dget_sums (g : dict str (dict str Z)) l : dget (map (fun kd : str * dict str Z => (fst kd, Zsum snd (snd kd))) g) l = match dget g l with Some d => Some (Zsum snd d) | None => None end.
Proof. induction g as [|[k d] g IH]; [reflexivity|]. cbn [map dget fst snd]. destruct (eqb k l); [reflexivity|exact IH]. Qed.

(** what training provides *)
Definition trained (lm rm : Z) (W : list str) (st : nwstate) : Prop :=
  (forall l, counts (row st l) (after lm rm W l)) /\ (forall l, l_frequency st l = freq lm rm W l) /\
  dkeys (t_lc st) = lefts lm rm W /\ (forall l, dget (t_lc st) l = if 0 <? freq lm rm W l then Some (freq lm rm W l) else None) /\
  (forall w, dgetd (t_eoj st) w 0 = alone lm rm W w).
Lemma news_trained c sents st : news_train c sents = Ok st -> trained (w_lm c) (w_rm c) (words sents) st.
Proof.
  intros H. unfold news_train in H. destruct sents as [|s ss] eqn:ES; [discriminate|]. rewrite <- ES in *. clear s ss ES. injection H as <-.
  assert (R : forall l, counts (row (mkNWS (fold_left (lrgraph_word (w_lm c) (w_rm c)) (news_eojeols c sents) []) (fold_left (rlgraph_word (w_lm c) (w_rm c)) (news_eojeols c sents) []) (news_eojeols c sents) (map (fun kd : str * dict str Z => (fst kd, Zsum snd (snd kd))) (fold_left (lrgraph_word (w_lm c) (w_rm c)) (news_eojeols c sents) [])) (map (fun kd : str * dict str Z => (fst kd, Zsum snd (snd kd))) (fold_left (rlgraph_word (w_lm c) (w_rm c)) (news_eojeols c sents) []))) l) (after (w_lm c) (w_rm c) (words sents) l)) by (intros l; exact (row_counts c sents l)).
  assert (D : forall l, dget (map (fun kd : str * dict str Z => (fst kd, Zsum snd (snd kd))) (fold_left (lrgraph_word (w_lm c) (w_rm c)) (news_eojeols c sents) [])) l = if 0 <? freq (w_lm c) (w_rm c) (words sents) l then Some (freq (w_lm c) (w_rm c) (words sents) l) else None).
  { intros l. rewrite dget_sums. specialize (R l). unfold row in R. cbn [t_lr] in R. unfold freq.
    pose proof (lefts_In (w_lm c) (w_rm c) (words sents) l) as L. rewrite <- lefts_keys, <- dget_keys in L. unfold freq in L.
    destruct (dget (fold_left (lrgraph_word (w_lm c) (w_rm c)) (news_eojeols c sents) []) l) as [d|] eqn:G.
    - rewrite (counts_total _ _ R). destruct (Z.ltb_spec 0 (len (after (w_lm c) (w_rm c) (words sents) l))) as [_|H]; [reflexivity|]. exfalso. assert (0 < len (after (w_lm c) (w_rm c) (words sents) l)) by (apply L; congruence). lia.
    - destruct (Z.ltb_spec 0 (len (after (w_lm c) (w_rm c) (words sents) l))) as [H|_]; [|reflexivity]. exfalso. apply L in H. congruence. }
  split; [exact R|]. split; [|split; [|split; [exact D|intros w; apply alone_get]]].
  - intros l. unfold l_frequency, dgetd. cbn [t_lc]. rewrite D. destruct (Z.ltb_spec 0 (freq (w_lm c) (w_rm c) (words sents) l)) as [_|H]; [reflexivity|]. unfold freq, len in *. lia.
  - cbn [t_lc]. rewrite <- lefts_keys. unfold dkeys. rewrite map_map. reflexivity.
Qed.
