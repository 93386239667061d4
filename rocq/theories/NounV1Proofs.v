(** * Proofs about LRNounExtractor (version 1): training *)
From Coq Require Import QArith Reals Permutation Lra Lqa Sorted.
From Verif Require Import PyBase PyDict PySort SortLemmas CountLemmas QLemmas PyText UtilsModel UtilsSpec UtilsProofs UtilsProofs2 UtilsProofs3 UtilsProofs6 NounModel NounSpec NounProofs NounProofs2 NounProofs3 VectorizerSpec VectorizerProofs3 NounV1Model NounV1Spec JosaProofs.
Open Scope Z_scope.

(** ** split *)
Lemma split_on_nonempty c s : split_on c s <> [].
Proof. destruct s as [|x s]; cbn [split_on]; [discriminate|]. destruct (N.eqb x c); [discriminate|]. destruct (split_on c s); discriminate. Qed.
Lemma split_on_join c s : join [c] (split_on c s) = s /\ Forall (fun w => ~ In c w) (split_on c s).
Proof.
  induction s as [|x s [IH1 IH2]]; [split; [reflexivity|repeat constructor; intros []]|]. cbn [split_on]. pose proof (split_on_nonempty c s) as NE. destruct (split_on c s) as [|w ws] eqn:E; [congruence|]. destruct (N.eqb_spec x c) as [->|NX].
  - split; [|constructor; [intros []|exact IH2]]. change (join [c] ([] :: w :: ws)) with ([] ++ [c] ++ join [c] (w :: ws)). rewrite IH1. reflexivity.
  - split; [|inversion IH2; subst; constructor; [intros [->|I]; [congruence|contradiction]|assumption]]. rewrite <- IH1. destruct ws as [|w2 ws]; reflexivity.
Qed.
Lemma scan_tokens_eq pre sents : scan_tokens pre sents = space_words pre sents.
Proof.
  unfold scan_tokens, space_words. induction sents as [|s ss IH]; [reflexivity|]. cbn [map concat]. rewrite filter_app, IH. f_equal. apply filter_ext. intros [|x t]; reflexivity.
Qed.
Lemma space_words_nonempty pre sents t : In t (space_words pre sents) -> t <> [].
Proof. unfold space_words. rewrite filter_In. intros [_ H] ->. discriminate. Qed.

(** ** counting beginnings and endings *)
Fixpoint prefix_b (l t : str) : bool := match l, t with [], _ => true | x :: l', y :: t' => N.eqb x y && prefix_b l' t' | _, [] => false end.
Lemma prefix_b_spec l t : prefix_b l t = true <-> exists r, t = l ++ r.
Proof.
  revert t. induction l as [|x l IH]; intros t; cbn [prefix_b]; [split; [intros _; exists t; reflexivity|reflexivity]|].
  destruct t as [|y t]; [split; [discriminate|intros (r & E); discriminate]|]. rewrite andb_true_iff, N.eqb_eq, IH. split.
  - intros [-> (r & ->)]. exists r. reflexivity.
  - intros (r & E). injection E as -> ->. split; [reflexivity|exists r; reflexivity].
Qed.
Lemma occ_NoDup {A} `{EqB A} (x : A) L : NoDup L -> occ x L = if mem x L then 1 else 0.
Proof.
  induction 1 as [|y L NI ND IH]; [reflexivity|]. unfold occ in *. cbn [Zsum]. rewrite IH. unfold mem. cbn [existsb]. fold (mem x L). destruct (eqb_spec x y) as [->|NE]; cbn [orb]; [|reflexivity].
  replace (mem y L) with false by (symmetry; apply mem_In_false, NI). reflexivity.
Qed.
Lemma scan_l_In lm t l : In l (scan_l lm t) <-> l <> [] /\ Z.of_nat (length l) <= lm /\ exists r, t = l ++ r.
Proof.
  unfold scan_l. rewrite in_map_iff. split.
  - intros (i & <- & I). apply in_seq in I. split; [apply firstn_nonempty; lia|]. split; [rewrite firstn_length; lia|]. exists (skipn i t). symmetry. apply firstn_skipn.
  - intros (NE & L & r & ->). pose proof (nonempty_length l NE). exists (length l). split; [apply firstn_pre|]. apply in_seq. rewrite app_length. lia.
Qed.
Lemma scan_l_NoDup lm t : NoDup (scan_l lm t).
Proof.
  unfold scan_l. apply NoDup_nth_error. intros i j I E. rewrite map_length, seq_length in I. rewrite !nth_error_map in E.
  assert (J : (j < Z.to_nat (Z.min lm (Z.of_nat (length t))))%nat). { destruct (Nat.lt_ge_cases j (Z.to_nat (Z.min lm (Z.of_nat (length t))))) as [J|J]; [exact J|]. rewrite (proj2 (nth_error_None (seq 1 _) j)) in E by (rewrite seq_length; exact J). rewrite (nth_error_nth' (seq 1 _) 0%nat) in E by (rewrite seq_length; exact I). discriminate. }
  rewrite !(nth_error_nth' (seq 1 _) 0%nat) in E by (rewrite seq_length; assumption). rewrite !seq_nth in E by assumption. cbn [option_map] in E. assert (E' : firstn (1 + i) t = firstn (1 + j) t) by congruence. apply (f_equal (@length _)) in E'. rewrite !firstn_length in E'. lia.
Qed.
Lemma scan_r_In rm t r : In r (scan_r rm t) <-> r <> [] /\ Z.of_nat (length r) < rm /\ exists l, l <> [] /\ t = l ++ r.
Proof.
  unfold scan_r. rewrite in_map_iff. split.
  - intros (i & <- & I). apply in_seq in I. split; [apply skipn_nonempty; lia|]. split; [rewrite skipn_length; lia|]. exists (firstn (length t - i) t). split; [apply firstn_nonempty; lia|symmetry; apply firstn_skipn].
  - intros (NE & L & l & NL & ->). pose proof (nonempty_length r NE). pose proof (nonempty_length l NL). exists (length r). rewrite app_length, Nat.add_sub. split; [apply skipn_pre|]. apply in_seq. lia.
Qed.
Lemma scan_r_NoDup rm t : NoDup (scan_r rm t).
Proof.
  unfold scan_r. set (n := Z.to_nat (Z.min rm (Z.of_nat (length t)) - 1)). assert (LE : (n <= length t)%nat) by (unfold n; lia). apply NoDup_nth_error. intros i j I E. rewrite map_length, seq_length in I. rewrite !nth_error_map in E.
  assert (J : (j < n)%nat). { destruct (Nat.lt_ge_cases j n) as [J|J]; [exact J|]. rewrite (proj2 (nth_error_None (seq 1 n) j)) in E by (rewrite seq_length; exact J). rewrite (nth_error_nth' (seq 1 _) 0%nat) in E by (rewrite seq_length; exact I). discriminate. }
  rewrite !(nth_error_nth' (seq 1 _) 0%nat) in E by (rewrite seq_length; assumption). rewrite !seq_nth in E by assumption. cbn [option_map] in E. assert (E' : skipn (length t - (1 + i)) t = skipn (length t - (1 + j)) t) by congruence. apply (f_equal (@length _)) in E'. rewrite !skipn_length in E'. lia.
Qed.
(** counting the members of NoDup lists made from tokens *)
Lemma count_tokens (f : str -> list str) T w (b : str -> bool) : (forall t, In t T -> NoDup (f t)) -> (forall t, In t T -> (In w (f t) <-> b t = true)) ->
  occ w (concat (map f T)) = Z.of_nat (length (filter b T)).
Proof.
  induction T as [|t T IH]; intros ND H; [reflexivity|]. cbn [map concat filter]. rewrite occ_app, IH by (intros t' I'; first [apply ND | apply H]; right; exact I').
  rewrite occ_NoDup by (apply ND; left; reflexivity). destruct (b t) eqn:B; cbn [length].
  - rewrite (proj2 (mem_In w (f t))) by (apply H; [left; reflexivity|exact B]). lia.
  - rewrite (proj2 (mem_In_false w (f t))); [lia|]. intros I. apply H in I; [congruence|left; reflexivity].
Qed.
Lemma dincr_count (L : list str) : let d := fold_left (fun d w => dincr d w 1) L [] in NoDup (dkeys d) /\ forall w, dget d w = if 0 <? occ w L then Some (occ w L) else None.
Proof.
  intros d. assert (E : d = dcount (map (fun w => (w, 1)) L) []). { unfold d, dcount. generalize (@nil (str * Z)). induction L as [|w L IH]; intros d0; [reflexivity|]. cbn [fold_left map fst snd]. apply IH. }
  assert (W : NoDup (dkeys d)) by (rewrite E; apply dwf_dcount; constructor). split; [exact W|]. intros w.
  assert (G : dgetd d w 0 = occ w L). { rewrite E, dgetd_dcount. unfold dgetd. cbn [dget]. rewrite Zsum_map. cbn [fst snd]. unfold occ. rewrite Z.add_0_l. apply Zsum_ext. intros x _. destruct (eqb_spec x w), (eqb_spec w x); congruence. }
  assert (K : dget d w <> None <-> In w L). { rewrite dget_keys, E, dkeys_dcount, map_map. cbn [fst dkeys map]. rewrite map_id. split; [intros [[]|H]; exact H|auto]. }
  destruct (Z.ltb_spec 0 (occ w L)) as [P|P].
  - apply occ_pos_iff, K in P. unfold dgetd in G. destruct (dget d w); congruence.
  - destruct (dget d w) as [n|] eqn:D; [|reflexivity]. exfalso. assert (X : In w L) by (apply K; congruence). apply occ_pos_iff in X. lia.
Qed.
Lemma how_many_iff {A} (P : A -> Prop) (b : A -> bool) l n : (forall x, b x = true <-> P x) -> (how_many P l n <-> n = length (filter b l)).
Proof. intros H. pose proof (how_many_filter P b l H) as X. split; [intros Y; exact (how_many_fun _ _ _ _ Y X)|intros ->; exact X]. Qed.
Definition propsuf_b (r t : str) : bool := (length r <? length t)%nat && eqb (skipn (length t - length r) t) r.
Lemma propsuf_b_spec r t : propsuf_b r t = true <-> exists l, l <> [] /\ t = l ++ r.
Proof.
  unfold propsuf_b. rewrite andb_true_iff, Nat.ltb_lt, eqb_eq. split.
  - intros [L E]. exists (firstn (length t - length r) t). split; [apply firstn_nonempty; lia|]. transitivity (firstn (length t - length r) t ++ skipn (length t - length r) t); [symmetry; apply firstn_skipn|rewrite E; reflexivity].
  - intros (l & NE & ->). pose proof (nonempty_length l NE). rewrite app_length, Nat.add_sub. split; [lia|apply skipn_pre].
Qed.
Lemma scan_spec c pre sents mf : let T := space_words pre sents in let p := scan_vocabulary c pre sents mf in
  NoDup (dkeys (fst p)) /\ (forall l n, dget (fst p) l = Some n <-> frequent_left (v_lm c) mf T l n) /\ (forall r, In r (snd p) <-> frequent_right (v_rm c) mf T r).
Proof.
  intros T p. unfold p, scan_vocabulary. cbv zeta. rewrite scan_tokens_eq. fold T. cbn [fst snd].
  destruct (dincr_count (concat (map (scan_l (v_lm c)) T))) as [WL GL]. destruct (dincr_count (concat (map (scan_r (v_rm c)) T))) as [WR GR].
  split; [unfold dfilter, dkeys; apply (NoDup_filter_map (K:=str)); exact WL|].
  assert (CL : forall l, occ l (concat (map (scan_l (v_lm c)) T)) = if negb (eqb l []) && (Z.of_nat (length l) <=? v_lm c) then Z.of_nat (length (filter (prefix_b l) T)) else 0).
  { intros l. destruct (negb (eqb l []) && (Z.of_nat (length l) <=? v_lm c)) eqn:B.
    - apply andb_true_iff in B as [B1 B2]. apply negb_true_iff, eqb_neq in B1. apply Z.leb_le in B2. apply count_tokens; [intros t _; apply scan_l_NoDup|]. intros t _. rewrite scan_l_In, prefix_b_spec. tauto.
    - apply occ_zero_iff. intros I. apply in_concat in I as (x & I & J). apply in_map_iff in I as (t & <- & I). apply scan_l_In in J as (A & B' & _). apply andb_false_iff in B as [B|B]; [apply negb_false_iff, eqb_eq in B; congruence|apply Z.leb_gt in B; lia]. }
  assert (CR : forall r, occ r (concat (map (scan_r (v_rm c)) T)) = if negb (eqb r []) && (Z.of_nat (length r) <? v_rm c) then Z.of_nat (length (filter (propsuf_b r) T)) else 0).
  { intros r. destruct (negb (eqb r []) && (Z.of_nat (length r) <? v_rm c)) eqn:B.
    - apply andb_true_iff in B as [B1 B2]. apply negb_true_iff, eqb_neq in B1. apply Z.ltb_lt in B2. apply count_tokens; [intros t _; apply scan_r_NoDup|]. intros t _. rewrite scan_r_In, propsuf_b_spec. tauto.
    - apply occ_zero_iff. intros I. apply in_concat in I as (x & I & J). apply in_map_iff in I as (t & <- & I). apply scan_r_In in J as (A & B' & _). apply andb_false_iff in B as [B|B]; [apply negb_false_iff, eqb_eq in B; congruence|apply Z.ltb_ge in B; lia]. }
  split.
  - intros l n. rewrite dget_dfilter by exact WL. rewrite GL, CL. unfold frequent_left. rewrite (how_many_iff _ (prefix_b l) _ _ (prefix_b_spec l)).
    destruct (eqb_spec l []) as [->|NE]; cbn [negb andb]; [cbn [Z.ltb Z.compare]; split; [discriminate|intros (H & _); congruence]|].
    destruct (Z.leb_spec (Z.of_nat (length l)) (v_lm c)) as [A|A]; [|cbn [Z.ltb Z.compare]; split; [discriminate|intros (_ & H & _); lia]].
    destruct (Z.ltb_spec 0 (Z.of_nat (length (filter (prefix_b l) T)))) as [B|B]; [|split; [discriminate|intros (_ & _ & H & _ & E); lia]].
    destruct (Z.geb_spec (Z.of_nat (length (filter (prefix_b l) T))) mf) as [C|C].
    + split; [intros H; injection H as <-; split; [exact NE|]; split; [exact A|]; split; [exact B|]; split; [lia|]; rewrite Nat2Z.id; reflexivity|]. intros (_ & _ & H & _ & E). f_equal. lia.
    + split; [discriminate|]. intros (_ & _ & H & H' & E). lia.
  - intros r. rewrite nonneg_dget_dfilter by exact WR. unfold frequent_right. split.
    + intros (n & D & C). rewrite GR, CR in D. destruct (negb (eqb r []) && (Z.of_nat (length r) <? v_rm c)) eqn:B; [|discriminate]. apply andb_true_iff in B as [B1 B2]. apply negb_true_iff, eqb_neq in B1. apply Z.ltb_lt in B2.
      destruct (Z.ltb_spec 0 (Z.of_nat (length (filter (propsuf_b r) T)))) as [P|P]; [|discriminate]. injection D as <-. apply Z.geb_le in C. split; [exact B1|]. split; [exact B2|]. exists (length (filter (propsuf_b r) T)).
      split; [lia|]. split; [lia|]. apply (how_many_iff _ (propsuf_b r) _ _ (propsuf_b_spec r)). reflexivity.
    + intros (B1 & B2 & n & P & C & H). apply (how_many_iff _ (propsuf_b r) _ _ (propsuf_b_spec r)) in H. subst n. exists (Z.of_nat (length (filter (propsuf_b r) T))). rewrite GR, CR.
      replace (negb (eqb r []) && (Z.of_nat (length r) <? v_rm c)) with true by (symmetry; apply andb_true_iff; split; [apply negb_true_iff, eqb_neq, B1|apply Z.ltb_lt, B2]).
      replace (0 <? Z.of_nat (length (filter (propsuf_b r) T))) with true by (symmetry; apply Z.ltb_lt; lia). split; [reflexivity|]. apply Z.geb_le. lia.
Qed.
