(** * Proofs about BaseVectorizer: transform, to_file, save and load *)
From Coq Require Import QArith Qround.
From Verif Require Import PyBase PyDict PySort PyText PyFile CountLemmas SortLemmas UtilsSpec UtilsProofs UtilsProofs3 UtilsProofs5 VectorizerModel VectorizerSpec VectorizerProofs.
Open Scope Z_scope.

Section Coherent.
Variable v : vocab.
Hypothesis C : coherent v.

Lemma transform_eq {D} (c : vconf D) docs m : transform c v docs = Ok m ->
  docs <> [] /\ nrows m = Z.of_nat (length docs) /\ ncols m = n_vocabs v /\ triplets m = rows v (vtok c) (enumerate docs).
Proof. unfold transform. destruct docs as [|d docs]; [discriminate|]. intros E. injection E as <-. cbn [nrows ncols triplets]. repeat split. discriminate. Qed.
Lemma enumerate_fst_NoDup {A} (l : list A) : NoDup (map fst (enumerate l)).
Proof.
  pose proof (enumerate_sorted l) as S. induction S as [|x m S IH F]; cbn; constructor; [|exact IH].
  intros I. apply in_map_iff in I as (y & E & I). eapply Forall_forall in F; [|exact I]. cbn in F. lia.
Qed.
Lemma transform_NoDup {D} (c : vconf D) docs m : transform c v docs = Ok m -> NoDup (map fst (triplets m)).
Proof. intros E. apply transform_eq in E as (_ & _ & _ & ->). apply rows_NoDup; [exact C|]. apply enumerate_fst_NoDup. Qed.
Lemma transform_range {D} (c : vconf D) docs m i j n : transform c v docs = Ok m -> In (i, j, n) (triplets m) -> 0 <= i < nrows m /\ 0 <= j < ncols m /\ 0 < n.
Proof.
  intros E. apply transform_eq in E as (_ & -> & -> & ->). intros I. apply (rows_In v) in I as (d & I & I'). apply enumerate_In in I as [G I].
  assert (nth_error docs (Z.to_nat i) <> None) as X by congruence. apply nth_error_Some in X.
  pose proof (encode_bow_get v C (vtok c d) j) as B. rewrite (In_dget _ _ _ (eq_ind_r dwf (sel_wf v C _ (counter_wf (vtok c d))) (encode_bow_eq v C (vtok c d))) I') in B.
  destruct ((0 <=? j) && (j <? n_vocabs v)) eqn:R; [|discriminate]. apply andb_true_iff in R as [R1 R2]. apply Z.leb_le in R1. apply Z.ltb_lt in R2.
  cbv zeta in B. destruct (Z.ltb_spec 0 (occ (nth (Z.to_nat j) (idx2vocab v) []) (vtok c d))); [|discriminate]. injection B as ->. lia.
Qed.
Lemma transform_entry {D} (c : vconf D) docs m (i j : nat) d t : transform c v docs = Ok m ->
  nth_error docs i = Some d -> nth_error (idx2vocab v) j = Some t -> entryZ m (Z.of_nat i) (Z.of_nat j) = occ t (vtok c d).
Proof.
  intros E Ei Ej. rewrite (entry_unique m _ _ (transform_NoDup _ _ _ E)).
  assert (dwf (map (fun t : Z * Z * Z => (fst t, snd t)) (triplets m))) as W. { unfold dwf, dkeys. rewrite map_map. apply (transform_NoDup _ _ _ E). }
  pose proof (transform_range c docs m (Z.of_nat i) (Z.of_nat j)) as RG.
  pose proof E as E'. apply transform_eq in E' as (_ & _ & _ & ET).
  assert (forall n, In (Z.of_nat i, Z.of_nat j, n) (triplets m) <-> 0 < occ t (vtok c d) /\ n = occ t (vtok c d)) as A.
  { intros n. rewrite ET, (rows_In v).
    assert (forall d', In (Z.of_nat i, d') (enumerate docs) <-> d' = d) as Q. { intros d'. rewrite enumerate_In, Nat2Z.id, Ei. split; [intros [_ Q]; congruence|intros ->; split; [lia|reflexivity]]. }
    assert (forall n, In (Z.of_nat j, n) (encode_bow v (vtok c d)) <-> 0 < occ t (vtok c d) /\ n = occ t (vtok c d)) as Q2.
    { intros k. rewrite <- (dget_In_iff _ _ _ (eq_ind_r dwf (sel_wf v C _ (counter_wf (vtok c d))) (encode_bow_eq v C (vtok c d)))).
      rewrite (encode_bow_get v C). destruct C as (N & L & B). assert (nth_error (idx2vocab v) j <> None) as X by congruence. apply nth_error_Some in X.
      destruct (Z.leb_spec 0 (Z.of_nat j)); [|lia]. destruct (Z.ltb_spec (Z.of_nat j) (n_vocabs v)); [|lia]. cbn [andb]. cbv zeta.
      rewrite Nat2Z.id, (nth_error_nth _ _ _ Ej). destruct (Z.ltb_spec 0 (occ t (vtok c d))); split; [intros X'; injection X' as <-; auto|intros [_ ->]; reflexivity|discriminate|lia]. }
    split; [intros (d' & I & I')|intros I; exists d; split; [apply Q; reflexivity|apply Q2, I]]. apply Q in I as ->. apply Q2, I'. }
  assert (forall n, In (Z.of_nat i, Z.of_nat j, n) (map (fun t : Z * Z * Z => (fst t, snd t)) (triplets m)) <-> In (Z.of_nat i, Z.of_nat j, n) (triplets m)) as M.
  { intros n. rewrite in_map_iff. split; [intros ([[a b] k] & Q & I); cbn in Q; injection Q as -> -> ->; exact I|intros I; exists (Z.of_nat i, Z.of_nat j, n); auto]. }
  destruct (dget _ (Z.of_nat i, Z.of_nat j)) as [n|] eqn:G.
  - apply dget_In, M, A in G as [_ G]. exact G.
  - pose proof (occ_nonneg t (vtok c d)). destruct (Z.ltb_spec 0 (occ t (vtok c d))) as [P|P]; [|lia].
    exfalso. assert (In (Z.of_nat i, Z.of_nat j, occ t (vtok c d)) (triplets m)) as I by (apply A; auto). apply M in I. apply (In_dget _ _ _ W) in I. congruence.
Qed.

(** ** to_file *)
Lemma seen_snoc {K} `{EqB K} (l : list K) x : seen (l ++ [x]) = if mem x (seen l) then seen l else seen l ++ [x].
Proof. unfold seen. rewrite fold_left_app. reflexivity. Qed.
Lemma encode_app a b : encode_list v (a ++ b) = encode_list v a ++ encode_list v b.
Proof. unfold encode_list. rewrite map_app, concat_app. reflexivity. Qed.
Lemma encode_In l i : In i (encode_list v l) <-> exists t, In t l /\ dget (vocabulary v) t = Some i.
Proof.
  unfold encode_list. rewrite in_concat. setoid_rewrite in_map_iff. split.
  - intros (x & (t & <- & I) & Hx). destruct (dget (vocabulary v) t) as [j|] eqn:G; [|destruct Hx]. destruct Hx as [<-|[]]. exists t. auto.
  - intros (t & I & G). exists [i]. split; [|left; reflexivity]. exists t. rewrite G. auto.
Qed.
Lemma seen_encode l : seen (encode_list v l) = encode_list v (seen l).
Proof.
  induction l as [|t l IH] using rev_ind; [reflexivity|]. rewrite encode_app. unfold encode_list at 2. cbn [map concat]. rewrite app_nil_r. rewrite (seen_snoc l t).
  destruct (dget (vocabulary v) t) as [i|] eqn:G.
  - rewrite seen_snoc, IH. destruct (mem t (seen l)) eqn:M.
    + apply mem_In in M. assert (mem i (encode_list v (seen l)) = true) as ->; [|reflexivity]. apply mem_In, encode_In. exists t. auto.
    + assert (mem i (encode_list v (seen l)) = false) as ->.
      { apply mem_In_false. intros I. apply encode_In in I as (t' & I & G'). assert (t' = t) by (eapply (coh_inj v C); eauto). subst. apply mem_In_false in M. tauto. }
      rewrite encode_app. unfold encode_list at 3. cbn [map concat]. rewrite G. reflexivity.
  - rewrite app_nil_r, IH. destruct (mem t (seen l)); [reflexivity|]. rewrite encode_app. unfold encode_list at 3. cbn [map concat]. rewrite G, !app_nil_r. reflexivity.
Qed.
Lemma occ_encode l t i : dget (vocabulary v) t = Some i -> occ i (encode_list v l) = occ t l.
Proof.
  intros G. unfold occ. induction l as [|x l IH]; [reflexivity|]. unfold encode_list. cbn [map concat]. fold (encode_list v l).
  destruct (dget (vocabulary v) x) as [j|] eqn:G'; cbn [app Zsum]; rewrite IH.
  - destruct (eqb_spec i j) as [->|N], (eqb_spec t x) as [->|N']; try reflexivity; [exfalso; apply N'; eapply (coh_inj v C); eauto|congruence].
  - destruct (eqb_spec t x) as [->|N']; [congruence|lia].
Qed.
Lemma counter_encode toks : counter (encode_list v toks) = encode_bow v toks.
Proof.
  rewrite (encode_bow_eq v C), (counter_pairs (encode_list v toks)), (counter_pairs toks), !counter_seen, seen_encode.
  generalize (seen toks) as l. induction l as [|t l IH]; [reflexivity|]. unfold encode_list at 2, sel. cbn [map concat fst snd]. fold (encode_list v l).
  destruct (dget (vocabulary v) t) as [i|] eqn:G; cbn [app map]; rewrite IH; [|reflexivity]. rewrite (occ_encode _ _ _ G). reflexivity.
Qed.
Lemma bow_length toks : length (encode_bow v toks) = length (nodup (list_eq_dec N.eq_dec) (filter (dmem (vocabulary v)) toks)).
Proof.
  rewrite <- counter_encode. rewrite <- (map_length fst). change (map fst (counter (encode_list v toks))) with (dkeys (counter (encode_list v toks))).
  rewrite counter_seen, seen_encode. transitivity (length (filter (dmem (vocabulary v)) (seen toks))).
  - generalize (seen toks) as l. induction l as [|t l IH]; [reflexivity|]. unfold encode_list, dmem. cbn [map concat filter]. fold (encode_list v l).
    destruct (dget (vocabulary v) t); cbn [app length]; rewrite IH; reflexivity.
  - apply Permutation_length, NoDup_Permutation; [apply NoDup_filter, seen_NoDup|apply NoDup_nodup|]. intros x. rewrite nodup_In, !filter_In, seen_In. tauto.
Qed.
Lemma file_row3 a b c : file_row [a; b; c] = mm_row a b c.
Proof. unfold file_row, mm_row. cbn [map join]. rewrite <- !app_assoc. reflexivity. Qed.
Lemma rows_length {D} (tok : D -> list str) (docs : list (Z * D)) :
  Z.of_nat (length (rows v tok docs)) = Zsum (fun d => Z.of_nat (length (nodup (list_eq_dec N.eq_dec) (filter (dmem (vocabulary v)) (tok d))))) (map snd docs).
Proof.
  unfold rows. induction docs as [|d docs IH]; [reflexivity|]. cbn [map concat Zsum]. rewrite app_length, map_length, Nat2Z.inj_add, IH, bow_length. reflexivity.
Qed.
Lemma to_file_mm {D} (c : vconf D) docs m : transform c v docs = Ok m -> to_file c v docs = Ok (mm_file m).
Proof.
  intros E. apply transform_eq in E as (NE & Er & Ec & Et). unfold to_file. destruct docs as [|d0 docs'] eqn:ED; [tauto|]. rewrite <- ED in *. clear ED NE d0 docs'.
  f_equal. unfold mm_file. rewrite Er, Ec, Et, rows_length, enumerate_snd, file_row3. do 5 f_equal.
  unfold rows. generalize (enumerate docs) as l. clear Er Ec Et. induction l as [|d l IH]; [reflexivity|]. cbn [map concat]. rewrite map_app, concat_app, <- IH. f_equal.
  rewrite counter_encode, map_map. f_equal. apply map_ext. intros [j n]. cbn [fst snd]. apply file_row3.
Qed.
End Coherent.

(** ** save and load *)
Lemma load_save v : Forall (fun t => strip t = t /\ no_nl t) (idx2vocab v) -> v_load (v_save v) = set_vocabulary (idx2vocab v).
Proof.
  intros F. unfold v_load, v_save. rewrite file_lines_concat; [|eapply Forall_impl; [|exact F]; cbn; tauto].
  f_equal. rewrite map_map. rewrite <- (map_id (idx2vocab v)) at 2. apply map_ext_in. intros t I. eapply Forall_forall in F; [|exact I]. destruct F as [S N].
  change (t ++ [10%N]) with ([] ++ t ++ [10%N]). apply stripped_strip; [|constructor|repeat constructor].
  destruct (strip_decomp t) as (_ & _ & _ & _ & _ & X). rewrite S in X. exact X.
Qed.
Lemma split_tokens_ok s t : In t (split s) -> strip t = t /\ no_nl t.
Proof.
  intros I. pose proof (runs_Forall nonspace s) as F. eapply Forall_forall in F; [|exact I]. destruct F as [NE F].
  assert (Forall (fun c => is_space c = false) t) as F'. { eapply Forall_impl; [|exact F]. intros c E. apply nonspace_true, E. }
  split; [|apply nospace_no_nl; exact F']. apply strip_stripped. right. split.
  - destruct t as [|c t]; [congruence|]. exists c, t. inversion F'; auto.
  - destruct (last_nonnil t NE) as (l & x & ->). exists l, x. apply Forall_app in F' as [_ F']. inversion F'; auto.
Qed.
Lemma fterms_In {D} (c : vconf D) docs t : In t (fterms c docs) <-> (exists d, In d docs /\ In t (vtok c d)) /\ fpass c docs t = true.
Proof.
  unfold fterms. assert (forall l : list str, In t (sort (fun x y => - doc_freq (vtok c) docs x <=? - doc_freq (vtok c) docs y) l) <-> In t l) as S.
  { intros l. split; apply Permutation_in; [apply Permutation_sym|]; (apply sort_perm || apply Permutation_sym, sort_perm). }
  rewrite S, filter_In. change (first_seen (concat (map (vtok c) docs))) with (seen (concat (map (vtok c) docs))). rewrite seen_In, in_concat. setoid_rewrite in_map_iff.
  split; [intros [(x & (d & <- & I) & J) P]; split; [exists d; auto|exact P]|intros [(d & I & J) P]; split; [|exact P]; exists (vtok c d); split; [exists d; auto|exact J]].
Qed.
