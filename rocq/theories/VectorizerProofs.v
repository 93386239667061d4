(** * Proofs about BaseVectorizer *)
From Coq Require Import QArith Qround.
From Verif Require Import PyBase PyDict PySort PyText PyFile CountLemmas SortLemmas UtilsSpec UtilsProofs UtilsProofs3 UtilsProofs5 VectorizerModel VectorizerSpec.
Open Scope Z_scope.

(** ** counters *)
Lemma counter_dcount {K} `{EqB K} (l : list K) (d : dict K Z) : fold_left (fun d k => dincr d k 1) l d = dcount (map (fun k => (k, 1)) l) d.
Proof. revert d. induction l as [|k l IH]; intros d; [reflexivity|]. apply IH. Qed.
Lemma counter_getd {K} `{EqB K} (l : list K) k : dgetd (counter l) k 0 = occ k l.
Proof.
  unfold counter. rewrite counter_dcount, dgetd_dcount, Zsum_map. unfold occ. cbn. apply Zsum_ext. intros x _. cbn. rewrite (eqb_sym x k). reflexivity.
Qed.
Lemma counter_wf {K} `{EqB K} (l : list K) : dwf (counter l).
Proof. unfold counter. rewrite counter_dcount. apply dwf_dcount, dwf_nil. Qed.
Lemma counter_keys {K} `{EqB K} (l : list K) k : In k (dkeys (counter l)) <-> In k l.
Proof. unfold counter. rewrite counter_dcount, dkeys_dcount, map_map. cbn. rewrite map_id. tauto. Qed.
Lemma counter_get {K} `{EqB K} (l : list K) k : dget (counter l) k = if mem k l then Some (occ k l) else None.
Proof.
  pose proof (counter_getd l k) as G. unfold dgetd in G. destruct (mem k l) eqn:M.
  - apply mem_In in M. apply counter_keys in M. apply dget_keys in M. destruct (dget (counter l) k); [congruence|tauto].
  - apply mem_In_false in M. apply dget_None. rewrite counter_keys. exact M.
Qed.
Lemma counter_val {K} `{EqB K} (l : list K) k c : In (k, c) (counter l) -> c = occ k l.
Proof. intros I. apply (In_dget _ _ _ (counter_wf l)) in I. rewrite <- counter_getd. unfold dgetd. rewrite I. reflexivity. Qed.
Lemma counter_pairs {K} `{EqB K} (l : list K) : counter l = map (fun k => (k, occ k l)) (dkeys (counter l)).
Proof.
  unfold dkeys. rewrite map_map. rewrite <- (map_id (counter l)) at 1. apply map_ext_in. intros [k c] I. cbn. rewrite (counter_val _ _ _ I). reflexivity.
Qed.
Definition seen {K} `{EqB K} (l : list K) : list K := fold_left (fun acc x => if mem x acc then acc else acc ++ [x]) l [].
Lemma dkeys_dincr {K} `{EqB K} (d : dict K Z) k v : dkeys (dincr d k v) = if mem k (dkeys d) then dkeys d else dkeys d ++ [k].
Proof.
  unfold dincr. rewrite dset_keys. destruct (dmem d k) eqn:M, (mem k (dkeys d)) eqn:M'; try reflexivity.
  - apply dmem_keys in M. apply mem_In_false in M'. contradiction.
  - apply mem_In, dmem_keys in M'. congruence.
Qed.
Lemma counter_keys_seen {K} `{EqB K} (l : list K) : forall d, dkeys (fold_left (fun d k => dincr d k 1) l d) = fold_left (fun acc x => if mem x acc then acc else acc ++ [x]) l (dkeys d).
Proof. induction l as [|k l IH]; intros d; [reflexivity|]. cbn [fold_left]. rewrite IH, dkeys_dincr. reflexivity. Qed.
Lemma counter_seen {K} `{EqB K} (l : list K) : dkeys (counter l) = seen l. Proof. exact (counter_keys_seen l []). Qed.
Lemma seen_In {K} `{EqB K} (l : list K) x : In x (seen l) <-> In x l. Proof. rewrite <- counter_seen. apply counter_keys. Qed.
Lemma seen_NoDup {K} `{EqB K} (l : list K) : NoDup (seen l). Proof. rewrite <- counter_seen. apply counter_wf. Qed.

(** the fold, resumed on the keys only *)
Lemma seen_app {K} `{EqB K} (l1 l2 : list K) : fold_left (fun acc x => if mem x acc then acc else acc ++ [x]) (l1 ++ l2) [] = fold_left (fun acc x => if mem x acc then acc else acc ++ [x]) l2 (seen l1).
Proof. apply fold_left_app. Qed.
Lemma seen_acc {K} `{EqB K} (l : list K) : forall acc, fold_left (fun acc x => if mem x acc then acc else acc ++ [x]) l acc = acc ++ filter (fun x => negb (mem x acc)) (seen l).
Proof.
  induction l as [|x l IH] using rev_ind; intros acc; [cbn; rewrite app_nil_r; reflexivity|].
  unfold seen. rewrite !fold_left_app. fold (seen l). cbn [fold_left]. rewrite IH.
  destruct (mem x (seen l)) eqn:M1.
  - destruct (mem x (acc ++ filter (fun x0 => negb (mem x0 acc)) (seen l))) eqn:M2; [reflexivity|].
    apply mem_In_false in M2. apply mem_In in M1. exfalso. apply M2. apply in_or_app.
    destruct (mem x acc) eqn:M3; [left; apply mem_In, M3|right]. apply filter_In. rewrite M3. auto.
  - rewrite filter_app. cbn [filter]. destruct (mem x acc) eqn:M3; cbn [negb].
    + assert (mem x (acc ++ filter (fun x0 => negb (mem x0 acc)) (seen l)) = true) as ->. { apply mem_In, in_or_app. left. apply mem_In, M3. }
      rewrite app_nil_r. reflexivity.
    + assert (mem x (acc ++ filter (fun x0 => negb (mem x0 acc)) (seen l)) = false) as ->.
      { apply mem_In_false. intros I. apply in_app_or in I. destruct I as [I|I]; [apply mem_In_false in M3; tauto|]. apply filter_In in I. apply mem_In_false in M1. tauto. }
      rewrite app_assoc. reflexivity.
Qed.

(** ** enumerate *)
Lemma enumerate_from {A} (l : list A) : forall b, combine (map Z.of_nat (seq b (length l))) l = map (fun i => i) (combine (map Z.of_nat (seq b (length l))) l).
Proof. intros. rewrite map_id. reflexivity. Qed.
Lemma enumerate_snd {A} (l : list A) : map snd (enumerate l) = l.
Proof.
  unfold enumerate. assert (forall b, map snd (combine (map Z.of_nat (seq b (length l))) l) = l) as E; [|apply E].
  induction l as [|x l IH]; intros b; [reflexivity|]. cbn. rewrite IH. reflexivity.
Qed.
Lemma enumerate_In {A} (l : list A) i x : In (i, x) (enumerate l) <-> 0 <= i /\ nth_error l (Z.to_nat i) = Some x.
Proof.
  unfold enumerate. assert (forall b, In (i, x) (combine (map Z.of_nat (seq b (length l))) l) <-> Z.of_nat b <= i /\ nth_error l (Z.to_nat i - b) = Some x) as E.
  { induction l as [|y l IH]; intros b; cbn [length seq map combine In].
    - split; [tauto|]. intros [_ E]. destruct (Z.to_nat i - b)%nat; discriminate.
    - rewrite (IH (S b)). split.
      + intros [E|[L E]].
        * injection E as <- ->. rewrite Nat2Z.id, Nat.sub_diag. split; [lia|reflexivity].
        * split; [lia|]. replace (Z.to_nat i - b)%nat with (S (Z.to_nat i - S b))%nat by lia. exact E.
      + intros [L E]. destruct (Z.eq_dec i (Z.of_nat b)) as [->|N].
        * left. rewrite Nat2Z.id, Nat.sub_diag in E. cbn in E. congruence.
        * right. split; [lia|]. replace (Z.to_nat i - b)%nat with (S (Z.to_nat i - S b))%nat in E by lia. exact E. }
  specialize (E 0%nat). rewrite Nat.sub_0_r in E. exact E.
Qed.
Lemma enumerate_sorted {A} (l : list A) : StronglySorted (fun x y : Z * A => fst x < fst y) (enumerate l).
Proof.
  unfold enumerate. assert (forall b, StronglySorted (fun x y : Z * A => fst x < fst y) (combine (map Z.of_nat (seq b (length l))) l)
      /\ Forall (fun x => Z.of_nat b <= fst x) (combine (map Z.of_nat (seq b (length l))) l)) as E; [|apply E].
  induction l as [|x l IH]; intros b; cbn; [split; constructor|].
  destruct (IH (S b)) as [S F]. split.
  - constructor; [exact S|]. eapply Forall_impl; [|exact F]. cbn. intros; lia.
  - constructor; [cbn; lia|]. eapply Forall_impl; [|exact F]. cbn. intros; lia.
Qed.
Lemma enumerate_length {A} (l : list A) : length (enumerate l) = length l.
Proof. rewrite <- (enumerate_snd l) at 2. rewrite map_length. reflexivity. Qed.

(** ** the two tables of set_vocabulary *)
Lemma set_vocab_keys l : NoDup l -> vocabulary (set_vocabulary l) = map (fun it => (snd it, fst it)) (enumerate l).
Proof.
  intros N. cbn. apply dict_of_wf. rewrite map_map. cbn. rewrite enumerate_snd. exact N.
Qed.
Lemma set_vocab_coherent l : NoDup l -> coherent (set_vocabulary l).
Proof.
  intros N. split; [exact N|]. split; [reflexivity|]. intros t i. rewrite (set_vocab_keys l N). cbn [idx2vocab set_vocabulary].
  assert (dwf (map (fun it : Z * str => (snd it, fst it)) (enumerate l))) as W. { unfold dwf, dkeys. rewrite map_map. cbn. rewrite enumerate_snd. exact N. }
  rewrite (dget_In_iff _ _ _ W). rewrite in_map_iff, <- enumerate_In. split.
  - intros ([j x] & E & I). cbn in E. injection E as -> ->. exact I.
  - intros I. exists (i, t). auto.
Qed.
Lemma coherent_set_NoDup l : coherent (set_vocabulary l) -> NoDup l. Proof. intros [N _]. exact N. Qed.
Lemma map_fst_sort_enum (l : list str) : map fst (sort (fun x y : str * Z => snd x <=? snd y) (map (fun it => (snd it, fst it)) (enumerate l))) = l.
Proof.
  assert (sort (fun x y : str * Z => snd x <=? snd y) (map (fun it => (snd it, fst it)) (enumerate l)) = map (fun it => (snd it, fst it)) (enumerate l)) as ->.
  { apply sort_id.
    pose proof (enumerate_sorted l) as S. induction S as [|x m S IH F]; cbn; constructor; [exact IH|].
    apply Forall_map. eapply Forall_impl; [|exact F]. cbn. intros y L. apply Z.leb_le. lia. }
  rewrite map_map. cbn. apply enumerate_snd.
Qed.

(** ** fit *)
Definition dfz {D} (tok : D -> list str) (docs : list D) : list str := concat (map (fun d => dkeys (counter (tok d))) docs).
Lemma count_doc_eq acc tokens : count_doc acc tokens =
  (fold_left (fun d k => dincr d k 1) (dkeys (counter tokens)) (fst acc), fold_left (fun d k => dincr d k 1) (dkeys (counter tokens)) (snd acc)).
Proof.
  unfold count_doc, dkeys. destruct acc as [a b]. cbn [fst snd]. generalize (counter tokens) as l.
  intros l. revert a b. induction l as [|[k c] l IH]; intros a b; [reflexivity|]. cbn [fold_left map fst snd]. rewrite IH. reflexivity.
Qed.
Lemma count_docs_eq {D} (tok : D -> list str) docs : forall a, fold_left (fun acc doc => count_doc acc (tok doc)) docs (a, a) =
  (fold_left (fun d k => dincr d k 1) (dfz tok docs) a, fold_left (fun d k => dincr d k 1) (dfz tok docs) a).
Proof.
  unfold dfz. induction docs as [|d docs IH]; intros a; [reflexivity|]. cbn [fold_left map concat]. rewrite count_doc_eq. cbn [fst snd]. rewrite IH.
  rewrite !fold_left_app. reflexivity.
Qed.
Lemma occ_NoDup {K} `{EqB K} (l : list K) k : NoDup l -> occ k l = if mem k l then 1 else 0.
Proof.
  unfold occ. induction l as [|x l IH]; intros N; [reflexivity|]. inversion N as [|? ? NI N']; subst. cbn [Zsum]. rewrite (IH N'). unfold mem. cbn [existsb].
  fold (mem k l). destruct (eqb_spec k x) as [->|]; [|reflexivity]. apply mem_In_false in NI. rewrite NI. reflexivity.
Qed.
Lemma dfz_occ {D} (tok : D -> list str) docs t : occ t (dfz tok docs) = doc_freq tok docs t.
Proof.
  unfold dfz, doc_freq. induction docs as [|d docs IH]; [reflexivity|]. cbn [map concat filter]. rewrite occ_app, IH, (occ_NoDup _ _ (counter_wf _)).
  assert (mem t (dkeys (counter (tok d))) = mem t (tok d)) as ->.
  { destruct (mem t (tok d)) eqn:M; [apply mem_In, counter_keys, mem_In, M|apply mem_In_false; rewrite counter_keys; apply mem_In_false, M]. }
  destruct (mem t (tok d)); cbn [length]; lia.
Qed.
Lemma seen_seen {K} `{EqB K} (l : list K) : forall acc, fold_left (fun acc x => if mem x acc then acc else acc ++ [x]) (seen l) acc = fold_left (fun acc x => if mem x acc then acc else acc ++ [x]) l acc.
Proof.
  intros acc. rewrite (seen_acc l acc), (seen_acc (seen l) acc). do 2 f_equal.
  assert (forall m : list K, NoDup m -> seen m = m) as E; [|apply E, seen_NoDup].
  intros m. induction m as [|x m IH] using rev_ind; intros N; [reflexivity|]. unfold seen. rewrite fold_left_app. fold (seen m).
  apply NoDup_remove in N as [N1 N2]. rewrite app_nil_r in N1, N2. rewrite (IH N1). cbn. apply mem_In_false in N2. rewrite N2. reflexivity.
Qed.
Lemma seen_dfz {D} (tok : D -> list str) docs : forall acc,
  fold_left (fun acc x => if mem x acc then acc else acc ++ [x]) (dfz tok docs) acc = fold_left (fun acc x => if mem x acc then acc else acc ++ [x]) (concat (map tok docs)) acc.
Proof.
  unfold dfz. induction docs as [|d docs IH]; intros acc; [reflexivity|]. cbn [map concat]. rewrite !fold_left_app, counter_seen, seen_seen, IH. reflexivity.
Qed.
Definition fpass {D} (c : vconf D) (docs : list D) (t : str) : bool :=
  let n := doc_freq (vtok c) docs t in
  (Qfloor (inject_Z (Z.of_nat (length docs)) * min_df c) <=? n) && (n <=? Qfloor (inject_Z (Z.of_nat (length docs)) * max_df c)) &&
  ((min_tf c <=? n) && (n <=? max_tf c)).
Definition fterms {D} (c : vconf D) (docs : list D) : list str :=
  sort (fun x y => - doc_freq (vtok c) docs x <=? - doc_freq (vtok c) docs y) (filter (fpass c docs) (first_seen (concat (map (vtok c) docs)))).
Lemma sort_NoDup {A} (le : A -> A -> bool) l : NoDup l -> NoDup (sort le l).
Proof. intros N. eapply Permutation_NoDup; [|exact N]. apply Permutation_sym, sort_perm || apply sort_perm. Qed.
Lemma fit_eq {D} (c : vconf D) docs : fit c docs = match docs with [] => Err UnboundLocalError | _ => Ok (set_vocabulary (fterms c docs)) end.
Proof.
  unfold fit. rewrite count_docs_eq. destruct docs as [|d0 docs']; [reflexivity|]. set (docs := d0 :: docs'). cbv zeta.
  set (mn := Qfloor (inject_Z (Z.of_nat (length docs)) * min_df c)). set (mx := Qfloor (inject_Z (Z.of_nat (length docs)) * max_df c)).
  set (df := fold_left (fun d k => dincr d k 1) (dfz (vtok c) docs) []).
  assert (df = map (fun t => (t, doc_freq (vtok c) docs t)) (first_seen (concat (map (vtok c) docs)))) as E.
  { unfold df. fold (counter (dfz (vtok c) docs)). rewrite counter_pairs, counter_seen. unfold seen, first_seen. rewrite seen_dfz. apply map_ext. intros t. rewrite dfz_occ. reflexivity. }
  assert (dwf df) as W by (apply counter_wf).
  assert (dfilter (fun t _ => dmem (dfilter (fun _ v => (mn <=? v) && (v <=? mx)) df) t) (dfilter (fun _ v => (min_tf c <=? v) && (v <=? max_tf c)) df) =
    map (fun t => (t, doc_freq (vtok c) docs t)) (filter (fpass c docs) (first_seen (concat (map (vtok c) docs))))) as ->.
  { unfold dfilter at 1 3. rewrite filter_filter_comm. transitivity (filter (fun kv : str * Z => fpass c docs (fst kv)) df).
    - apply filter_ext_in. intros [t n] I. cbn [fst snd]. unfold dmem. rewrite (dget_dfilter _ _ _ W), (In_dget _ _ _ W I).
      rewrite E in I. apply in_map_iff in I as (t' & I & _). injection I as -> <-. unfold fpass. fold mn mx.
      rewrite andb_comm. destruct ((mn <=? doc_freq (vtok c) docs t) && (doc_freq (vtok c) docs t <=? mx)); reflexivity.
    - rewrite E, filter_map_comm. reflexivity. }
  set (L := filter (fpass c docs) (first_seen (concat (map (vtok c) docs)))).
  assert (NoDup L) as N by (apply NoDup_filter, (seen_NoDup (concat (map (vtok c) docs)))).
  assert (sort (fun x y : str * Z => - snd x <=? - snd y) (map (fun t => (t, doc_freq (vtok c) docs t)) L) = map (fun t => (t, doc_freq (vtok c) docs t)) (fterms c docs)) as ->.
  { unfold fterms. fold L. symmetry. apply sort_map. reflexivity. }
  assert (map (fun it : Z * (str * Z) => (fst (snd it), fst it)) (enumerate (map (fun t => (t, doc_freq (vtok c) docs t)) (fterms c docs))) = map (fun it => (snd it, fst it)) (enumerate (fterms c docs))) as ->.
  { unfold enumerate. rewrite map_length. generalize 0%nat. induction (fterms c docs) as [|t l IH]; intros b; [reflexivity|]. cbn. rewrite IH. reflexivity. }
  assert (NoDup (fterms c docs)) as N' by (apply sort_NoDup, N).
  fold (vocabulary (set_vocabulary (fterms c docs))).
  change (dict_of (map (fun it : Z * str => (snd it, fst it)) (enumerate (fterms c docs)))) with (vocabulary (set_vocabulary (fterms c docs))).
  assert (map fst (sort (fun x y : str * Z => snd x <=? snd y) (vocabulary (set_vocabulary (fterms c docs)))) = fterms c docs) as ->; [|reflexivity].
  rewrite (set_vocab_keys _ N'). apply map_fst_sort_enum.
Qed.
Lemma fterms_NoDup {D} (c : vconf D) docs : NoDup (fterms c docs).
Proof. apply sort_NoDup, NoDup_filter, (seen_NoDup (concat (map (vtok c) docs))). Qed.

(** ** encode and decode *)
Section Coherent.
Variable v : vocab.
Hypothesis C : coherent v.
Lemma coh_mem t : dget (vocabulary v) t <> None <-> In t (idx2vocab v).
Proof.
  destruct C as (N & L & B). split.
  - destruct (dget (vocabulary v) t) as [i|] eqn:E; [|tauto]. intros _. apply B in E as [_ E]. eapply nth_error_In, E.
  - intros I. apply In_nth_error in I as [n E]. assert (dget (vocabulary v) t = Some (Z.of_nat n)) as ->; [|discriminate].
    apply B. rewrite Nat2Z.id. split; [lia|exact E].
Qed.
Lemma coh_memb t : dmem (vocabulary v) t = mem t (idx2vocab v).
Proof.
  destruct (mem t (idx2vocab v)) eqn:M; unfold dmem; destruct (dget (vocabulary v) t) as [i|] eqn:E; try reflexivity.
  - apply mem_In, coh_mem in M. congruence.
  - apply mem_In_false in M. rewrite <- coh_mem in M. rewrite E in M. exfalso. apply M. discriminate.
Qed.
Lemma coh_range t i : dget (vocabulary v) t = Some i -> (0 <=? i) && (i <? n_vocabs v) = true.
Proof.
  destruct C as (N & L & B). intros E. apply B in E as [G E]. apply andb_true_iff. rewrite Z.leb_le, Z.ltb_lt.
  assert (nth_error (idx2vocab v) (Z.to_nat i) <> None) as X by congruence. apply nth_error_Some in X. lia.
Qed.
Lemma coh_inj t t' i : dget (vocabulary v) t = Some i -> dget (vocabulary v) t' = Some i -> t = t'.
Proof. destruct C as (N & L & B). intros E E'. apply B in E as [_ E]. apply B in E' as [_ E']. congruence. Qed.
Lemma decode_encode_list toks : decode_list v (encode_list v toks) = Ok (filter (fun t => mem t (idx2vocab v)) toks).
Proof.
  unfold decode_list, encode_list. induction toks as [|t toks IH]; [reflexivity|]. cbn [map concat filter]. rewrite <- coh_memb. unfold dmem.
  destruct (dget (vocabulary v) t) as [i|] eqn:E; [|exact IH]. cbn [app filter]. rewrite (coh_range _ _ E). cbn [mapM].
  destruct C as (N & L & B). apply B in E as [_ E]. rewrite E. cbn [bind]. rewrite IH. reflexivity.
Qed.
Lemma encode_decode_list is : exists toks, decode_list v is = Ok toks /\ encode_list v toks = filter (fun i => (0 <=? i) && (i <? n_vocabs v)) is.
Proof.
  destruct C as (N & L & B). unfold decode_list, encode_list. induction is as [|i is (toks & IH & IH')]; [exists []; auto|]. cbn [filter].
  destruct ((0 <=? i) && (i <? n_vocabs v)) eqn:R; [|exists toks; auto]. cbn [mapM].
  apply andb_true_iff in R as [R1 R2]. apply Z.leb_le in R1. apply Z.ltb_lt in R2.
  destruct (nth_error (idx2vocab v) (Z.to_nat i)) as [t|] eqn:E; [|apply nth_error_None in E; lia].
  cbn [bind]. rewrite IH. cbn [bind]. exists (t :: toks). split; [reflexivity|]. cbn [map concat].
  assert (dget (vocabulary v) t = Some i) as -> by (apply B; auto). cbn [app]. rewrite IH'. reflexivity.
Qed.
Definition sel (l : dict str Z) : dict Z Z := concat (map (fun tc => match dget (vocabulary v) (fst tc) with Some i => [(i, snd tc)] | None => [] end) l).
Lemma sel_In l i n : In (i, n) (sel l) <-> exists t, dget (vocabulary v) t = Some i /\ In (t, n) l.
Proof.
  unfold sel. rewrite in_concat. setoid_rewrite in_map_iff. split.
  - intros (x & ([t m] & E & I) & Hx). cbn in E. destruct (dget (vocabulary v) t) as [j|] eqn:G; subst x; [|destruct Hx].
    destruct Hx as [Hx|[]]. injection Hx as -> ->. exists t. auto.
  - intros (t & G & I). exists [(i, n)]. split; [|left; reflexivity]. exists (t, n). cbn. rewrite G. auto.
Qed.
Lemma sel_wf l : dwf l -> dwf (sel l).
Proof.
  unfold dwf, dkeys. induction l as [|[t n] l IH]; intros W; [constructor|]. inversion W as [|? ? NI W']; subst. unfold sel. cbn [map concat fst snd]. fold (sel l).
  destruct (dget (vocabulary v) t) as [i|] eqn:G; [|apply IH, W']. cbn [app map fst]. constructor; [|apply IH, W'].
  intros I. apply in_map_iff in I as ([j m] & E & I). cbn in E. subst j. apply sel_In in I as (t' & G' & I). assert (t' = t) by (eapply coh_inj; eauto). subst.
  apply NI. apply (in_map fst) in I. exact I.
Qed.
Lemma encode_bow_eq toks : encode_bow v toks = sel (counter toks).
Proof. unfold encode_bow. apply dict_of_wf. apply (sel_wf _ (counter_wf toks)). Qed.
Lemma encode_bow_get toks i : dget (encode_bow v toks) i =
  if (0 <=? i) && (i <? n_vocabs v) then (let n := occ (nth (Z.to_nat i) (idx2vocab v) []) toks in if 0 <? n then Some n else None) else None.
Proof.
  rewrite encode_bow_eq. destruct ((0 <=? i) && (i <? n_vocabs v)) eqn:R.
  - apply andb_true_iff in R as [R1 R2]. apply Z.leb_le in R1. apply Z.ltb_lt in R2. destruct C as (N & L & B).
    destruct (nth_error (idx2vocab v) (Z.to_nat i)) as [t|] eqn:E; [|apply nth_error_None in E; lia].
    rewrite (nth_error_nth _ _ _ E). cbv zeta. pose proof (occ_pos_iff t toks) as P. destruct (Z.ltb_spec 0 (occ t toks)) as [G|G].
    + apply In_dget; [apply sel_wf, counter_wf|]. apply sel_In. exists t. split; [apply B; auto|]. apply dget_In. rewrite counter_get.
      apply P in G. apply mem_In in G. rewrite G. reflexivity.
    + apply dget_None. intros I. apply in_map_iff in I as ([j m] & Ej & I). cbn in Ej. subst j. apply sel_In in I as (t' & G' & I).
      apply B in G' as [_ G']. assert (t' = t) by congruence. subst. apply (in_map fst) in I. apply (counter_keys toks t) in I. apply P in I. lia.
  - apply dget_None. intros I. apply in_map_iff in I as ([j m] & Ej & I). cbn in Ej. subst j. apply sel_In in I as (t' & G' & I). apply coh_range in G'. congruence.
Qed.
Lemma decode_bow_encode toks : decode_bow v (encode_bow v toks) = Ok (dfilter (fun t _ => mem t (idx2vocab v)) (counter toks)).
Proof.
  rewrite encode_bow_eq. unfold decode_bow. destruct C as (N & L & B).
  assert (forall l : dict str Z, mapM (fun ic : Z * Z => match nth_error (idx2vocab v) (Z.to_nat (fst ic)) with Some t => Ok (t, snd ic) | None => Err IndexError end)
      (filter (fun ic => (0 <=? fst ic) && (fst ic <? n_vocabs v)) (sel l)) = Ok (dfilter (fun t _ => mem t (idx2vocab v)) l)) as E.
  { induction l as [|[t n] l IH]; [reflexivity|]. unfold sel, dfilter. cbn [map concat fst snd filter]. fold (sel l). rewrite <- coh_memb. unfold dmem.
    destruct (dget (vocabulary v) t) as [i|] eqn:G; [|exact IH]. cbn [app filter fst]. rewrite (coh_range _ _ G). cbn [mapM fst snd].
    apply B in G as [_ G]. rewrite G. cbn [bind]. rewrite IH. reflexivity. }
  rewrite E. cbn [bind]. f_equal. apply dict_of_wf. apply (dwf_dfilter _ _ (counter_wf toks)).
Qed.

(** ** transform and to_file *)
Definition rows {D} (tok : D -> list str) (docs : list (Z * D)) : list (Z * Z * Z) :=
  concat (map (fun d => map (fun tc => (fst d, fst tc, snd tc)) (encode_bow v (tok (snd d)))) docs).
Lemma rows_In {D} (tok : D -> list str) docs i j n : In (i, j, n) (rows tok docs) <-> exists d, In (i, d) docs /\ In (j, n) (encode_bow v (tok d)).
Proof.
  unfold rows. rewrite in_concat. setoid_rewrite in_map_iff. split.
  - intros (x & ([i' d] & <- & I) & Hx). apply in_map_iff in Hx as ([j' n'] & E & I'). cbn in E. injection E as -> -> ->. exists d. auto.
  - intros (d & I & I'). exists (map (fun tc => (i, fst tc, snd tc)) (encode_bow v (tok d))). split; [exists (i, d); auto|].
    apply in_map_iff. exists (j, n). auto.
Qed.
Lemma rows_NoDup {D} (tok : D -> list str) docs : NoDup (map fst docs) -> NoDup (map fst (rows tok docs)).
Proof.
  induction docs as [|[i d] docs IH]; intros N; [constructor|]. inversion N as [|? ? NI N']; subst. unfold rows. cbn [map concat fst snd]. fold (rows tok docs).
  rewrite map_app. apply NoDup_app_intro; [|apply IH, N'|].
  - rewrite map_map. cbn [fst]. rewrite encode_bow_eq. pose proof (sel_wf _ (counter_wf (tok d))) as W. unfold dwf, dkeys in W.
    rewrite <- (map_map fst (fun j => (i, j))). apply FinFun.Injective_map_NoDup; [intros x y E; congruence|exact W].
  - intros [i' j] I I'. rewrite map_map in I. apply in_map_iff in I as ([j' n] & E & _). cbn in E. injection E as <- <-.
    apply in_map_iff in I' as ([[i2 j2] n2] & E & I'). cbn in E. injection E as -> ->. apply rows_In in I' as (d' & I' & _).
    apply NI. apply (in_map fst) in I'. exact I'.
Qed.
Lemma entry_unique m i j : NoDup (map fst (triplets m)) -> entryZ m i j = match dget (map (fun t => (fst t, snd t)) (triplets m)) (i, j) with Some n => n | None => 0 end.
Proof.
  unfold entryZ. destruct m as [nr nc ts]. cbn. induction ts as [|[[i' j'] n] ts IH]; intros N; [reflexivity|]. inversion N as [|? ? NI N']; subst.
  cbn [filter map fst snd dget]. unfold eqb at 1. cbn. unfold prod_eqb. cbn. destruct ((i' =? i) && (j' =? j)) eqn:E; [|apply IH, N'].
  apply andb_true_iff in E as [E1 E2]. apply Z.eqb_eq in E1, E2. subst. cbn [Zsum snd].
  assert (filter (fun t : Z * Z * Z => (fst (fst t) =? i) && (snd (fst t) =? j)) ts = []) as ->; [|cbn; lia].
  assert (forall x, In x ts -> (fst (fst x) =? i) && (snd (fst x) =? j) = false) as F.
  { intros [[a b] x] I. cbn. destruct (Z.eqb_spec a i) as [->|]; [|reflexivity]. destruct (Z.eqb_spec b j) as [->|]; [|reflexivity].
    exfalso. apply NI. apply (in_map fst) in I. exact I. }
  clear -F. induction ts as [|x ts IH]; [reflexivity|]. cbn. rewrite (F x (or_introl eq_refl)). apply IH. intros y I. apply F. right. exact I.
Qed.
End Coherent.
