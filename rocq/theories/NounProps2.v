(** * Properties C64, C65: feature sets and batch prediction of LRNounExtractor_v2 *)
From Coq Require Import QArith Permutation Lqa Sorted.
From Verif Require Import PyBase PyDict PySort PyText PyFile SortLemmas CountLemmas QLemmas UtilsModel UtilsSpec UtilsProofs UtilsProofs2 UtilsProofs6 UtilsProps NounModel NounSpec NounProofs NounProofs2 NounProps.
Open Scope Z_scope.

(** ** C64: the feature sets *)
(** f is a line of one of the files, stripped *)
Definition listed (files : list str) (f : str) : Prop := exists content line, In content files /\ In line (file_lines content) /\ f = strip line.
Lemma read_listed files f : In f (read_features files) <-> listed files f.
Proof.
  unfold read_features, listed. rewrite in_concat. split.
  - intros (l & I & J). apply in_map_iff in I as (content & <- & I). apply in_map_iff in J as (line & <- & J). eauto.
  - intros (content & line & I & J & ->). exists (map strip (file_lines content)). split; [apply in_map_iff; eauto|apply in_map, J].
Qed.
(** positive, negative and common features are disjoint and together the listed ones *)
Theorem C64_load : forall pf nf m x f, let c := load_predictor pf nf m x in
  (In f (pos_f c) <-> listed pf f /\ ~ listed nf f) /\ (In f (neg_f c) <-> listed nf f /\ ~ listed pf f) /\ (In f (common_f c) <-> listed pf f /\ listed nf f).
Proof.
  intros pf nf m x f. cbv zeta. unfold load_predictor. cbn [pos_f neg_f common_f].
  assert (C : In f (filter (fun f => mem f (read_features nf)) (read_features pf)) <-> listed pf f /\ listed nf f) by (rewrite filter_In, mem_In, !read_listed; reflexivity).
  rewrite !filter_In, !negb_true_iff, !mem_In_false, !read_listed. rewrite filter_In, mem_In, !read_listed. tauto.
Qed.
Print Assumptions C64_load.
(** appending: a feature of the opposite kind becomes common too; every other one joins its kind; nothing is ever removed *)
Theorem C64_append : forall c fs,
  (exists c', append_features c (u "pos") fs = Ok c' /\ forall f, (In f (pos_f c') <-> In f (pos_f c) \/ In f fs /\ ~ In f (neg_f c)) /\ (In f (neg_f c') <-> In f (neg_f c)) /\
     (In f (common_f c') <-> In f (common_f c) \/ In f fs /\ In f (neg_f c))) /\
  (exists c', append_features c (u "neg") fs = Ok c' /\ forall f, (In f (neg_f c') <-> In f (neg_f c) \/ In f fs /\ ~ In f (pos_f c)) /\ (In f (pos_f c') <-> In f (pos_f c)) /\
     (In f (common_f c') <-> In f (common_f c) \/ In f fs /\ In f (pos_f c))) /\
  (exists c', append_features c (u "common") fs = Ok c' /\ forall f, (In f (pos_f c') <-> In f (pos_f c)) /\ (In f (neg_f c') <-> In f (neg_f c)) /\ (In f (common_f c') <-> In f (common_f c) \/ In f fs)) /\
  (forall t, t <> u "pos" -> t <> u "neg" -> t <> u "common" -> append_features c t fs = Err ValueError).
Proof.
  intros c fs. split; [|split; [|split]].
  1, 2: eexists; (split; [reflexivity|]); intros f; cbn [pos_f neg_f common_f]; rewrite !in_app_iff, !filter_In, !negb_true_iff, !mem_In_false, filter_In, !mem_In; tauto.
  - eexists. split; [reflexivity|]. intros f. cbn [pos_f neg_f common_f]. rewrite in_app_iff. tauto.
  - intros t A B C. unfold append_features. apply eqb_neq in A, B, C. rewrite A, B, C. reflexivity.
Qed.
Print Assumptions C64_append.
(** the positive and the negative set stay disjoint in any history of pos and neg extensions, but the common set does not *)
Theorem C64_pos_neg_disjoint : forall c t fs c', (forall f, ~ (In f (pos_f c) /\ In f (neg_f c))) -> append_features c t fs = Ok c' -> forall f, ~ (In f (pos_f c') /\ In f (neg_f c')).
Proof.
  intros c t fs c' D E f. unfold append_features in E. specialize (D f).
  destruct (eqb t (u "pos")); [|destruct (eqb t (u "neg")); [|destruct (eqb t (u "common")); [|discriminate]]]; injection E as <-; cbn [pos_f neg_f]; [| |exact D];
  rewrite in_app_iff, filter_In, negb_true_iff, mem_In_false, filter_In, mem_In; tauto.
Qed.
Print Assumptions C64_pos_neg_disjoint.
Theorem C64_common_disjoint_refuted : exists pf nf fs c', append_features (load_predictor pf nf 1 30) (u "pos") fs = Ok c' /\
  (exists f, In f (neg_f c') /\ In f (common_f c')) /\ (exists f, In f (pos_f c') /\ In f (common_f c')).
Proof.
  exists [u "은
라고"], [u "다
라고"], [u "다"; u "라고"]. eexists. split; [reflexivity|]. split; [exists (u "다")|exists (u "라고")]; split; apply mem_In; vm_compute; reflexivity.
Qed.
Print Assumptions C64_common_disjoint_refuted.
(** post-processing methods cannot be chosen: any non-empty list is rejected *)
Theorem C64_postprocessing_option : forall ms, init_postprocessing ms = match ms with [] => Ok [u "detaching_features"; u "ignore_features"; u "ignore_NJ"] | _ => Err TypeError end.
Proof. reflexivity. Qed.
Print Assumptions C64_postprocessing_option.
Example C64_ex : let c := load_predictor [u "은
라고"; u " 는"] [u "다
라고"] 1 30 in pos_f c = [u "은"; u "는"] /\ neg_f c = [u "다"] /\ common_f c = [u "라고"].
Proof. vm_compute. auto. Qed.

(** ** C65: batch prediction *)
(** the prediction of a candidate sees exactly the eojeols that no longer accepted word has taken; afterwards exactly the eojeols
    that begin with no accepted word are left in the graph *)
Theorem C65_prediction : forall ec lm rm c ms, NoDup (map fst (ec_counter ec)) -> 1 < lm -> 0 < rm ->
  exists g, train_counter ec lm rm = Ok g /\
  let (g', S) := batch_predict c g (dkeys (noun_candidates c g None)) ms in
  (forall w, dget S w <> None <-> noun_candidate c lm rm (ec_counter ec) w) /\
  (forall w p, dget S w = Some p -> exists fs, NoDup (map fst fs) /\ (forall r n, In (r, n) fs <-> left_for S ms lm rm (ec_counter ec) w r n) /\ p = predict_features c w fs ms) /\
  (forall l r n, seen_from_l g' l r = Some n <-> in_limits lm rm l r /\ dget (ec_counter ec) (l ++ r) = Some n /\ ~ exists w, accepted S ms w /\ begins_with lm rm (l ++ r) w).
Proof.
  intros ec lm rm c ms N L R. destruct (trained_uni ec lm rm N L R) as (g & E & U & O & RL). exists g. split; [exact E|].
  assert (P : 0 < lm) by lia. pose proof (batch_all c lm rm (ec_counter ec) g ms P U) as B. cbv zeta in B.
  destruct (batch_predict c g (dkeys (noun_candidates c g None)) ms) as [g' S]. cbn [fst snd] in B. destruct B as (ND & K & SC & U' & O' & _). split; [|split].
  - intros w. rewrite dget_keys. apply K.
  - intros w p D. destruct (left_rows lm rm _ g S ms w P U ND) as (fs & NF & HF). exists fs. split; [exact NF|]. split; [exact HF|]. exact (SC w p fs D NF HF).
  - intros l r n. destruct U' as [I' U']. unfold seen_from_l, get_r. rewrite dget_In_iff; [|apply top_NoDup, (inv_lr _ I')]. rewrite top_all_In by apply (inv_lr _ I'). rewrite U'.
    rewrite <- (taken_spec lm rm ms S (l ++ r) P ND), <- (window_spec lm rm l r P). destruct (in_window lm rm l r), (taken lm rm ms S (l ++ r));
    (split; [intros X; try discriminate X; (split; [reflexivity|]; split; [exact X|discriminate])|intros (A & B & C); try discriminate A; try (exfalso; apply C; reflexivity); exact B]).
Qed.
Print Assumptions C65_prediction.
(** the specification determines every score, so the order in which Python iterates over its sets is irrelevant *)
Theorem C65_order_independent : forall ec lm rm c c' ms, NoDup (map fst (ec_counter ec)) -> 1 < lm -> 0 < rm -> same_features c c' ->
  exists g, train_counter ec lm rm = Ok g /\
  let S := snd (batch_predict c g (dkeys (noun_candidates c g None)) ms) in let S' := snd (batch_predict c' g (dkeys (noun_candidates c' g None)) ms) in
  (forall w, dget S w = dget S' w) /\
  forall l r, seen_from_l (fst (batch_predict c g (dkeys (noun_candidates c g None)) ms)) l r = seen_from_l (fst (batch_predict c' g (dkeys (noun_candidates c' g None)) ms)) l r.
Proof.
  intros ec lm rm c c' ms N L R SF. destruct (trained_uni ec lm rm N L R) as (g & E & U & O & RL). exists g. split; [exact E|].
  assert (P : 0 < lm) by lia. pose proof (batch_all c lm rm (ec_counter ec) g ms P U) as B. pose proof (batch_all c' lm rm (ec_counter ec) g ms P U) as B'. cbv zeta in B, B' |- *.
  set (st := batch_predict c g _ ms) in *. set (st' := batch_predict c' g _ ms) in *. clearbody st st'. destruct st as [g1 S], st' as [g1' S']. cbn [fst snd] in *.
  destruct B as (ND & K & SC & U1 & _ & _), B' as (ND' & K' & SC' & U1' & _ & _).
  assert (KK : forall w, In w (dkeys S) <-> In w (dkeys S')).
  { intros w. rewrite K, K'. destruct SF as (SP & _). unfold noun_candidate. split; intros (r & n & A & B & C); exists r, n; (split; [exact A|]; split; [apply SP, B|exact C]). }
  assert (EQ : forall m w, (Z.to_nat lm < length w + m)%nat -> dget S w = dget S' w).
  { induction m as [|m IH]; intros w LW.
    - assert (NI : ~ In w (dkeys S)). { rewrite K. intros (r & n & _ & _ & (_ & X & _) & _). lia. }
      rewrite (proj2 (dget_None S w) NI). symmetry. apply dget_None. rewrite <- KK. exact NI.
    - destruct (dget S w) as [p|] eqn:D; destruct (dget S' w) as [p'|] eqn:D'.
      + destruct (left_rows lm rm _ g S ms w P U ND) as (fs & NF & HF). pose proof (SC w p fs D NF HF) as X.
        assert (HF' : forall r n, In (r, n) fs <-> left_for S' ms lm rm (ec_counter ec) w r n).
        { intros r n. rewrite HF. unfold left_for, accepted. split; intros (A & B & C); (split; [exact A|]; split; [exact B|]); intros w' (q & Q & Q') LL; apply C; try assumption; exists q; (split; [|exact Q']);
          [rewrite (IH w') by lia; exact Q|rewrite <- (IH w') by lia; exact Q]. }
        pose proof (SC' w p' fs D' NF HF') as X'. rewrite (predict_ext c c' w fs fs ms SF (Permutation_refl _)) in X. congruence.
      + exfalso. apply dget_None in D'. apply D', KK. apply dget_keys. congruence.
      + exfalso. apply dget_None in D. apply D, KK. apply dget_keys. congruence.
      + reflexivity. }
  assert (EQ' : forall w, dget S w = dget S' w) by (intros w; apply (EQ (Datatypes.S (Z.to_nat lm)) w); lia).
  split; [exact EQ'|]. intros l r. destruct U1 as [I1 U1], U1' as [I1' U1']. rewrite !seen_l by assumption. rewrite U1, U1'.
  replace (taken lm rm ms S' (l ++ r)) with (taken lm rm ms S (l ++ r)); [reflexivity|]. apply eq_true_iff_eq. rewrite !taken_spec by assumption. unfold accepted.
  split; intros (w & (p & D & A) & B); exists w; (split; [exists p; split; [|exact A]|exact B]); [rewrite <- EQ'|rewrite EQ']; exact D.
Qed.
Print Assumptions C65_order_independent.
Definition ex_graph2 := match train_counter (mkCounter [(u "아이들은", 5); (u "아이들에게", 2); (u "아이은", 3); (u "아이들", 4)]) 10 9 with Ok g => g | Err _ => ex_graph end.
Example C65_ex : let st := batch_predict ex_conf ex_graph2 (dkeys (noun_candidates ex_conf ex_graph2 None)) (3 # 10) in
  snd st = [(u "아이들", (11, (7 # 7)%Q)); (u "아이", (3, 0%Q))] /\ noun_predict ex_conf ex_graph2 (u "아이") (3 # 10) = (3, 3 # 14) /\
  get_r (fst st) (u "아이") 0 = [(u "은", 3)] /\ same_features ex_conf (mkNconf (rev (pos_f ex_conf)) (neg_f ex_conf) (common_f ex_conf) 1 30).
Proof.
  cbv zeta. split; [vm_compute; reflexivity|]. split; [vm_compute; reflexivity|]. split; [vm_compute; reflexivity|]. unfold same_features.
  split; [intros f; cbn [pos_f]; apply in_rev|]. split; [reflexivity|]. split; [reflexivity|]. split; reflexivity.
Qed.
