(** * LRNounExtractor_v2: coverage *)
From Coq Require Import QArith Permutation Sorting.Sorted Bool.
From Verif Require Import PyBase PyDict PySort SortLemmas CountLemmas QLemmas UtilsModel UtilsSpec UtilsProofs UtilsProofs2 TokenizerModel TokenizerSpec NounModel NounSpec NounSpec2 NounProofs NounProofs2.
Open Scope Z_scope.

Definition row_ok (c : nconf) (word r : str) : bool := (1 <? length word)%nat || (eqb r [] || mem r (pos_f c) || mem r (common_f c)).
Lemma cover_rows c w rows : forall (g : lrg) k, fold_left (cover_row c w) rows (g, k) =
  (remove_rows g w (filter (fun rc => row_ok c w (fst rc)) rows), k + Zsum snd (filter (fun rc => row_ok c w (fst rc)) rows)).
Proof.
  induction rows as [|[r n] rows IH]; intros g k; [cbn; rewrite Z.add_0_r; reflexivity|].
  cbn [fold_left filter fst]. unfold cover_row at 2. cbn [fst snd]. fold (row_ok c w r). destruct (row_ok c w r).
  - rewrite IH. unfold remove_rows. cbn [fold_left fst snd]. f_equal. unfold Zsum. cbn [map fold_right snd]. lia.
  - apply IH.
Qed.
Definition expl1 {S} (c : nconf) (lm rm : Z) (nouns : dict str S) (x w : str) : bool :=
  dmem nouns w && beginsb lm rm x w && row_ok c w (skipn (length w) x).
Definition expl {S} (c : nconf) (lm rm : Z) (nouns : dict str S) (ws : list str) (x : str) : bool := existsb (expl1 c lm rm nouns x) ws.
Definition ftotal (P : str -> bool) (f : dict str Z) : Z := Zsum (fun p : str * Z => if P (fst p) then snd p else 0) f.
Lemma ftotal_filter P f : ftotal P f = Zsum snd (filter (fun p => P (fst p)) f).
Proof.
  unfold ftotal, Zsum. induction f as [|[e n] f IH]; [reflexivity|]. cbn [filter fst map fold_right snd]. destruct (P e) eqn:E; cbn [map fold_right snd]; rewrite IH; lia.
Qed.
Lemma NoDup_map_inj {A B} (f : A -> B) l : (forall x y, f x = f y -> x = y) -> NoDup l -> NoDup (map f l).
Proof. intros H N. apply FinFun.Injective_map_NoDup; [intros x y; apply H|exact N]. Qed.
Lemma cover_step_spec {S} c lm rm (nouns : dict str S) (f : dict str Z) (done : str -> bool) g k w : NoDup (dkeys f) -> 0 < lm ->
  uni lm rm (fun x => if done x then None else dget f x) g ->
  let st := cover_step c nouns (g, k) w in
  uni lm rm (fun x => if done x || expl1 c lm rm nouns x w then None else dget f x) (fst st) /\ origin (fst st) = origin g /\
  snd st = k + ftotal (fun x => negb (done x) && expl1 c lm rm nouns x w) f.
Proof.
  intros N P U. unfold cover_step. cbn [fst]. unfold expl1. destruct (dmem nouns w) eqn:D; cbn [andb].
  2: { cbv zeta. cbn [fst snd]. split; [eapply uni_ext; [|exact U]; intros x; cbv beta; rewrite orb_false_r; reflexivity|]. split; [reflexivity|].
       unfold ftotal. rewrite Zsum_zero; [lia|]. intros [e n] _. rewrite andb_false_r. reflexivity. }
  rewrite cover_rows. cbv zeta. cbn [fst snd]. destruct (uni_rows lm rm _ g w U) as [NR R].
  set (rows := filter (fun rc => row_ok c w (fst rc)) (get_r g w (-1))).
  assert (NR' : NoDup (map fst rows)) by (apply (NoDup_filter_map (K:=str)); exact NR).
  assert (R' : forall r n, In (r, n) rows <-> row_ok c w r = true /\ in_window lm rm w r = true /\ done (w ++ r) = false /\ dget f (w ++ r) = Some n).
  { intros r n. unfold rows. rewrite filter_In, R. cbn [fst]. destruct (done (w ++ r)); [|tauto]. split; [intros [[_ X] _]; discriminate|intros (_ & _ & X & _); discriminate]. }
  assert (HR : forall r n, In (r, n) rows -> (if done (w ++ r) then None else dget f (w ++ r)) = Some n).
  { intros r n I. apply R' in I as (_ & _ & A & B). rewrite A. exact B. }
  destruct (uni_remove_rows lm rm w rows _ g NR' HR U) as [U1 O1]. split; [|split; [exact O1|]].
  - eapply uni_ext; [|exact U1]. intros x. cbv beta. destruct (existsb _ rows) eqn:E.
    + apply existsb_exists in E as ([r n] & I & E). cbn [fst] in E. apply eqb_eq in E. subst x. apply R' in I as (A & B & _).
      assert (X : beginsb lm rm (w ++ r) w = true) by (apply beginsb_spec; eauto). rewrite X, skipn_app, skipn_all, Nat.sub_diag. cbn [app skipn]. rewrite A, orb_true_r. reflexivity.
    + destruct (done x) eqn:Dx; [reflexivity|]. cbn [orb]. destruct (beginsb lm rm x w && row_ok c w (skipn (length w) x)) eqn:B; [|reflexivity].
      apply andb_true_iff in B as [B Q]. apply beginsb_spec in B as (r & -> & W). rewrite skipn_app, skipn_all, Nat.sub_diag in Q. cbn [app skipn] in Q.
      destruct (dget f (w ++ r)) as [n|] eqn:F; [|reflexivity]. exfalso. rewrite <- not_true_iff_false in E. apply E, existsb_exists. exists (r, n). split; [apply R'; auto|apply eqb_refl].
  - f_equal. rewrite ftotal_filter. transitivity (Zsum snd (map (fun rc : str * Z => (w ++ fst rc, snd rc)) rows)); [rewrite Zsum_map; reflexivity|]. apply Zsum_perm. apply NoDup_Permutation.
    + apply NoDup_map_inj; [intros [a b] [a' b'] E; injection E as E ->; apply app_inv_head in E; subst; reflexivity|apply NoDup_map_inv in NR'; exact NR'].
    + apply NoDup_filter. apply NoDup_map_inv in N. exact N.
    + intros [x n]. rewrite in_map_iff, filter_In. cbn [fst]. split.
      * intros ([r n'] & E & I). injection E as <- <-. apply R' in I as (A & B & C & F). split; [apply dget_In, F|].
        rewrite C. cbn [negb andb]. assert (X : beginsb lm rm (w ++ r) w = true) by (apply beginsb_spec; eauto). rewrite X, skipn_app, skipn_all, Nat.sub_diag. cbn [app skipn andb]. exact A.
      * intros [I H]. apply andb_true_iff in H as [A H]. apply andb_true_iff in H as [B H]. apply negb_true_iff in A. apply beginsb_spec in B as (r & -> & W).
        rewrite skipn_app, skipn_all, Nat.sub_diag in H. cbn [app skipn] in H. exists (r, n). split; [reflexivity|]. apply R'. apply In_dget in I; [|exact N]. auto.
Qed.
Lemma cover_loop {S} c lm rm (nouns : dict str S) (f : dict str Z) todo : NoDup (dkeys f) -> 0 < lm -> forall (done : str -> bool) g k,
  uni lm rm (fun x => if done x then None else dget f x) g ->
  let st := fold_left (cover_step c nouns) todo (g, k) in
  uni lm rm (fun x => if done x || expl c lm rm nouns todo x then None else dget f x) (fst st) /\ origin (fst st) = origin g /\
  snd st = k + ftotal (fun x => negb (done x) && expl c lm rm nouns todo x) f.
Proof.
  intros N P. induction todo as [|w todo IH]; intros done g k U; cbn [fold_left].
  - cbv zeta. cbn [fst snd]. split; [eapply uni_ext; [|exact U]; intros x; cbv beta; cbn; rewrite orb_false_r; reflexivity|]. split; [reflexivity|].
    unfold ftotal. rewrite Zsum_zero; [lia|]. intros [e n] _. cbn. rewrite andb_false_r. reflexivity.
  - pose proof (cover_step_spec c lm rm nouns f done g k w N P U) as X. cbv zeta in X. destruct X as (U1 & O1 & K1).
    destruct (cover_step c nouns (g, k) w) as [g1 k1]. cbn [fst snd] in *.
    specialize (IH (fun x => done x || expl1 c lm rm nouns x w) g1 k1 U1). cbv zeta in IH. destruct IH as (U2 & O2 & K2). cbv zeta. split; [|split].
    + eapply uni_ext; [|exact U2]. intros x. cbv beta. unfold expl. cbn [existsb]. rewrite orb_assoc. reflexivity.
    + rewrite O2. exact O1.
    + rewrite K2, K1, <- Z.add_assoc. f_equal. unfold ftotal. rewrite <- Zsum_add. apply Zsum_ext. intros [e n] _. cbn [fst snd]. unfold expl. cbn [existsb].
      destruct (done e), (expl1 c lm rm nouns e w), (existsb (expl1 c lm rm nouns e) todo); cbn; lia.
Qed.
Lemma row_ok_spec c w r : w <> [] -> row_ok c w r = true <-> (2 <= length w)%nat \/ r = [] \/ In r (pos_f c) \/ In r (common_f c).
Proof. intros _. unfold row_ok. rewrite !orb_true_iff, Nat.ltb_lt, eqb_eq, !mem_In. split; [intros [H|[[H|H]|H]]|intros [H|[H|[H|H]]]]; auto. Qed.
Lemma expl_spec {S} c lm rm f (nouns : dict str S) ws x : 0 < lm -> (forall w, In w ws <-> noun_candidate c lm rm f w) ->
  expl c lm rm nouns ws x = true <-> explained c lm rm f nouns x.
Proof.
  intros P K. unfold expl, explained. rewrite existsb_exists. split.
  - intros (w & I & H). unfold expl1 in H. rewrite !andb_true_iff in H. destruct H as [[D B] R]. apply beginsb_spec in B as (r & -> & W).
    rewrite skipn_app, skipn_all, Nat.sub_diag in R. cbn [app skipn] in R. apply (window_spec lm rm w r P) in W. exists w, r. split; [reflexivity|]. split; [exact W|]. split; [apply K, I|].
    split; [apply dget_keys, dmem_keys, D|]. apply row_ok_spec in R; [exact R|apply W].
  - intros (w & r & -> & W & C & D & R). exists w. split; [apply K, C|]. unfold expl1. rewrite !andb_true_iff. split; [split|].
    + apply dmem_keys, dget_keys, D.
    + apply beginsb_spec. exists r. split; [reflexivity|apply window_spec; assumption].
    + rewrite skipn_app, skipn_all, Nat.sub_diag. cbn [app skipn]. apply row_ok_spec; [apply W|exact R].
Qed.
(** graphs that differ from the trained one by edits only *)
Definition reach (g g' : lrg) : Prop := exists ops, Forall (fun o => o <> OpFreeze) ops /\ g' = history g ops.
Lemma reach_refl g : reach g g.
Proof. exists []. split; [constructor|reflexivity]. Qed.
Lemma reach_step g g' o : reach g g' -> o <> OpFreeze -> reach g (step g' o).
Proof.
  intros (ops & F & ->) N. exists (ops ++ [o]). split; [apply Forall_app; auto|]. unfold history. rewrite fold_left_app. reflexivity.
Qed.
Lemma reach_remove g g' e n : reach g g' -> reach g (remove_eojeol g' e n).
Proof. intros R. apply (reach_step g g' (OpRemoveEojeol e n) R). discriminate. Qed.
Lemma reach_reset g g' : reach g g' -> reach g (reset_lrgraph g').
Proof. intros R. apply (reach_step g g' OpReset R). discriminate. Qed.
Lemma reach_rows g w rows : forall g', reach g g' -> reach g (remove_rows g' w rows).
Proof. induction rows as [|[r n] rows IH]; intros g' R; [exact R|]. unfold remove_rows. cbn [fold_left]. apply IH, reach_remove, R. Qed.
Lemma reach_batch c ms g cands g' : reach g g' -> reach g (fst (batch_predict c g' cands ms)).
Proof.
  unfold batch_predict. generalize (sort_len cands) as todo. intros todo R.
  assert (H : forall (st : lrg * dict str (Z * Q)), reach g (fst st) -> reach g (fst (fold_left (batch_step c ms) todo st))).
  { induction todo as [|w todo IH]; intros st Rs; [exact Rs|]. cbn [fold_left]. apply IH. unfold batch_step. cbn [fst]. destruct (Qle_bool _ _); [apply reach_rows, Rs|exact Rs]. }
  apply H. exact R.
Qed.
Lemma trained_reset ec lm rm g g' : 1 < lm -> 0 < rm -> train_counter ec lm rm = Ok g -> reach g g' -> reset_lrgraph g' = g.
Proof.
  intros A B E (ops & F & ->). unfold train_counter, to_lrgraph in E. eapply reset_history; [apply (to_lrgraph_wf lm rm (ec_counter ec))|exact E|exact F].
Qed.
