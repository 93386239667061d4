(** * Proofs about LRNounExtractor (version 1): training and prediction *)
From Coq Require Import QArith Reals Permutation Lra Lqa Sorted.
From Verif Require Import PyBase PyDict PySort SortLemmas CountLemmas QLemmas PyText PyFile UtilsModel UtilsSpec UtilsProofs UtilsProofs2 UtilsProofs3 UtilsProofs6 NounModel NounSpec NounProofs NounProofs2 NounProofs3 VectorizerSpec VectorizerProofs3 NounV1Model NounV1Spec JosaProofs NounV1Proofs NounV1Proofs2.
Open Scope Z_scope.

(** ** training *)
Definition Wb (c : v1conf) (st : v1state) (wr : list str) (l r : str) : bool := (1 <=? length l)%nat && (Z.of_nat (length l) <=? v_lm c) && okb (v_words st) wr l r.
Lemma train_spec c pre sents mf st : v1_train c pre sents mf = Ok st -> let T := space_words pre sents in
  v_words st = dkeys (v_sub st) /\ NoDup (v_words st) /\ (forall l n, dget (v_sub st) l = Some n <-> frequent_left (v_lm c) mf T l n) /\
  (exists d, is_graph d /\ lrg_new d [] 10 9 = Ok (v_graph st)) /\
  exists W, (forall l r, W l r = true <-> in_graph (v_lm c) (v_rm c) mf T l r) /\
    uniW W (fun e => if 0 <? occurrences e (map pre sents) then Some (occurrences e (map pre sents)) else None) (v_graph st).
Proof.
  intros H T. assert (H' : (let (sub, wr) := scan_vocabulary c pre sents mf in do g <- lrg_new (build_lrgraph (v_lm c) pre sents (dkeys sub) wr) [] 10 9; Ok (mkV1S g (dkeys sub) sub)) = Ok st) by (destruct sents; [discriminate H|exact H]). clear H. rename H' into H.
  destruct (scan_spec c pre sents mf) as (N & L & R). fold T in L, R. destruct (scan_vocabulary c pre sents mf) as [sub wr]. cbn [fst snd] in N, L, R.
  destruct (build_pget (v_lm c) pre sents (dkeys sub) wr [] []) as [G _].
  destruct (lrg_new (build_lrgraph (v_lm c) pre sents (dkeys sub) wr) [] 10 9) as [g|e] eqn:E; [|discriminate]. cbn [bind] in H. injection H as <-. cbn [v_words v_sub v_graph].
  split; [reflexivity|]. split; [exact N|]. split; [exact L|]. split; [exists (build_lrgraph (v_lm c) pre sents (dkeys sub) wr); auto|].
  exists (fun l r => (1 <=? length l)%nat && (Z.of_nat (length l) <=? v_lm c) && okb (dkeys sub) wr l r). split.
  - intros l r. unfold okb, in_graph. rewrite !andb_true_iff, Nat.leb_le, Z.leb_le, orb_true_iff, eqb_eq, !mem_In, R. split.
    + intros ((_ & _) & K & D). apply dget_keys in K. destruct (dget sub l) as [n|] eqn:DL; [|congruence]. apply L in DL. split; [exists n; exact DL|exact D].
    + intros ((n & F) & D). pose proof F as (NE & LE & _). apply L in F. split; [split; [pose proof (nonempty_length l NE); lia|exact LE]|]. split; [|exact D]. apply dget_keys. congruence.
  - destruct (new_Inv _ _ _ _ _ G E) as (I & _). split; [exact I|]. split.
    + intros l r W. apply andb_true_iff in W as [W _]. apply andb_true_iff in W as [W _]. apply Nat.leb_le in W. destruct l; [cbn in W; lia|discriminate].
    + intros l r. assert (LR : lr g = build_lrgraph (v_lm c) pre sents (dkeys sub) wr).
      { unfold lrg_new in E. cbn [Z.gtb Z.compare negb bind] in E. destruct (build_lrgraph (v_lm c) pre sents (dkeys sub) wr) as [|p x]; [injection E as <-; reflexivity|]. cbn [check_lrgraph bind] in E. injection E as <-. reflexivity. }
      rewrite LR. destruct (build_pget (v_lm c) pre sents (dkeys sub) wr l r) as [_ ->].
      destruct ((1 <=? length l)%nat && (Z.of_nat (length l) <=? v_lm c) && okb (dkeys sub) wr l r); reflexivity.
Qed.
Lemma train_ok c pre sents mf : (exists st, v1_train c pre sents mf = Ok st) <-> sents <> [].
Proof.
  unfold v1_train. destruct sents as [|s ss]; [split; [intros (st & H); discriminate|congruence]|]. split; [discriminate|intros _].
  destruct (scan_vocabulary c pre (s :: ss) mf) as [sub wr]. unfold lrg_new. cbn [Z.gtb Z.compare negb bind].
  destruct (build_lrgraph (v_lm c) pre (s :: ss) (dkeys sub) wr); cbn [check_lrgraph bind]; eexists; reflexivity.
Qed.
Lemma uniW_pair W f g l r n : uniW W f g -> (In (r, n) (get_r g l (-1)) <-> W l r = true /\ f (l ++ r) = Some n).
Proof. intros U. apply (uniW_rows W f g l U). Qed.
Lemma occ_some e ss n : (if 0 <? occurrences e ss then Some (occurrences e ss) else None) = Some n <-> n = occurrences e ss /\ 0 < n.
Proof. destruct (Z.ltb_spec 0 (occurrences e ss)); split; [intros H'; injection H' as <-; split; [reflexivity|assumption]|intros [-> _]; reflexivity|discriminate|intros [-> ?]; lia]. Qed.
Lemma graph_pair_iff c pre sents mf st : v1_train c pre sents mf = Ok st -> forall l r n,
  In (r, n) (get_r (v_graph st) l (-1)) <-> graph_pair (v_lm c) (v_rm c) mf pre sents l r n.
Proof.
  intros H l r n. destruct (train_spec c pre sents mf st H) as (_ & _ & _ & _ & W & HW & U). rewrite (uniW_pair _ _ _ _ _ _ U), HW, occ_some. reflexivity.
Qed.

(** ** prediction *)
Lemma followers_features c pre sents mf st w : v1_train c pre sents mf = Ok st -> followers (v_lm c) (v_rm c) mf pre sents w (r_features (v_graph st) w).
Proof.
  intros H. destruct (train_spec c pre sents mf st H) as (_ & _ & _ & _ & W & HW & U). destruct (uniW_rows _ _ _ w U) as [N _]. split.
  - unfold r_features. apply (NoDup_filter_map (K:=str)). exact N.
  - intros r n. unfold r_features. rewrite filter_In, (graph_pair_iff _ _ _ _ _ H). cbn [fst]. destruct r as [|x r]; split; [intros [_ E]; discriminate|intros [E _]; congruence|intros [E _]; split; [discriminate|exact E]|intros [_ E]; auto].
Qed.
Lemma v1_longer_spec coef w r : v1_longer coef w r = true <-> has_longer_coef coef w r.
Proof.
  unfold v1_longer, has_longer_coef. rewrite existsb_exists. split.
  - intros (e & I & M). apply in_rev, in_seq in I. exists (firstn e w), (skipn e w). split; [symmetry; apply firstn_skipn|]. split; [apply skipn_nonempty; lia|]. apply dget_keys, dmem_keys. exact M.
  - intros (a & b & -> & NE & D). pose proof (nonempty_length b NE). exists (length a). split; [apply -> in_rev; apply in_seq; rewrite app_length; lia|]. rewrite skipn_pre. apply dmem_keys, dget_keys. exact D.
Qed.
Definition kept_feats (coef : dict str Q) (w : str) (fs : list (str * Z)) : list (str * Z * Q) :=
  concat (map (fun rc => match dget coef (fst rc) with Some q => if v1_longer coef w (fst rc) then [] else [(rc, q)] | None => [] end) fs).
Definition unk_feats (coef : dict str Q) (fs : list (str * Z)) : list (str * Z) := filter (fun rc => match dget coef (fst rc) with Some _ => false | None => true end) fs.
Lemma kept_In coef w fs rc q : In (rc, q) (kept_feats coef w fs) <-> In rc fs /\ counted coef w rc q.
Proof.
  unfold kept_feats, counted. rewrite in_concat. split.
  - intros (x & I & J). apply in_map_iff in I as (rc' & <- & I). destruct (dget coef (fst rc')) as [q'|] eqn:D; [|destruct J]. destruct (v1_longer coef w (fst rc')) eqn:V; [destruct J|]. destruct J as [J|[]]. injection J as -> ->.
    split; [exact I|]. split; [exact D|]. rewrite <- v1_longer_spec. congruence.
  - intros (I & D & NL). exists [(rc, q)]. split; [|left; reflexivity]. apply in_map_iff. exists rc. split; [|exact I]. rewrite D. rewrite <- v1_longer_spec in NL. destruct (v1_longer coef w (fst rc)); [congruence|reflexivity].
Qed.
Lemma kept_NoDup coef w fs : NoDup fs -> NoDup (kept_feats coef w fs).
Proof.
  unfold kept_feats. induction 1 as [|rc fs NI ND IH]; [constructor|]. cbn [map concat]. apply NoDup_app_intro; [|exact IH|].
  - destruct (dget coef (fst rc)); [|constructor]. destruct (v1_longer coef w (fst rc)); [constructor|repeat constructor; intros []].
  - intros [rc' q'] I J. apply (kept_In coef w fs) in J as [J _]. destruct (dget coef (fst rc)); [|destruct I]. destruct (v1_longer coef w (fst rc)); [destruct I|]. destruct I as [I|[]]. injection I as <- _. contradiction.
Qed.
Lemma unk_In coef fs rc : In rc (unk_feats coef fs) <-> In rc fs /\ dget coef (fst rc) = None.
Proof. unfold unk_feats. rewrite filter_In. destruct (dget coef (fst rc)); split; intros [A B]; (split; [exact A|congruence]). Qed.
Lemma v1_fold coef w fs : forall s n k, exists s', fold_left (v1_step coef w) fs (s, n, k) = (s', n + Zsum (fun x => snd (fst x)) (kept_feats coef w fs), k + Zsum snd (unk_feats coef fs)) /\
  (s' == s + Qsum (map (fun x => inject_Z (snd (fst x)) * snd x) (kept_feats coef w fs)))%Q.
Proof.
  induction fs as [|[r m] fs IH]; intros s n k.
  - exists s. cbn [fold_left kept_feats unk_feats map concat filter Zsum Qsum fold_right]. rewrite !Z.add_0_r. split; [reflexivity|cbn; ring].
  - cbn [fold_left]. unfold kept_feats, unk_feats. cbn [map concat filter fst]. fold (kept_feats coef w fs). fold (unk_feats coef fs). unfold v1_step at 2. cbn [fst snd].
    destruct (dget coef r) as [q|].
    + destruct (v1_longer coef w r); cbn [app].
      * apply IH.
      * destruct (IH (s + inject_Z m * q)%Q (n + m) k) as (s' & E & F). exists s'. rewrite E. split; [cbn [Zsum fst snd]; rewrite Z.add_assoc; reflexivity|]. rewrite F. cbn [map]. unfold Qsum. cbn [fold_right fst snd]. ring.
    + cbn [app]. destruct (IH s n (k + m)) as (s' & E & F). exists s'. rewrite E. split; [cbn [Zsum fst snd]; rewrite Z.add_assoc; reflexivity|exact F].
Qed.
Lemma Qsum_inject {A} (f : A -> Z) l : (Qsum (map (fun x => inject_Z (f x)) l) == inject_Z (Zsum f l))%Q.
Proof. induction l as [|x l IH]; [reflexivity|]. cbn [map Zsum]. unfold Qsum in *. cbn [fold_right]. rewrite IH, inject_Z_plus. reflexivity. Qed.
Lemma Qeq_bool_inject z q : (q == inject_Z z)%Q -> Qeq_bool q 0 = (z =? 0).
Proof. intros H. apply eq_true_iff_eq. rewrite Qeq_bool_iff, H, Z.eqb_eq. change 0%Q with (inject_Z 0). unfold Qeq, inject_Z. cbn. lia. Qed.
Lemma v1_predict_score coef w fs : NoDup fs -> v1_score coef w fs (v1_predict_ coef w fs).
Proof.
  intros ND. exists (kept_feats coef w fs), (unk_feats coef fs). split; [split; [apply kept_NoDup, ND|intros; apply kept_In]|]. split; [split; [apply NoDup_filter, ND|intros; apply unk_In]|].
  destruct (v1_fold coef w fs 0%Q 0 0) as (s & E & F). cbv zeta. unfold v1_predict_. rewrite E, !Z.add_0_l. cbn [fst snd].
  pose proof (Qsum_inject (fun x : str * Z * Q => snd (fst x)) (kept_feats coef w fs)) as S1. pose proof (Qsum_inject (fun x : str * Z => snd x) (unk_feats coef fs)) as S2.
  assert (S12 : (Qsum (map (fun x : str * Z * Q => inject_Z (snd (fst x))) (kept_feats coef w fs)) + Qsum (map (fun x : str * Z => inject_Z (snd x)) (unk_feats coef fs)) == inject_Z (Zsum (fun x => snd (fst x)) (kept_feats coef w fs) + Zsum snd (unk_feats coef fs)))%Q) by (rewrite inject_Z_plus, S1, S2; reflexivity).
  rewrite (Qeq_bool_inject _ _ S1), (Qeq_bool_inject _ _ S12). split.
  - destruct (Zsum (fun x => snd (fst x)) (kept_feats coef w fs) =? 0); [reflexivity|]. rewrite F, S1. unfold Qdiv. ring.
  - destruct (Zsum (fun x => snd (fst x)) (kept_feats coef w fs) + Zsum snd (unk_feats coef fs) =? 0); [reflexivity|]. rewrite S12, S1. reflexivity.
Qed.
(** the score is determined *)
Lemma NoDup_perm {A} (l l' : list A) : NoDup l -> NoDup l' -> (forall x, In x l <-> In x l') -> Permutation l l'.
Proof. intros. apply NoDup_Permutation; assumption. Qed.
Lemma ratio_eq a a' b b' : (a == a')%Q -> (b == b')%Q -> ((if Qeq_bool a 0 then 0 else b / a) == (if Qeq_bool a' 0 then 0 else b' / a'))%Q.
Proof. intros H K. replace (Qeq_bool a 0) with (Qeq_bool a' 0) by (apply eq_true_iff_eq; rewrite !Qeq_bool_iff, H; reflexivity). destruct (Qeq_bool a' 0); [reflexivity|]. rewrite H, K. reflexivity. Qed.
Lemma v1_score_fun coef w fs fs' v v' : (forall x, In x fs <-> In x fs') -> v1_score coef w fs v -> v1_score coef w fs' v' -> (fst v == fst v' /\ snd v == snd v')%Q.
Proof.
  intros M (ks & us & (K1 & K2) & (U1 & U2) & S1 & S2) (ks' & us' & (K1' & K2') & (U1' & U2') & S1' & S2').
  assert (PK : Permutation ks ks') by (apply NoDup_perm; [exact K1|exact K1'|]; intros [rc q]; rewrite K2, K2', M; reflexivity).
  assert (PU : Permutation us us') by (apply NoDup_perm; [exact U1|exact U1'|]; intros rc; rewrite U2, U2', M; reflexivity).
  assert (E1 : (Qsum (map (fun x => inject_Z (snd (fst x))) ks) == Qsum (map (fun x => inject_Z (snd (fst x))) ks'))%Q) by (apply Qsum_perm, Permutation_map, PK).
  assert (E2 : (Qsum (map (fun rc => inject_Z (snd rc)) us) == Qsum (map (fun rc => inject_Z (snd rc)) us'))%Q) by (apply Qsum_perm, Permutation_map, PU).
  assert (E3 : (Qsum (map (fun x => inject_Z (snd (fst x)) * snd x) ks) == Qsum (map (fun x => inject_Z (snd (fst x)) * snd x) ks'))%Q) by (apply Qsum_perm, Permutation_map, PK).
  assert (E12 : (Qsum (map (fun x => inject_Z (snd (fst x))) ks) + Qsum (map (fun rc => inject_Z (snd rc)) us) == Qsum (map (fun x => inject_Z (snd (fst x))) ks') + Qsum (map (fun rc => inject_Z (snd rc)) us'))%Q) by (rewrite E1, E2; reflexivity).
  split; [eapply Qeq_trans; [exact S1|]; apply Qeq_sym; eapply Qeq_trans; [exact S1'|]; apply Qeq_sym; apply ratio_eq; assumption|
          eapply Qeq_trans; [exact S2|]; apply Qeq_sym; eapply Qeq_trans; [exact S2'|]; apply Qeq_sym; apply ratio_eq; assumption].
Qed.
Lemma followers_same lm rm mf pre sents w fs fs' : followers lm rm mf pre sents w fs -> followers lm rm mf pre sents w fs' -> Permutation fs fs'.
Proof.
  intros [N H] [N' H']. apply NoDup_perm; [eapply NoDup_map_inv; exact N|eapply NoDup_map_inv; exact N'|]. intros [r n]. rewrite H, H'. reflexivity.
Qed.
Lemma v1_result_fun c mf pre sents w v v' : v1_result c mf pre sents w v -> v1_result c mf pre sents w v' -> (fst v == fst v' /\ snd v == snd v')%Q.
Proof.
  intros (fs & F & H) (fs' & F' & H'). pose proof (followers_same _ _ _ _ _ _ _ _ F F') as P. pose proof (Permutation_length P) as PL.
  destruct H as [[A B]|(A & B1 & B2)], H' as [[A' B']|(A' & B1' & B2')]; try lia.
  - eapply v1_score_fun; [|exact B|exact B']. intros x. split; apply Permutation_in; [exact P|apply Permutation_sym, P].
  - rewrite B1, B1', B2, B2'. split; reflexivity.
Qed.
Lemma subword_nil coef w ms : subword_score coef w ms [] = (0%Q, 0%Q).
Proof.
  unfold subword_score. assert (E : forall es d, fold_left (fun (d : dict str (Q * Q)) e => let sub := firstn e w in let suf := skipn e w in
      match dget (@nil (str * (Q * Q))) sub, dget (@nil (str * (Q * Q))) suf with
      | Some a, Some b => dset d sub (tuple_max a b)
      | Some a, None => let q := dgetd coef suf 0%Q in if Qle_bool q ms then d else dset d sub (q, 0%Q)
      | None, _ => d
      end) es d = d) by (induction es as [|e es IH]; intros d; [reflexivity|cbn [fold_left]; apply IH]). rewrite E. reflexivity.
Qed.
Lemma v1_predict_result c pre sents mf st w ms : v1_train c pre sents mf = Ok st -> v1_result c mf pre sents w (v1_predict c (v_graph st) w ms []).
Proof.
  intros H. pose proof (followers_features c pre sents mf st w H) as F. exists (r_features (v_graph st) w). split; [exact F|]. unfold v1_predict.
  destruct (Z.ltb_spec (v_minf c) (Z.of_nat (length (r_features (v_graph st) w)))) as [L|L].
  - left. split; [exact L|]. apply v1_predict_score. eapply NoDup_map_inv. apply F.
  - right. split; [exact L|]. rewrite subword_nil. split; reflexivity.
Qed.
(** bounds *)
Lemma occurrences_nonneg w ss : 0 <= occurrences w ss.
Proof. unfold occurrences. lia. Qed.
