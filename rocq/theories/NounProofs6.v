(** * LRNounExtractor_v2: the whole extraction *)
From Coq Require Import QArith Reals Permutation Sorting.Sorted Bool.
From Coq Require Import Lqa.
From Verif Require Import PyBase PyDict PySort SortLemmas CountLemmas QLemmas PyText UtilsModel UtilsSpec UtilsProofs UtilsProofs2 UtilsProofs6 TokenizerModel TokenizerSpec NounModel NounSpec NounSpec2 NounProofs NounProofs2 NounProofs3 NounProofs4 NounProofs5 NounProps JosaModel.
Open Scope Z_scope.

(** ** coverage *)
Lemma reach_cover {S} c (nouns : dict str S) g ws : forall (st : lrg * Z), reach g (fst st) -> reach g (fst (fold_left (cover_step c nouns) ws st)).
Proof.
  induction ws as [|w ws IH]; intros [g' k] R; [exact R|]. cbn [fold_left]. apply IH. unfold cover_step. destruct (dmem nouns w); [|exact R]. rewrite cover_rows. cbn [fst]. apply reach_rows, R.
Qed.
Lemma coverage_of {S} ec lm rm c g g' (nouns : dict str S) k : NoDup (map fst (ec_counter ec)) -> 1 < lm -> 0 < rm -> train_counter ec lm rm = Ok g -> reach g g' ->
  let st := check_covered c g' nouns k in coverage c lm rm (ec_counter ec) nouns (fst st) (snd st - k) /\ reset_lrgraph (fst st) = g.
Proof.
  intros N A B TR RE. unfold check_covered. rewrite (trained_reset ec lm rm g g' A B TR RE).
  destruct (trained_uni ec lm rm N A B) as (g0 & E0 & U & O & RL). rewrite TR in E0. injection E0 as <-.
  assert (P : 0 < lm) by lia.
  set (ws := sort_len (dkeys (noun_candidates c g None))).
  assert (K : forall w, In w ws <-> noun_candidate c lm rm (ec_counter ec) w) by (intros w; unfold ws, sort_len; rewrite sort_In; apply candidates_uni; assumption).
  pose proof (cover_loop c lm rm nouns (ec_counter ec) ws N P (fun _ => false) g k U) as X. cbv zeta in X. destruct X as ([I1 U1] & O1 & K1).
  assert (RC : reach g (fst (fold_left (cover_step c nouns) ws (g, k)))) by (apply reach_cover, reach_refl).
  cbv zeta. set (st := fold_left (cover_step c nouns) ws (g, k)) in *. clearbody st. split.
  - unfold coverage. split.
    + intros l r n. rewrite seen_l by exact I1. rewrite U1. cbn [orb]. rewrite <- (expl_spec c lm rm (ec_counter ec) nouns ws (l ++ r) P K), <- (window_spec lm rm l r P).
      destruct (in_window lm rm l r), (expl c lm rm nouns ws (l ++ r)); (split; [intros X; try discriminate X; (split; [reflexivity|]; split; [exact X|discriminate])|intros (H1 & H2 & H3); try discriminate H1; try (exfalso; apply H3; reflexivity); exact H2]).
    + exists (filter (fun p => expl c lm rm nouns ws (fst p)) (ec_counter ec)). split; [apply (NoDup_filter_map (K:=str)); exact N|]. split.
      * intros e n. rewrite filter_In. cbn [fst]. rewrite <- dget_In_iff by exact N. rewrite (expl_spec c lm rm (ec_counter ec) nouns ws e P K). tauto.
      * rewrite K1. rewrite ftotal_filter. cbn [negb andb]. replace (k + _ - k) with (Zsum snd (filter (fun p => expl c lm rm nouns ws (fst p)) (ec_counter ec))) by lia.
        clear. induction (filter _ _) as [|y l' IH]; [reflexivity|]. cbn [Zsum map fold_right]. rewrite IH. reflexivity.
  - exact (trained_reset ec lm rm g _ A B TR RC).
Qed.

(** ** the domain feature extraction finds nothing *)
Lemma no_domain_features th g scores known ignore : Forall (fun p : str * (Q * Q) => (snd (snd p) < j_noun_freq th)%Q) scores -> josa_extract th g scores known ignore = Ok [].
Proof.
  intros F. assert (N : josa_nouns th scores = []).
  { unfold josa_nouns. replace (filter _ scores) with (@nil (str * (Q * Q))); [reflexivity|]. symmetry. induction F as [|p l H F IH]; [reflexivity|]. cbn [filter].
    destruct (Qle_bool (j_noun_freq th) (snd (snd p))) eqn:E; [apply Qle_bool_iff in E; lra|]. rewrite andb_false_r. exact IH. }
  unfold josa_extract. rewrite N. reflexivity.
Qed.
Lemma no_new_features c : append_features c (u "pos") [] = Ok c.
Proof. destruct c as [cp cn cc cm cx]. unfold append_features. replace (eqb (u "pos") (u "pos")) with true by (symmetry; apply eqb_refl). cbn [filter pos_f neg_f common_f min_nf max_eoj]. rewrite !app_nil_r. reflexivity. Qed.

(** ** post-processing *)
Lemma post_default josa suffix c g nouns : post_processing josa suffix c g default_postprocessing nouns =
  fst (check_N_is_NJ josa suffix (fst (ignore_features (fst (detaching_features nouns (pos_f c))) (pos_f c ++ common_f c))) (match origin g with Some o => o | None => [] end) 5).
Proof. reflexivity. Qed.
Lemma wf_dfilter {V} (f : str -> V -> bool) (d : dict str V) : NoDup (map fst d) -> NoDup (map fst (dfilter f d)).
Proof. intros N. apply (NoDup_filter_map (K:=str)). exact N. Qed.
Lemma update_get {V} (u0 : dict str V) : NoDup (map fst u0) -> forall d w, dget (fold_left (fun d p => dset d (fst p) (snd p)) u0 d) w = match dget u0 w with Some v => Some v | None => dget d w end.
Proof.
  induction u0 as [|[k v] u0 IH]; intros N d w; [reflexivity|]. inversion N as [|? ? NI N']; subst. cbn [fold_left fst snd dget]. rewrite IH by exact N'. rewrite dget_dset.
  destruct (eqb_spec k w) as [->|n]; [|reflexivity]. destruct (dget u0 w) eqn:E; [|reflexivity]. exfalso. apply NI. apply dget_In in E. apply in_map_iff. exists (w, v0). auto.
Qed.
Lemma update_wf {V} (u0 : dict str V) : forall d, NoDup (map fst d) -> NoDup (map fst (fold_left (fun d p => dset d (fst p) (snd p)) u0 d)).
Proof. induction u0 as [|[k v] u0 IH]; intros d N; [exact N|]. cbn [fold_left]. apply IH, dwf_dset, N. Qed.
Lemma five_josas josa (keys : list str) (P : str -> Prop) k : NoDup keys -> (forall j, In j keys <-> P j) ->
  ((exists m, how_many (fun j => In j josa) keys m /\ (k <= m)%nat) <-> exists js, NoDup js /\ (k <= length js)%nat /\ forall j, In j js -> In j josa /\ P j).
Proof.
  intros N H. assert (HM : how_many (fun j => In j josa) keys (length (filter (fun r => mem r josa) keys))) by (apply how_many_filter; intros; apply mem_In). split.
  - intros (m & M & L). rewrite (how_many_fun _ _ _ _ M HM) in L. exists (filter (fun r => mem r josa) keys). split; [apply NoDup_filter, N|]. split; [exact L|].
    intros j I. apply filter_In in I as [I J]. apply mem_In in J. split; [exact J|apply H, I].
  - intros (js & NJ & L & F). eexists. split; [exact HM|]. eapply Nat.le_trans; [exact L|]. apply NoDup_incl_length; [exact NJ|]. intros j I. apply filter_In. destruct (F j I) as [A B]. split; [apply H, B|apply mem_In, A].
Qed.
Lemma nj_spec josa suffix lm rm f g nouns w s : 0 < lm -> uni lm rm (dget f) g ->
  ((exists l r sl m, w = l ++ r /\ (2 <= length l)%nat /\ r <> [] /\ In r josa /\ ~ In r suffix /\ dget nouns l = Some sl /\ (fst s < fst sl)%Q /\
     how_many (fun j => In j josa) (map fst (match dget (lr g) l with Some x => x | None => [] end)) m /\ 5 <= Z.of_nat m) <-> noun_with_josa josa suffix lm rm f nouns w s).
Proof.
  intros P [I U]. unfold noun_with_josa.
  assert (KEY : forall l, let keys := map fst (match dget (lr g) l with Some x => x | None => [] end) in NoDup keys /\ forall j, In j keys <-> in_limits lm rm l j /\ dget f (l ++ j) <> None).
  { intros l. cbv zeta. split.
    - destruct (dget (lr g) l) as [x|] eqn:E; [exact (gwf_inner _ _ _ (inv_lr g I) E)|constructor].
    - intros j. rewrite <- (window_spec lm rm l j P). assert (X : In j (map fst (match dget (lr g) l with Some x => x | None => [] end)) <-> pget (lr g) l j <> None).
      { unfold pget. destruct (dget (lr g) l) as [x|]; [symmetry; apply dget_keys|]. cbn. tauto. }
      rewrite X, U. destruct (in_window lm rm l j); [tauto|]. split; [congruence|intros [Y _]; discriminate]. }
  split.
  - intros (l & r & sl & m & E & L & R & J & S & D & F & M & K). destruct (KEY l) as [NK HK]. destruct (proj1 (five_josas josa _ _ 5 NK HK)) as (js & A & B & C); [exists m; split; [exact M|lia]|].
    exists l, r, sl, js. do 9 (split; [assumption|]). intros j Ij. destruct (C j Ij) as [X Y]. split; [exact X|exact Y].
  - intros (l & r & sl & js & E & L & R & J & S & D & F & A & B & C). destruct (KEY l) as [NK HK]. destruct (proj2 (five_josas josa _ _ 5 NK HK)) as (m & M & K).
    + exists js. split; [exact A|]. split; [exact B|]. intros j Ij. destruct (C j Ij) as (X & Y & Z). auto.
    + exists l, r, sl, m. do 7 (split; [assumption|]). split; [exact M|lia].
Qed.
(** ** extraction *)
Lemma scores_bound ec lm rm c g ms : NoDup (map fst (ec_counter ec)) -> 1 < lm -> 0 < rm -> (forall e n, dget (ec_counter ec) e = Some n -> 0 <= n) -> train_counter ec lm rm = Ok g ->
  let S := snd (batch_predict c g (dkeys (noun_candidates c g None)) ms) in
  NoDup (map fst S) /\ Forall (fun p : str * (Z * Q) => (-1 <= snd (snd p) <= 1)%Q /\ 0 <= fst (snd p)) S.
Proof.
  intros N A B NN TR. destruct (trained_uni ec lm rm N A B) as (g0 & E0 & U & O & RL). rewrite TR in E0. injection E0 as <-.
  assert (P : 0 < lm) by lia. pose proof (batch_all c lm rm (ec_counter ec) g ms P U) as X. cbv zeta in X. destruct X as (ND & K & SC & _).
  cbv zeta. set (S := snd (batch_predict c g (dkeys (noun_candidates c g None)) ms)) in *. clearbody S. split; [exact ND|].
  apply Forall_forall. intros [w p] I. cbn [snd]. apply In_dget in I; [|exact ND]. destruct (left_rows lm rm _ g S ms w P U ND) as (fs & NF & HF). rewrite (SC w p fs I NF HF).
  destruct (predict_bounds c w fs ms) as [Q1 [Q2 _]]; [|auto]. intros r n J. apply HF in J as (_ & F & _). apply (NN _ _ F).
Qed.
Lemma extend_noop ec lm rm c g : NoDup (map fst (ec_counter ec)) -> 1 < lm -> 0 < rm -> (forall e n, dget (ec_counter ec) e = Some n -> 0 <= n) -> train_counter ec lm rm = Ok g ->
  extend_pos_features josa_dom c g (dkeys (noun_candidates c g None)) = (c, g).
Proof.
  intros N A B NN TR. unfold extend_pos_features. pose proof (scores_bound ec lm rm c g (3 # 10) N A B NN TR) as X. cbv zeta in X. destruct X as [ND F].
  pose proof (reach_batch c (3 # 10) g (dkeys (noun_candidates c g None)) g (reach_refl g)) as R.
  destruct (batch_predict c g (dkeys (noun_candidates c g None)) (3 # 10)) as [g1 S]. cbn [fst snd] in *. rewrite (trained_reset ec lm rm g g1 A B TR R).
  unfold josa_dom. rewrite no_domain_features.
  - cbn [dkeys map]. rewrite no_new_features. reflexivity.
  - apply Forall_map. eapply Forall_impl; [|exact F]. intros [w [n q]] [[_ Q] _]. cbn [fst snd j_noun_freq josa_default] in *. lra.
Qed.
Lemma extract_all josa suffix ec lm rm c comp posf ms mf reset : NoDup (map fst (ec_counter ec)) -> 1 < lm -> 0 < rm -> (forall e n, dget (ec_counter ec) e = Some n -> 0 <= n) ->
  (comp = true -> Forall (fun p => Forall (fun c => nonspace c = true) (fst p)) (ec_counter ec)) ->
  exists g g' k nouns comps tables, let S := snd (batch_predict c g (dkeys (noun_candidates c g None)) ms) in
    train_counter ec lm rm = Ok g /\
    noun_extract josa suffix josa_dom default_postprocessing comp posf c g ms mf reset = Ok (mkN c (if reset then g else g') k, nouns) /\
    (if comp then compound_table (pos_f c) S ms lm rm (ec_counter ec) comps else comps = []) /\
    extracted josa suffix c lm rm (ec_counter ec) S comps ms mf tables nouns /\
    coverage c lm rm (ec_counter ec) nouns g' k.
Proof.
  intros N A B NN NSP. destruct (trained_uni ec lm rm N A B) as (g & TR & U & O & RL). exists g.
  set (S := snd (batch_predict c g (dkeys (noun_candidates c g None)) ms)).
  set (g1 := fst (batch_predict c g (dkeys (noun_candidates c g None)) ms)).
  assert (R1 : reach g g1) by (apply reach_batch, reach_refl).
  pose proof (scores_bound ec lm rm c g ms N A B NN TR) as X. cbv zeta in X. fold S in X. destruct X as [NS BS].
  assert (CO : exists g2 comps, (if comp then do r <- extract_compounds (pos_f c) g1 S ms; Ok (c_graph (fst r), snd r) else Ok (g1, [])) = Ok (g2, comps) /\ reach g g2 /\ NoDup (map fst comps) /\
     (if comp then compound_table (pos_f c) S ms lm rm (ec_counter ec) comps else comps = [])).
  { destruct comp.
    - destruct (compounds_all (pos_f c) S ms lm rm ec g g1 N NS A B (NSP eq_refl) TR R1) as (st & comps & E & R & ND & T). exists (c_graph st), comps. rewrite E. cbn [bind fst snd]. auto.
    - exists g1, []. split; [reflexivity|]. split; [exact R1|]. split; [constructor|reflexivity]. }
  destruct CO as (g2 & comps & EC & R2 & NC & TC).
  set (single := map (fun p : str * (Z * Q) => (fst p, (inject_Z (fst (snd p)), snd (snd p)))) (filter (fun p => Qle_bool ms (snd (snd p))) S)).
  set (merged := fold_left (fun d p => dset d (fst p) (snd p)) comps single : dict str (Q * Q)).
  set (t0 := dfilter (fun _ s => Qle_bool mf (fst s)) merged : dict str (Q * Q)).
  set (t1 := fst (detaching_features t0 (pos_f c))). set (t2 := fst (ignore_features t1 (pos_f c ++ common_f c))).
  set (nouns := post_processing josa suffix c g2 default_postprocessing t0).
  set (st := check_covered c g2 nouns 0).
  exists (fst st), (snd st), nouns, comps, (mkTables t0 t1 t2). cbv zeta. fold S. split; [exact TR|]. split.
  { unfold noun_extract. replace (if posf then extend_pos_features josa_dom c g (dkeys (noun_candidates c g None)) else (c, g)) with (c, g) by (destruct posf; [symmetry; apply (extend_noop ec lm rm); assumption|reflexivity]).
    rewrite (surjective_pairing (batch_predict c g (dkeys (noun_candidates c g None)) ms)). fold g1 S. rewrite EC. cbn [bind].
    fold single. fold merged. fold t0. fold nouns. rewrite (surjective_pairing (check_covered c g2 nouns 0)). fold st.
    destruct (coverage_of ec lm rm c g g2 nouns 0 N A B TR R2) as [_ RS]. fold st in RS. rewrite RS. reflexivity. }
  split; [exact TC|].
  assert (NSI : NoDup (map fst single)) by (unfold single; rewrite map_map; apply (NoDup_filter_map (K:=str)); exact NS).
  assert (NM : NoDup (map fst merged)) by (apply update_wf; exact NSI).
  assert (N0 : NoDup (map fst t0)) by (apply wf_dfilter, NM).
  assert (N1 : NoDup (map fst t1)) by (apply wf_dfilter, N0).
  assert (N2 : NoDup (map fst t2)) by (apply wf_dfilter, N1).
  assert (OR : origin g2 = Some (lr g)).
  { destruct R2 as (ops & F & ->). destruct (history_origin ops F g (proj1 U)) as (X & _). rewrite X. exact O. }
  split.
  - intros w s. cbn [n0 n1 n2]. split; [|split; [|split]].
    + unfold t0. rewrite dget_dfilter by exact NM. unfold merged. rewrite update_get by exact NC.
      assert (SG : dget single w = Some s <-> exists p, dget S w = Some p /\ (ms <= snd p)%Q /\ s = (inject_Z (fst p), snd p)).
      { rewrite dget_In_iff by exact NSI. unfold single. rewrite in_map_iff. split.
        - intros ([w' p] & E & I). cbn [fst snd] in E. injection E as -> <-. apply filter_In in I as [I Q]. cbn [snd] in Q. apply Qle_bool_iff in Q. exists p. split; [apply In_dget; assumption|auto].
        - intros (p & D & Q & ->). exists (w, p). split; [reflexivity|]. apply filter_In. split; [apply dget_In, D|]. apply Qle_bool_iff, Q. }
      destruct (dget comps w) as [sc|] eqn:DC.
      * destruct (Qle_bool mf (fst sc)) eqn:Q.
        -- apply Qle_bool_iff in Q. split; [intros E; injection E as <-; auto|]. intros [_ [E|[E _]]]; [exact E|discriminate].
        -- split; [discriminate|]. intros [Q' [E|[E _]]]; [injection E as <-; apply Qle_bool_iff in Q'; congruence|discriminate].
      * rewrite <- SG. destruct (dget single w) as [s'|] eqn:D; [|split; [discriminate|intros [_ [E|[_ E]]]; discriminate]].
        destruct (Qle_bool mf (fst s')) eqn:Q.
        -- apply Qle_bool_iff in Q. split; [intros E; injection E as <-; auto|]. intros [_ [E|[_ E]]]; [discriminate|exact E].
        -- split; [discriminate|]. intros [Q' [E|[_ E]]]; [discriminate|]. injection E as <-. apply Qle_bool_iff in Q'. congruence.
    + unfold t1. apply C52_detaching, N0.
    + unfold t2. rewrite C52_ignore_features by exact N1. rewrite in_app_iff. tauto.
    + unfold nouns. rewrite post_default. fold t1. fold t2. rewrite OR. rewrite C52_NJ; [|exact N2|apply (inv_lr g (proj1 U))]. rewrite (nj_spec josa suffix lm rm (ec_counter ec) g t2 w s) by (try lia; exact U). reflexivity.
  - destruct (coverage_of ec lm rm c g g2 nouns 0 N A B TR R2) as [CV _]. fold st in CV. rewrite Z.sub_0_r in CV. exact CV.
Qed.
