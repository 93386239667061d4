(** * Proofs about NewsNounExtractor: extraction *)
From Coq Require Import QArith Permutation Lqa.
From Verif Require Import PyBase PyDict CountLemmas QLemmas PyText HangleModel HangleProofs UtilsModel UtilsSpec UtilsProofs UtilsProofs2 NounModel NounSpec NounProofs NounProofs2 VectorizerSpec VectorizerProofs3 JosaProofs NounV1Model NounV1Proofs NounV1Proofs3 NewsModel NewsSpec NewsProofs NewsProofs2 NewsProofs3.
Open Scope Z_scope.

(** ** order *)
Lemma first_split (L : list str) y : In y L -> exists a b, L = a ++ y :: b /\ ~ In y a.
Proof.
  induction L as [|x L IH]; intros I; [destruct I|]. destruct (eqb_spec x y) as [->|n]; [exists [], L; auto|].
  destruct I as [->|I]; [congruence|]. destruct (IH I) as (a & b & -> & NI). exists (x :: a), b. split; [reflexivity|]. intros [->|J]; [congruence|contradiction].
Qed.
Lemma first_split_fun (y : str) a b a' b' : a ++ y :: b = a' ++ y :: b' -> ~ In y a -> ~ In y a' -> a = a'.
Proof.
  revert a'. induction a as [|x a IH]; intros [|x' a'] E N N'; [reflexivity| | |].
  - cbn in E. injection E as <- _. exfalso. apply N'. left. reflexivity.
  - cbn in E. injection E as -> _. exfalso. apply N. left. reflexivity.
  - cbn in E. injection E as <- E. f_equal. apply (IH a' E); [intros I; apply N; right; exact I|intros I; apply N'; right; exact I].
Qed.
Lemma before_split L a (y : str) b x : L = a ++ y :: b -> ~ In y a -> (before L x y <-> In x a).
Proof.
  intros -> N. unfold before. split; [|intros I; exists a, b; auto]. intros (a' & b' & E & N' & I). rewrite (first_split_fun y a b a' b' E N N'). exact I.
Qed.
Lemma before_irrefl L x : ~ before L x x.
Proof. intros (a & b & _ & N & I). contradiction. Qed.
Lemma before_filter (p : str -> bool) L x y : p x = true -> p y = true -> In y L -> (before (filter p L) x y <-> before L x y).
Proof.
  intros PX PY I. destruct (first_split L y I) as (a & b & -> & N). rewrite (before_split (a ++ y :: b) a y b x eq_refl N).
  rewrite (before_split (filter p (a ++ y :: b)) (filter p a) y (filter p b) x).
  - rewrite filter_In. tauto.
  - rewrite filter_app. cbn [filter]. rewrite PY. reflexivity.
  - rewrite filter_In. tauto.
Qed.
Lemma add1_extends L : forall s, exists t, fold_left add1 L s = s ++ t.
Proof.
  induction L as [|x L IH]; intros s; [exists []; rewrite app_nil_r; reflexivity|]. cbn [fold_left]. destruct (IH (add1 s x)) as (t & ->). unfold add1. destruct (mem x s); [exists t; reflexivity|exists (x :: t); rewrite <- app_assoc; reflexivity].
Qed.
Lemma before_fs L x y : In y L -> (before (first_seen L) x y <-> before L x y).
Proof.
  intros I. destruct (first_split L y I) as (a & b & -> & N). rewrite (before_split (a ++ y :: b) a y b x eq_refl N).
  unfold first_seen. change (fun s x => if mem x s then s else s ++ [x]) with add1. rewrite fold_left_app. cbn [fold_left]. fold (first_seen a).
  change (fold_left add1 a []) with (first_seen a).
  assert (E : add1 (first_seen a) y = first_seen a ++ [y]).
  { unfold add1. destruct (mem y (first_seen a)) eqn:M; [|reflexivity]. apply mem_In in M. rewrite fs_In in M. contradiction. }
  rewrite E. destruct (add1_extends b (first_seen a ++ [y])) as (t & ->). rewrite <- app_assoc. rewrite (before_split _ (first_seen a) y t x eq_refl); [apply fs_In|rewrite fs_In; exact N].
Qed.

(** ** a dictionary that grows *)
Lemma dmem_dset {V} (d : dict str V) x w y : dmem (dset d x w) y = true <-> dmem d y = true \/ y = x.
Proof. unfold dmem. rewrite dget_dset. destruct (eqb_spec x y) as [->|n]; [tauto|]. split; [tauto|intros [H|H]; [exact H|congruence]]. Qed.
Section Grow.
  Context {V : Type}.
  Variables (cond : dict str V -> str -> bool) (v : str -> V).
  Let f (d : dict str V) (x : str) : dict str V := if cond d x then dset d x (v x) else d.
  Lemma grow (condP : (str -> Prop) -> str -> Prop) L d0 : NoDup L -> (forall d N x, In x L -> (forall y, dmem d y = true <-> N y) -> (cond d x = true <-> condP N x)) ->
    exists A : str -> Prop, (forall y, dmem (fold_left f L d0) y = true <-> dmem d0 y = true \/ A y) /\
      forall x, A x <-> In x L /\ condP (fun y => dmem d0 y = true \/ (A y /\ before L y x)) x.
  Proof.
    intros ND HC. exists (fun x => exists a b, L = a ++ x :: b /\ cond (fold_left f a d0) x = true).
    assert (G : forall a b, L = a ++ b -> forall y, dmem (fold_left f a d0) y = true <-> dmem d0 y = true \/ (In y a /\ exists a' b', L = a' ++ y :: b' /\ cond (fold_left f a' d0) y = true)).
    { intros a. induction a as [|z a IH] using rev_ind; intros b E y.
      - cbn [fold_left In]. tauto.
      - rewrite fold_left_app. cbn [fold_left]. rewrite <- app_assoc in E. cbn [app] in E. specialize (IH (z :: b) E y).
        assert (NZ : ~ In z a) by (rewrite E in ND; apply NoDup_remove_2 in ND; intros I; apply ND; apply in_app_iff; left; exact I).
        unfold f at 1. rewrite in_app_iff. cbn [In]. destruct (cond (fold_left f a d0) z) eqn:C.
        + rewrite dmem_dset, IH. split.
          * intros [[H|[H1 H2]]| ->]; [tauto|tauto|]. right. split; [tauto|]. exists a, b. auto.
          * intros [H|[[H|[<-|[]]] H2]]; tauto.
        + rewrite IH. split.
          * intros [H|[H1 H2]]; tauto.
          * intros [H|[[H|[<-|[]]] (a' & b' & E' & C')]]; [tauto|right; split; [exact H|exists a', b'; auto]|].
            exfalso. rewrite E in E'. rewrite E in ND. assert (NZ' : ~ In z a') by (rewrite E' in ND; apply NoDup_remove_2 in ND; intros I; apply ND; apply in_app_iff; left; exact I).
            rewrite (first_split_fun z a b a' b' E' NZ NZ') in C. congruence. }
    split.
    - intros y. rewrite (G L [] (eq_sym (app_nil_r L)) y). split; [tauto|]. intros [H|(a & b & E & C)]; [tauto|]. right. split; [rewrite E; apply in_app_iff; right; left; reflexivity|exists a, b; auto].
    - intros x. split.
      + intros (a & b & E & C). assert (I : In x L) by (rewrite E; apply in_app_iff; right; left; reflexivity). split; [exact I|].
        assert (NX : ~ In x a) by (rewrite E in ND; apply NoDup_remove_2 in ND; intros J; apply ND; apply in_app_iff; left; exact J).
        refine (proj1 (HC (fold_left f a d0) _ x I _) C). intros y. rewrite (G a (x :: b) E y), (before_split L a x b y E NX). tauto.
      + intros (I & C). destruct (first_split L x I) as (a & b & E & NX). exists a, b. split; [exact E|].
        refine (proj2 (HC (fold_left f a d0) _ x I _) C). intros y. rewrite (G a (x :: b) E y), (before_split L a x b y E NX). tauto.
  Qed.
End Grow.

Lemma foldM_pure {A B} (f : A -> B -> res A) (g : A -> B -> A) L : forall a, (forall a x, In x L -> f a x = Ok (g a x)) -> foldM f L a = Ok (fold_left g L a).
Proof. induction L as [|x L IH]; intros a H; [reflexivity|]. cbn [foldM fold_left]. rewrite (H a x (or_introl eq_refl)). cbn [bind]. apply IH. intros; apply H; right; assumption. Qed.
Lemma mapM_pure {A B} (f : A -> res B) (g : A -> B) L : (forall x, In x L -> f x = Ok (g x)) -> mapM f L = Ok (map g L).
Proof. induction L as [|x L IH]; intros H; [reflexivity|]. cbn [mapM map]. rewrite (H x (or_introl eq_refl)). cbn [bind]. rewrite IH by (intros; apply H; right; assumption). reflexivity. Qed.

(** ** the candidates *)
Lemma fold_dset_fun {V} (g : str -> V) L : forall d : dict str V, (forall x w, dget d x = Some w -> w = g x) ->
  (forall x w, dget (fold_left (fun d l => dset d l (g l)) L d) x = Some w -> w = g x) /\ dkeys (fold_left (fun d l => dset d l (g l)) L d) = fold_left add1 L (dkeys d).
Proof.
  induction L as [|l L IH]; intros d H; [split; [exact H|reflexivity]|]. cbn [fold_left]. rewrite <- dset_keys with (v := g l). apply IH. intros x w. rewrite dget_dset. destruct (eqb_spec l x) as [->|_]; [intros [= <-]; reflexivity|apply H].
Qed.
Lemma dmem_In {V} (d : dict str V) x : dmem d x = true <-> In x (dkeys d).
Proof. rewrite <- dget_keys. unfold dmem. destruct (dget d x); split; congruence. Qed.

Section Extract.
  Variables (c : nwconf) (st : nwstate) (W : list str).
  Let coef := w_coef c.
  Let lm := w_lm c.
  Let rm := w_rm c.
  Let josa : str -> Prop := fun x => In x (w_josa c).
  Let verbs : str -> Prop := fun x => In x (w_verbs c).
  Hypothesis T : trained lm rm W st.
  Notation aft := (after lm rm W).
  Notation fr := (freq lm rm W).
  Notation sc := (score coef lm rm W).
  Notation predict := (news_predict c st).

  Lemma candidates_In mf l : In l (dkeys (eojeol_candidates st mf)) <-> stands_alone lm rm W mf l.
  Proof.
    assert (ND : NoDup (dkeys (t_lc st))) by (destruct T as (_ & _ & -> & _); apply fs_NoDup).
    unfold eojeol_candidates. rewrite <- dget_keys, dget_dfilter by exact ND. destruct T as (_ & _ & _ & TL & TE). rewrite TL. unfold stands_alone.
    destruct (Z.ltb_spec 0 (fr l)) as [F|F]; [|split; [congruence|lia]]. rewrite TE. destruct (Z.leb_spec mf (fr l)) as [M|M]; cbn [andb]; [|split; [congruence|lia]].
    destruct (Qle_bool (99 # 100) (qdiv (alone lm rm W l) (fr l))) eqn:Q.
    - apply Qle_bool_iff in Q. split; [intros _; split; [exact F|split; [exact M|exact Q]]|discriminate].
    - split; [congruence|]. intros (_ & _ & X). apply Qle_bool_iff in X. unfold qdiv in Q. unfold zq in X. congruence.
  Qed.
  Lemma candidates_keys mf : exists p, dkeys (eojeol_candidates st mf) = filter p (lefts lm rm W).
  Proof.
    destruct T as (_ & _ & <- & TL & _). exists (fun l => (mf <=? dgetd (t_lc st) l 0) && Qle_bool (99 # 100) (qdiv (dgetd (t_eoj st) l 0) (dgetd (t_lc st) l 0))).
    assert (ND : NoDup (dkeys (t_lc st))) by (destruct T as (_ & _ & -> & _); apply fs_NoDup).
    unfold eojeol_candidates, dfilter. assert (G : forall l n, In (l, n) (t_lc st) -> dgetd (t_lc st) l 0 = n) by (intros l n I; apply (dget_In_iff _ _ _ ND) in I; unfold dgetd; rewrite I; reflexivity).
    set (get := fun l => dgetd (t_lc st) l 0) in *. change (dgetd (t_lc st)) with (fun l (z : Z) => dgetd (t_lc st) l z). 
    assert (H : forall d, (forall l n, In (l, n) d -> get l = n) -> dkeys (filter (fun kv : str * Z => (mf <=? snd kv) && Qle_bool (99 # 100) (qdiv (dgetd (t_eoj st) (fst kv) 0) (snd kv))) d) = filter (fun l => (mf <=? get l) && Qle_bool (99 # 100) (qdiv (dgetd (t_eoj st) l 0) (get l))) (dkeys d)).
    { induction d as [|[l n] d IH]; intros HG; [reflexivity|]. cbn [filter dkeys map fst snd]. rewrite (HG l n (or_introl eq_refl)). destruct ((mf <=? n) && _); cbn [dkeys map fst]; [f_equal|]; apply IH; intros; apply HG; right; assumption. }
    apply H. exact G.
  Qed.
  Lemma nv_loop_two l es : length l = 2%nat -> (forall e, In e es -> (2 <= e)%nat) -> forall n, nv_loop c st es l = Some n <-> es <> [] /\ n = l /\ (4 # 10 <= sc l)%Q /\ verbs [].
  Proof.
    intros L2 H n. induction es as [|e es IH]; [split; [discriminate|intros (X & _); congruence]|]. cbn [nv_loop]. assert (E2 : (2 <= e)%nat) by (apply H; left; reflexivity).
    rewrite firstn_all2 by lia. rewrite skipn_all2 by lia. assert (SG : Qle_bool (4 # 10) (ns_score (predict l)) = true <-> (4 # 10 <= sc l)%Q) by (apply (score_ge c st W T)).
    destruct (Qle_bool (4 # 10) (ns_score (predict l)) && mem [] (w_verbs c)) eqn:B.
    - apply andb_true_iff in B as [B1 B2]. apply SG in B1. apply mem_In in B2. split; [intros [= <-]; split; [discriminate|auto]|intros (_ & -> & _); reflexivity].
    - rewrite IH by (intros; apply H; right; assumption). split; [intros (_ & X); split; [discriminate|exact X]|]. intros (_ & _ & X1 & X2). exfalso. apply SG in X1. apply (proj2 (mem_In _ _)) in X2. rewrite X1, X2 in B. discriminate.
  Qed.
  Lemma eojeol_to_NV_spec l n : eojeol_to_NV c st l = Some n <-> exists r, l = n ++ r /\ length n = 2%nat /\ (2 <= length r)%nat /\ (4 # 10 <= sc n)%Q /\ (verbs r \/ ((3 <= length r)%nat /\ verbs [])).
  Proof.
    unfold eojeol_to_NV. destruct (Nat.ltb_spec (length l) 4) as [L|L].
    { split; [discriminate|]. intros (r & -> & A & B & _). rewrite app_length in L. lia. }
    replace (length l - 3)%nat with (Datatypes.S (length l - 4)) by lia. cbn [seq nv_loop]. assert (L2 : length (firstn 2 l) = 2%nat) by (rewrite firstn_length; lia).
    assert (SG : Qle_bool (4 # 10) (ns_score (predict (firstn 2 l))) = true <-> (4 # 10 <= sc (firstn 2 l))%Q) by (apply (score_ge c st W T)).
    assert (LS : length (skipn 2 l) = (length l - 2)%nat) by apply skipn_length.
    destruct (Qle_bool (4 # 10) (ns_score (predict (firstn 2 l))) && mem (skipn 2 l) (w_verbs c)) eqn:B.
    - apply andb_true_iff in B as [B1 B2]. apply SG in B1. apply mem_In in B2. split.
      + intros EN. assert (EN' : n = firstn 2 l) by congruence. subst n. clear EN. exists (skipn 2 l). rewrite firstn_skipn. split; [reflexivity|]. split; [exact L2|]. split; [lia|]. split; [exact B1|]. left. exact B2.
      + intros (r & -> & A & _). f_equal. rewrite <- A. exact (firstn_pre n r).
    - rewrite nv_loop_two; [|exact L2|intros e I; apply in_seq in I; lia]. split.
      + intros (NE & -> & S1 & V0). exists (skipn 2 l). rewrite firstn_skipn. split; [reflexivity|]. split; [exact L2|]. split; [lia|]. split; [exact S1|]. right. split; [|exact V0]. rewrite LS. destruct (length l - 4)%nat eqn:E4; [cbn in NE; congruence|lia].
      + intros (r & -> & A & LR & S1 & V). assert (FP : firstn 2 (n ++ r) = n) by (rewrite <- A; apply firstn_pre). assert (SP2 : skipn 2 (n ++ r) = r) by (rewrite <- A; apply skipn_pre). rewrite FP, SP2 in *. destruct V as [V|[L3 V0]].
        * exfalso. apply SG in S1. apply (proj2 (mem_In _ _)) in V. rewrite S1, V in B. discriminate.
        * split; [|auto]. rewrite app_length. replace (length n + length r - 4)%nat with (Datatypes.S (length r - 3)) by lia. discriminate.
  Qed.
  Lemma pre_analysis_spec mf nd x : dmem (pre_analysis c st mf nd) x = true <-> dmem nd x = true \/ split_verb coef lm rm verbs W mf x.
  Proof.
    unfold pre_analysis. assert (G : forall L nd, dmem (fold_left (fun nd l => match eojeol_to_NV c st l with Some l0 => dset nd l0 (Count (l_frequency st l0)) | None => nd end) L nd) x = true <-> dmem nd x = true \/ exists l, In l L /\ eojeol_to_NV c st l = Some x).
    { intros L. induction L as [|l L IH]; intros d; cbn [fold_left].
      - split; [tauto|intros [H|(l & [] & _)]; exact H].
      - rewrite IH. destruct (eojeol_to_NV c st l) as [l0|] eqn:E.
        + rewrite dmem_dset. split; [intros [[H| ->]|(l' & I & H)]; [tauto|right; exists l; split; [left; reflexivity|exact E]|right; exists l'; split; [right; exact I|exact H]]|].
          intros [H|(l' & [<-|I] & H)]; [tauto|left; right; congruence|right; exists l'; auto].
        + split; [intros [H|(l' & I & H)]; [tauto|right; exists l'; split; [right; exact I|exact H]]|]. intros [H|(l' & [<-|I] & H)]; [tauto|congruence|right; exists l'; auto]. }
    rewrite G. apply or_iff_compat_l. unfold split_verb. split.
    - intros (l & I & E). apply candidates_In in I. apply eojeol_to_NV_spec in E as (r & -> & H). exists r. tauto.
    - intros (r & S & H). exists (x ++ r). split; [apply candidates_In, S|]. apply eojeol_to_NV_spec. exists r. tauto.
  Qed.
  Lemma pre_analysis_wf mf nd : NoDup (dkeys nd) -> NoDup (dkeys (pre_analysis c st mf nd)).
  Proof.
    unfold pre_analysis. generalize (dkeys (eojeol_candidates st mf)) as L. intros L. revert nd. induction L as [|l L IH]; intros nd H; [exact H|]. cbn [fold_left]. apply IH. destruct (eojeol_to_NV c st l); [apply (dwf_dset nd), H|exact H].
  Qed.

  Section Scored.
    Variables (ms : Q) (mf : Z) (cands : list str) (mfp : Q).
    Let order := match cands with [] => lefts lm rm W | _ => cands end.
    Let ns := noun_scores ms mfp (scored_candidates c st mf cands).
    Let good := good_score coef lm rm W ms mf cands mfp.
    Lemma ns_struct : exists p q, dkeys ns = filter p (first_seen (filter q order)) /\
      (forall l, p l = true <-> (ms < sc l)%Q /\ (mfp < zq (fr l))%Q /\ (2 <= length l)%nat) /\
      (forall l, (2 <= length l)%nat -> (q l = true <-> mf <= fr l /\ dget coef l = None)) /\ forall l s, dget ns l = Some s -> s = predict l.
    Proof.
      set (cs := match cands with [] => filter (fun l => (2 <=? length l)%nat) (dkeys (t_lc st)) | _ => cands end).
      destruct (fold_dset_fun predict (filter (fun l => (mf <=? l_frequency st l) && negb (dmem (w_coef c) l)) cs) [] ltac:(discriminate)) as [V K].
      fold (scored_candidates c st mf cands) in V, K. unfold scored_candidates in V, K. fold cs in V, K.
      assert (EN : ns = noun_scores ms mfp (fold_left (fun d l => dset d l (predict l)) (filter (fun l => (mf <=? l_frequency st l) && negb (dmem (w_coef c) l)) cs) [])) by reflexivity.
      set (D := fold_left (fun d l => dset d l (predict l)) (filter (fun l => (mf <=? l_frequency st l) && negb (dmem (w_coef c) l)) cs) []) in *. rewrite EN. clear EN.
      set (pb := fun l => negb (Qle_bool (ns_score (predict l)) ms) && negb (Qle_bool (inject_Z (ns_freq (predict l))) mfp) && (1 <? length l)%nat).
      assert (ND : NoDup (dkeys D)) by (rewrite K; apply first_seen_NoDup_gen; constructor).
      assert (KE : dkeys (noun_scores ms mfp D) = filter pb (dkeys D)).
      { unfold noun_scores, dfilter. assert (V' : forall l s, In (l, s) D -> s = predict l) by (intros l s I; apply V, (dget_In_iff _ _ _ ND), I). clear V K ND. induction D as [|[l s] D IH]; [reflexivity|]. cbn [filter dkeys map fst snd].
        rewrite (V' l s (or_introl eq_refl)). fold (pb l). destruct (pb l); cbn [dkeys map fst]; [f_equal|]; apply IH; intros; apply V'; right; assumption. }
      exists pb. exists (fun l => match cands with [] => (2 <=? length l)%nat | _ => true end && ((mf <=? l_frequency st l) && negb (dmem (w_coef c) l))).
      split; [|split; [|split]].
      - rewrite KE, K. f_equal. cbn [dkeys map]. change (fold_left add1 ?L []) with (first_seen L). f_equal. unfold cs, order. destruct T as (_ & _ & -> & _). destruct cands as [|c0 cs0].
        + rewrite <- filter_and. reflexivity.
        + reflexivity.
      - intros l. unfold pb. rewrite !andb_true_iff, (score_gt c st W T l ms), gtb_iff, Nat.ltb_lt. destruct (predict_spec c st W T l) as (_ & -> & _). unfold zq. split; [intros [[H1 H2] H3]|intros (H1 & H2 & H3)]; repeat split; try assumption; lia.
      - intros l L2. destruct T as (_ & TF & _). rewrite TF. assert (X : (match cands with [] => (2 <=? length l)%nat | _ => true end) = true) by (destruct cands; [apply Nat.leb_le, L2|reflexivity]). rewrite X. cbn [andb].
        rewrite andb_true_iff, Z.leb_le, negb_true_iff. unfold dmem. fold coef. destruct (dget coef l); split; intros [H1 H2]; split; congruence || assumption.
      - intros l s G. unfold noun_scores in G. rewrite dget_dfilter in G by exact ND. destruct (dget D l) as [s'|] eqn:DG; [|discriminate]. apply V in DG. destruct (_ && _); [|discriminate]. congruence.
    Qed.
    Lemma ns_In l : dmem ns l = true <-> good l.
    Proof.
      rewrite dmem_In. destruct ns_struct as (p & q & -> & P & Q & _). rewrite filter_In, fs_In, filter_In, P. unfold good, good_score. fold order. split.
      - intros [[I QL] (H1 & H2 & H3)]. apply (Q l H3) in QL. tauto.
      - intros (I & H1 & H2 & H3 & H4 & H5). split; [split; [exact I|apply (Q l H5); auto]|auto].
    Qed.
    Lemma ns_NoDup : NoDup (dkeys ns).
    Proof. destruct ns_struct as (p & q & -> & _). apply NoDup_filter, fs_NoDup. Qed.
    Lemma ns_before x y : good x -> good y -> (before (dkeys ns) x y <-> before order x y).
    Proof.
      intros GX GY. destruct ns_struct as (p & q & -> & P & Q & _). destruct GX as (IX & X1 & X2 & X3 & X4 & X5), GY as (IY & Y1 & Y2 & Y3 & Y4 & Y5). fold order in IX, IY.
      assert (QX : q x = true) by (apply (Q x X5); auto). assert (QY : q y = true) by (apply (Q y Y5); auto).
      rewrite before_filter by (try apply P; try (rewrite fs_In; apply filter_In); auto). rewrite before_fs by (apply filter_In; auto). apply before_filter; auto.
    Qed.
  End Scored.
End Extract.
