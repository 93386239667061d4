(** * Proofs about the extraction of stems: candidates, batch prediction, post-processing, canonical stems *)
From Coq Require Import QArith Reals Permutation Lra Lqa Sorted.
From Verif Require Import PyBase PyDict PySort SortLemmas CountLemmas QLemmas UtilsModel UtilsSpec UtilsProofs UtilsProofs2 NounModel NounSpec NounProofs NounProofs2 NounProofs3 WordModel WordSpec WordProofs4 JosaModel VectorizerSpec VectorizerProofs3 HangleModel LemmaModel LemmaProofs PredModel PredSpec PredSpec2 PredProofs PredProofs2 PredProofs3 PredProofs4 PredProofs5.
Open Scope Z_scope.

Lemma stem_predict_ok c fs l ms mf : Forall (fun rc => 0 < snd rc) fs -> exists p, stem_predict c fs l ms mf = Ok p.
Proof.
  intros F. unfold stem_predict. rewrite stem_entropy_shannon.
  - cbn [bind]. destruct (stem_predict3 c l fs) as [[pos neg] unk]. eexists. reflexivity.
  - apply Forall_map. unfold select_pos. rewrite Forall_forall in *. intros x I. apply filter_In in I as [I _]. apply F, I.
Qed.
(** ** candidates *)
Section Cands.
  Variables (ok : str -> bool).
  Definition addcount (d : dict str Z) (lc : str * Z) : dict str Z := if ok (fst lc) then d else dset d (fst lc) (dgetd d (fst lc) 0 + snd lc).
  Lemma addcount_get L : forall d l, NoDup (dkeys d) -> NoDup (dkeys (fold_left addcount L d)) /\
    dget (fold_left addcount L d) l = if ok l then dget d l else if existsb (fun lc => eqb (fst lc) l) L then Some (dgetd d l 0 + Zsum (fun lc => if eqb (fst lc) l then snd lc else 0) L) else dget d l.
  Proof.
    induction L as [|[l0 n] L IH]; intros d l ND; cbn [fold_left existsb Zsum fst snd]; [split; [exact ND|destruct (ok l); reflexivity]|].
    assert (ND1 : NoDup (dkeys (addcount d (l0, n)))) by (unfold addcount; cbn [fst snd]; destruct (ok l0); [exact ND|apply dwf_dset, ND]).
    destruct (IH (addcount d (l0, n)) l ND1) as [A B]. split; [exact A|]. rewrite B. unfold addcount. cbn [fst snd]. destruct (ok l) eqn:OL.
    - destruct (ok l0) eqn:O0; [reflexivity|]. rewrite dget_dset. destruct (eqb_spec l0 l) as [->|NE]; [congruence|reflexivity].
    - destruct (eqb_spec l0 l) as [->|NE].
      + rewrite OL. unfold dgetd. rewrite dget_dset, eqb_refl. cbn [orb].
        destruct (existsb (fun lc : str * Z => eqb (fst lc) l) L) eqn:X; [f_equal; lia|]. f_equal. rewrite (Zsum_zero _ L); [lia|]. intros [l1 n1] I. cbn [fst snd]. destruct (eqb_spec l1 l) as [->|]; [|reflexivity]. exfalso. rewrite <- not_true_iff_false in X. apply X. apply existsb_exists. exists (l, n1). split; [exact I|apply eqb_refl].
      + cbn [orb]. destruct (ok l0) eqn:O0; [reflexivity|]. unfold dgetd. rewrite dget_dset. destruct (eqb_spec l0 l) as [->|_]; [congruence|]. destruct (existsb _ L); reflexivity.
  Qed.
End Cands.
Lemma concat_fold {A B C} (f : A -> C -> A) (h : B -> list C) L : forall a, fold_left (fun a b => fold_left f (h b) a) L a = fold_left f (concat (map h L)) a.
Proof. induction L as [|b L IH]; intros a; [reflexivity|]. cbn [fold_left map concat]. rewrite fold_left_app. apply IH. Qed.
Lemma stem_candidates_spec c g ignore lm rm f mf l : 0 < lm -> uni lm rm (dget f) g -> NoDup (st_R c) -> ~ In [] (st_R c) ->
  NoDup (dkeys (stem_candidates c g ignore mf)) /\ (In l (dkeys (stem_candidates c g ignore mf)) <-> stem_candidate (st_L c) (st_R c) ignore lm rm f mf l).
Proof.
  intros P U NR NE. unfold stem_candidates.
  set (ok := fun x => mem x (st_L c) || mem x ignore).
  set (rows := concat (map (fun r => get_l g r (-1)) (st_R c))).
  assert (EF : fold_left (fun d r => fold_left (fun (d : dict str Z) lc => if mem (fst lc) (st_L c) || mem (fst lc) ignore then d else dset d (fst lc) (dgetd d (fst lc) 0 + snd lc)) (get_l g r (-1)) d) (st_R c) [] = fold_left (addcount ok) rows []).
  { exact (concat_fold (addcount ok) (fun r => get_l g r (-1)) (st_R c) []). }
  rewrite EF. destruct (addcount_get ok rows [] l (NoDup_nil _)) as [ND G].
  split; [unfold dfilter, dkeys; apply (NoDup_filter_map (K:=str)); exact ND|].
  set (d := fold_left (addcount ok) rows []) in *. rewrite <- dget_keys, dget_dfilter by exact ND. rewrite G. unfold stem_candidate.
  (* the right parts of l among R *)
  set (xs := concat (map (fun r => map (fun lc => (r, snd lc)) (filter (fun lc => eqb (fst lc) l) (get_l g r (-1)))) (st_R c))).
  assert (XI : forall r n, In (r, n) xs <-> In r (st_R c) /\ in_limits lm rm l r /\ dget f (l ++ r) = Some n).
  { intros r n. unfold xs. rewrite in_concat. split.
    - intros (y & I & J). apply in_map_iff in I as (r' & <- & I). apply in_map_iff in J as ([l' n'] & E & J). injection E as -> <-. apply filter_In in J as [J K]. cbn [fst snd] in *. apply eqb_eq in K. subst l'.
      apply (uni_cols lm rm _ g r l n' U) in J as (_ & W & F). apply (window_spec lm rm l r P) in W. auto.
    - intros (I & W & F). eexists. split; [apply in_map_iff; exists r; split; [reflexivity|exact I]|]. apply in_map_iff. exists (l, n). split; [reflexivity|]. apply filter_In. split; [|apply eqb_refl].
      apply (uni_cols lm rm _ g r l n U). split; [intros ->; contradiction|]. apply (window_spec lm rm l r P) in W. auto. }
  assert (XN : NoDup xs).
  { unfold xs. apply NoDup_concat_map; [exact NR| |].
    - intros r _. apply (NoDup_map_inv snd). rewrite map_map. cbn [snd]. pose proof (uni_cols_NoDup lm rm _ g r U) as NC. 
      assert (Q : forall L : list (str * Z), NoDup (map fst L) -> (length (filter (fun lc => eqb (fst lc) l) L) <= 1)%nat).
      { induction L as [|[l0 n0] L IH]; intros N0; [cbn; lia|]. inversion N0 as [|? ? NI N1]; subst. cbn [filter fst]. destruct (eqb_spec l0 l) as [->|_]; [|apply IH, N1]. cbn [length].
        replace (filter (fun lc : str * Z => eqb (fst lc) l) L) with (@nil (str * Z)); [cbn; lia|]. symmetry. clear -NI. induction L as [|[l1 n1] L IH]; [reflexivity|]. cbn [filter fst]. destruct (eqb_spec l1 l) as [->|_]; [exfalso; apply NI; left; reflexivity|]. apply IH. intros I. apply NI. right. exact I. }
      specialize (Q _ NC). destruct (filter _ _) as [|a [|b t]]; [constructor|repeat constructor; intros []|cbn [length] in Q; lia].
    - intros r r' z _ _ I J. apply in_map_iff in I as (a & <- & _). apply in_map_iff in J as (b & E & _). injection E as -> _. reflexivity. }
  assert (XS : Zsum (fun lc => if eqb (fst lc) l then snd lc else 0) rows = fold_right Z.add 0 (map snd xs)).
  { unfold rows, xs. clear. induction (st_R c) as [|r R IH]; [reflexivity|]. cbn [map concat]. rewrite Zsum_app, map_app, fold_right_app, IH. generalize (fold_right Z.add 0 (map snd (concat (map (fun r => map (fun lc : str * Z => (r, snd lc)) (filter (fun lc => eqb (fst lc) l) (get_l g r (-1)))) R)))). intros z.
    generalize (get_l g r (-1)). intros L. induction L as [|[l0 n0] L IHL]; [cbn; lia|]. cbn [Zsum filter fst snd]. destruct (eqb l0 l); cbn [map fold_right snd]; rewrite <- IHL; lia. }
  assert (XE : existsb (fun lc => eqb (fst lc) l) rows = true <-> xs <> []).
  { unfold rows, xs. clear. rewrite existsb_exists. split.
    - intros ([l' n] & I & E). cbn [fst] in E. apply eqb_eq in E. subst l'. apply in_concat in I as (L & I & J). apply in_map_iff in I as (r & <- & I). intros X.
      assert (Y : In (r, n) []); [|destruct Y]. rewrite <- X. apply in_concat. eexists. split; [apply in_map_iff; exists r; split; [reflexivity|exact I]|]. apply in_map_iff. exists (l, n). split; [reflexivity|]. apply filter_In. split; [exact J|apply eqb_refl].
    - intros NX. destruct (concat _) as [|[r n] t] eqn:X; [congruence|]. assert (Y : In (r, n) ((r, n) :: t)) by (left; reflexivity). rewrite <- X in Y. apply in_concat in Y as (L & I & J). apply in_map_iff in I as (r' & <- & I). apply in_map_iff in J as (a & _ & J). apply filter_In in J as [J K].
      exists a. split; [|exact K]. apply in_concat. eexists. split; [apply in_map_iff; exists r'; split; [reflexivity|exact I]|exact J]. }
  unfold ok at 1. split.
  - intros H. destruct (mem l (st_L c)) eqn:M1; [exfalso; apply H; reflexivity|]. destruct (mem l ignore) eqn:M2; [exfalso; apply H; reflexivity|]. cbn [orb] in H.
    apply mem_In_false in M1, M2. split; [exact M1|]. split; [exact M2|]. exists xs. split; [exact XN|]. split; [exact XI|].
    destruct (existsb _ rows) eqn:X; [|exfalso; apply H; reflexivity]. split; [apply XE; reflexivity|]. rewrite XS in H. unfold dgetd in H. cbn [dget] in H. rewrite Z.add_0_l in H.
    destruct (Z.geb_spec (fold_right Z.add 0 (map snd xs)) mf); [assumption|exfalso; apply H; reflexivity].
  - intros (M1 & M2 & xs' & XN' & XI' & NX & MF). apply mem_In_false in M1, M2. rewrite M1, M2. cbn [orb].
    assert (PX : Permutation xs xs'). { apply NoDup_Permutation; [exact XN|exact XN'|]. intros [r n]. rewrite XI, XI'. reflexivity. }
    assert (NX' : xs <> []). { intros X. rewrite X in PX. apply Permutation_nil in PX. congruence. }
    apply XE in NX'. rewrite NX', XS. unfold dgetd. cbn [dget]. rewrite Z.add_0_l. rewrite (zfold_perm _ _ (Permutation_map snd PX)).
    destruct (Z.geb_spec (fold_right Z.add 0 (map snd xs')) mf); [discriminate|lia].
Qed.
(** ** batch prediction *)
Lemma at_last_da l x : at_last l = Ok x -> (x = "다"%ch <-> exists a, l = a ++ u "다").
Proof.
  unfold at_last. destruct (rev l) as [|y t] eqn:E; [discriminate|]. intros H. injection H as ->. apply (f_equal (@rev _)) in E. rewrite rev_involutive in E. cbn [rev] in E. split.
  - intros ->. exists (rev t). rewrite E. reflexivity.
  - intros (a & X). rewrite E in X. change (u "다") with ["다"%ch] in X. apply app_inj_tail in X. apply X.
Qed.
Definition picked (c : sconf) (g : lrg) (ms : Q) (mf : Z) (l : str) (p : Q * Z) : Prop :=
  ~ In l (st_L c) /\ ~ In l (st_R c) /\ length l <> 1%nat /\ (forall a, l <> a ++ u "다") /\ stem_predict c (get_r g l (-1)) l ms mf = Ok p /\ (ms <= fst p)%Q /\ mf <= snd p.
Lemma stem_batch_spec c g ms mf cands : (forall l, In l cands -> l <> []) -> (forall l, exists p, stem_predict c (get_r g l (-1)) l ms mf = Ok p) -> NoDup cands ->
  exists ex, stem_batch c g ms mf cands = Ok ex /\ NoDup (dkeys ex) /\ forall l p, dget ex l = Some p <-> In l cands /\ picked c g ms mf l p.
Proof.
  intros NE PO NC. unfold stem_batch.
  assert (G : forall todo d, (forall l, In l todo -> l <> []) -> NoDup todo -> NoDup (dkeys d) -> (forall l, In l todo -> ~ In l (dkeys d)) ->
    exists ex, foldM (stem_batch_step c g ms mf) todo d = Ok ex /\ NoDup (dkeys ex) /\ forall l p, dget ex l = Some p <-> dget d l = Some p \/ In l todo /\ picked c g ms mf l p).
  { induction todo as [|l todo IH]; intros d NT NDT ND DJ; cbn [foldM].
    - exists d. split; [reflexivity|]. split; [exact ND|]. intros l p. split; [auto|]. intros [H|[[] _]]. exact H.
    - assert (S : exists d1, stem_batch_step c g ms mf d l = Ok d1 /\ NoDup (dkeys d1) /\ (forall k p, dget d1 k = Some p <-> dget d k = Some p \/ k = l /\ picked c g ms mf l p)).
      { assert (SK : (forall p, ~ picked c g ms mf l p) -> stem_batch_step c g ms mf d l = Ok d -> exists d1, stem_batch_step c g ms mf d l = Ok d1 /\ NoDup (dkeys d1) /\ (forall k p, dget d1 k = Some p <-> dget d k = Some p \/ k = l /\ picked c g ms mf l p)).
        { intros NP E. exists d. split; [exact E|]. split; [exact ND|]. intros k p. split; [auto|]. intros [H|[_ H]]; [exact H|]. destruct (NP p H). }
        unfold stem_batch_step in *. destruct (mem l (st_L c)) eqn:M1; [apply SK; [|reflexivity]; intros p (X & _); apply mem_In in M1; contradiction|].
        destruct (mem l (st_R c)) eqn:M2; [apply SK; [|reflexivity]; intros p (_ & X & _); apply mem_In in M2; contradiction|].
        destruct (Nat.eqb_spec (length l) 1) as [M3|M3]; [apply SK; [|reflexivity]; intros p (_ & _ & X & _); contradiction|]. cbn [orb] in *.
        assert (AL : exists x, at_last l = Ok x). { unfold at_last. destruct (rev l) as [|x t] eqn:E; [|exists x; reflexivity]. apply (f_equal (@rev _)) in E. rewrite rev_involutive in E. cbn [rev] in E. destruct (NT l (or_introl eq_refl) E). }
        destruct AL as (x & AL). rewrite AL in *. cbn [bind] in *. pose proof (at_last_da l x AL) as DA.
        destruct (N.eqb_spec x "다"%ch) as [X|X]; [apply SK; [|reflexivity]; intros p (_ & _ & _ & Y & _); apply DA in X as (a & X); destruct (Y a X)|]. cbn [orb] in *.
        assert (NM : dmem d l = false). { destruct (dmem d l) eqn:Z; [|reflexivity]. apply dmem_keys in Z. destruct (DJ l (or_introl eq_refl) Z). } rewrite NM in *.
        destruct (PO l) as (p & EP). rewrite EP in *. cbn [bind] in *.
        assert (PK : forall q, picked c g ms mf l q <-> q = p /\ (ms <= fst p)%Q /\ mf <= snd p).
        { intros q. unfold picked. rewrite EP. apply mem_In_false in M1, M2. split.
          - intros (_ & _ & _ & _ & E & B). injection E as <-. auto.
          - intros (-> & B). split; [exact M1|]. split; [exact M2|]. split; [exact M3|]. split; [intros a Y; apply X, DA; exists a; exact Y|]. split; [reflexivity|exact B]. }
        destruct (Qle_bool ms (fst p)) eqn:Q1; cbn [negb orb] in *.
        - destruct (Z.ltb_spec (snd p) mf) as [Q2|Q2]; [apply SK; [|reflexivity]; intros q H; apply PK in H; lia|].
          exists (dset d l p). split; [reflexivity|]. split; [apply dwf_dset, ND|]. intros k q. rewrite dget_dset. destruct (eqb_spec l k) as [<-|NK].
          + rewrite PK. split; [intros E; injection E as <-; right; split; [reflexivity|]; split; [reflexivity|]; split; [apply Qle_bool_iff, Q1|lia]|].
            intros [H|(_ & -> & _)]; [|reflexivity]. exfalso. apply (DJ l (or_introl eq_refl)). apply dget_keys. congruence.
          + split; [auto|]. intros [H|[H _]]; [exact H|congruence].
        - apply SK; [|reflexivity]. intros q H. apply PK in H as (_ & H & _). apply Qle_bool_iff in H. congruence. }
      destruct S as (d1 & E1 & ND1 & G1). rewrite E1. cbn [bind]. inversion NDT as [|? ? NI NDT']; subst.
      destruct (IH d1) as (ex & E2 & ND2 & G2); [intros k I; apply NT; right; exact I|exact NDT'|exact ND1| |].
      { intros k I J. apply dget_keys in J. destruct (dget d1 k) as [v|] eqn:D; [|congruence]. apply G1 in D as [D|[-> _]]; [|contradiction]. apply (DJ k); [right; exact I|]. apply dget_keys. congruence. }
      exists ex. split; [exact E2|]. split; [exact ND2|]. intros k p. rewrite G2, G1. split.
      + intros [[H|[-> H]]|[I H]]; [auto|right; split; [left; reflexivity|exact H]|right; split; [right; exact I|exact H]].
      + intros [H|[[<-|I] H]]; [auto|left; right; auto|right; auto]. }
  destruct (G (sort_len cands) []) as (ex & E & ND & H).
  - intros l I. apply NE. unfold sort_len in I. rewrite sort_In in I. exact I.
  - eapply Permutation_NoDup; [apply Permutation_sym, sort_perm|exact NC].
  - constructor.
  - intros l _ [].
  - exists ex. split; [exact E|]. split; [exact ND|]. intros l p. rewrite H. unfold sort_len. rewrite sort_In. split; [intros [X|X]; [discriminate|exact X]|auto].
Qed.
(** ** post-processing *)
Lemma post_spec c ex l : (is_stem_eomi c ex l || exist_subword ex l = true <-> removed_surface c (fun a => dget ex a <> None) l).
Proof.
  unfold is_stem_eomi, exist_subword, removed_surface. rewrite orb_true_iff, !existsb_exists.
  assert (D : forall a, dmem ex a = true <-> dget ex a <> None) by (intros a; rewrite dmem_keys, dget_keys; reflexivity).
  split; (intros [H|H]; [left|right]).
  - destruct H as (i & I & H). apply in_seq in I. apply andb_true_iff in H as [A H]. apply existsb_exists in H as (j & J & B). apply in_seq in J. apply mem_In in B.
    exists (firstn i l), (slice i j l), (skipn j l). split; [|split; [|split; [|split; [|exact B]]]].
    + unfold slice. replace (skipn j l) with (skipn (j - i) (skipn i l)) by (rewrite skipn_skipn; f_equal; lia). rewrite firstn_skipn. symmetry. apply firstn_skipn.
    + intros X; apply (f_equal (@length _)) in X; rewrite firstn_length in X; cbn [length] in X; lia.
    + intros X; apply (f_equal (@length _)) in X; rewrite slice_length in X by lia; cbn [length] in X; lia.
    + apply orb_true_iff in A as [A|A]; [left; apply mem_In, A|right; apply D, A].
  - destruct H as (i & I & H). apply in_seq in I. exists (firstn i l), (skipn i l). split; [symmetry; apply firstn_skipn|]. split; [rewrite firstn_length; lia|].
    split; [intros X; apply (f_equal (@length _)) in X; rewrite skipn_length in X; cbn [length] in X; lia|apply D, H].
  - destruct H as (a & b & d & -> & NA & NB & A & B). exists (length a). split; [apply in_seq; rewrite !app_length; destruct a; [congruence|]; destruct b; [congruence|]; cbn [length]; lia|].
    rewrite firstn_app, firstn_all, Nat.sub_diag. cbn [firstn]. rewrite app_nil_r. apply andb_true_iff. split.
    + apply orb_true_iff. destruct A as [A|A]; [left; apply mem_In, A|right; apply D, A].
    + apply existsb_exists. exists (length a + length b)%nat. split; [apply in_seq; rewrite !app_length; destruct b; [congruence|]; cbn [length]; lia|]. apply mem_In.
      unfold slice. rewrite skipn_app, skipn_all, Nat.sub_diag. cbn [skipn app]. replace (length a + length b - length a)%nat with (length b) by lia. rewrite firstn_app, firstn_all, Nat.sub_diag. cbn [firstn]. rewrite app_nil_r. exact B.
  - destruct H as (a & b & -> & LA & NB & A). exists (length a). split; [apply in_seq; rewrite app_length; destruct b; [congruence|]; cbn [length]; lia|].
    rewrite firstn_app, firstn_all, Nat.sub_diag. cbn [firstn]. rewrite app_nil_r. apply D, A.
Qed.
Lemma stem_post_spec c ex : NoDup (dkeys ex) ->
  NoDup (dkeys (fst (stem_post c ex))) /\
  (forall l p, dget (fst (stem_post c ex)) l = Some p <-> dget ex l = Some p /\ ~ removed_surface c (fun a => dget ex a <> None) l) /\
  (forall l, In l (snd (stem_post c ex)) <-> dget ex l <> None /\ removed_surface c (fun a => dget ex a <> None) l).
Proof.
  intros ND. unfold stem_post. cbv zeta. cbn [fst snd]. set (rm := filter _ _).
  assert (R : forall l, In l rm <-> dget ex l <> None /\ removed_surface c (fun a => dget ex a <> None) l).
  { intros l. unfold rm. rewrite filter_In, sort_In, post_spec. split; (intros [A B]; split; [apply dget_keys, A|exact B]). }
  split; [unfold dfilter, dkeys; apply (NoDup_filter_map (K:=str)); exact ND|]. split; [|exact R].
  intros l p. rewrite dget_dfilter_key. destruct (mem l rm) eqn:M; cbn [negb].
  - apply mem_In, R in M. split; [discriminate|]. intros [_ H]. destruct (H (proj2 M)).
  - apply mem_In_false in M. split; [|intros [H _]; exact H]. intros H. split; [exact H|]. intros X. apply M, R. split; [congruence|exact X].
Qed.
