(** * Proofs about NewsNounExtractor: the result of extract *)
From Coq Require Import QArith Permutation Lqa.
From Verif Require Import PyBase PyDict CountLemmas QLemmas PyText HangleModel HangleProofs UtilsModel UtilsSpec UtilsProofs UtilsProofs2 NounModel NounSpec NounProofs NounProofs2 VectorizerSpec VectorizerProofs3 JosaProofs NounV1Model NounV1Proofs NounV1Proofs3 NewsModel NewsSpec NewsProofs NewsProofs2 NewsProofs3 NewsProofs4.
Open Scope Z_scope.

(** ** the descriptions depend on nothing but membership of shorter strings *)
Lemma how_many_ext {A} (P P' : A -> Prop) L n : (forall x, P x <-> P' x) -> how_many P L n -> how_many P' L n.
Proof. intros H HM. induction HM; constructor; try assumption; [apply H; assumption|intros X; apply H in X; contradiction]. Qed.
Lemma more_than_ext q (P P' : str -> Prop) L : (forall x, P x <-> P' x) -> more_than q P L -> more_than q P' L.
Proof. intros H (n & HM & X). exists n. split; [apply (how_many_ext P P'); assumption|exact X]. Qed.
Definition agree (l : str) (K K' : str -> Prop) : Prop := forall x, (length x < length l)%nat \/ x = l -> (K x <-> K' x).
Lemma agree_sym l K K' : agree l K K' -> agree l K' K.
Proof. intros H x D. symmetry. apply H, D. Qed.
Section Ext.
  Variables (coef : dict str Q) (lm rm : Z) (josa verbs : str -> Prop) (W : list str) (l : str) (K K' : str -> Prop).
  Hypothesis H : agree l K K'.
  Lemma proper (a b : str) : l = a ++ b -> b <> [] -> (K a <-> K' a).
  Proof. clear - H. intros -> NE. apply H. left. rewrite app_length. destruct b; [congruence|cbn [length]; lia]. Qed.
  Lemma nj_begin_ext : noun_josa_begin coef lm rm josa W K l -> noun_josa_begin coef lm rm josa W K' l.
  Proof.
    assert (S : forall a, ((exists b, l = a ++ b /\ b <> []) /\ (2 <= length a)%nat /\ (K a \/ (4 # 10 < score coef lm rm W a)%Q)) <-> ((exists b, l = a ++ b /\ b <> []) /\ (2 <= length a)%nat /\ (K' a \/ (4 # 10 < score coef lm rm W a)%Q))).
    { intros a. split; intros ((b & E & NE) & L & O); (split; [exists b; auto|split; [exact L|]]); destruct O as [O|O]; [left|right; exact O|left|right; exact O]; apply (proper a b E NE), O. }
    unfold noun_josa_begin. cbv zeta. intros (a & SH & MX & F & D & M). exists a. split; [apply S, SH|]. split; [intros a' X; apply MX, S, X|]. split; [exact F|]. split; [exact D|].
    eapply more_than_ext; [|exact M]. intros r. split; intros (a' & j & X & Y); exists a', j; (split; [apply S, X|exact Y]).
  Qed.
  Lemma noun_josa_ext : noun_josa coef K l -> noun_josa coef K' l.
  Proof. clear - H. intros (a & b & E & L & X & O). exists a, b. split; [exact E|]. split; [exact L|]. split; [|exact O]. apply H; [|exact X]. destruct b as [|y b]; [right; rewrite E, app_nil_r; reflexivity|left; rewrite E, app_length; cbn [length]; lia]. Qed.
  Lemma noun_verb_ext : noun_verb verbs K l -> noun_verb verbs K' l.
  Proof. clear - H. intros (a & b & E & L & NE & X & V). exists a, b. split; [exact E|]. split; [exact L|]. split; [exact NE|]. split; [apply (proper a b E NE), X|exact V]. Qed.
  Lemma bad_suffix_ext : bad_suffix lm rm verbs W K l -> bad_suffix lm rm verbs W K' l.
  Proof.
    clear coef josa. unfold bad_suffix. intros [X|[X|[X|[X|[X|[X|(a & E & O)]]]]]]; try tauto. do 6 right. exists a. split; [exact E|]. destruct O as [O|O]; [left; exact O|right]. apply (proper a (u "으로") E); [discriminate|exact O].
  Qed.
  Lemma compound_ext : compound K l -> compound K' l.
  Proof.
    clear - H. intros [L [(a & b & E & A & NE & KA & KB)|(a & b & d & E & A & B & D & KA & KB & KD)]]; (split; [exact L|]).
    - left. exists a, b. split; [exact E|]. split; [exact A|]. split; [exact NE|]. split; [apply (proper a b E NE), KA|]. apply H; [|exact KB]. left. rewrite E, app_length. lia.
    - right. exists a, b, d. split; [exact E|]. split; [exact A|]. split; [exact B|]. split; [exact D|]. split; [|split]; (apply H; [left; rewrite E, !app_length; lia|assumption]).
  Qed.
End Ext.

(** the descriptions have one solution *)
Lemma kept_determined coef lm rm josa verbs W order S N P P' : kept_nouns coef lm rm josa verbs W order S N P -> kept_nouns coef lm rm josa verbs W order S N P' -> forall l, P l <-> P' l.
Proof.
  intros H H' l. remember (length l) as n eqn:E. revert l E. induction n as [n IH] using lt_wf_ind. intros l ->.
  assert (AG : agree l (fun x => (P x /\ before order x l) \/ N x) (fun x => (P' x /\ before order x l) \/ N x)).
  { intros x [L| ->]; [rewrite (IH _ L x eq_refl); tauto|]. pose proof (before_irrefl order l). tauto. }
  rewrite (H l), (H' l). assert (B : bad_suffix lm rm verbs W (fun x => (P x /\ before order x l) \/ N x) l <-> bad_suffix lm rm verbs W (fun x => (P' x /\ before order x l) \/ N x) l).
  { split; [eapply bad_suffix_ext; exact AG|eapply bad_suffix_ext; apply agree_sym; exact AG]. }
  tauto.
Qed.
Lemma added_determined coef lm rm josa verbs W mf S N P P' A A' : (forall l, P l <-> P' l) ->
  added_compounds coef lm rm josa verbs W mf S N P A -> added_compounds coef lm rm josa verbs W mf S N P' A' -> forall l, A l <-> A' l.
Proof.
  intros HP H H' l. remember (length l) as n eqn:E. revert l E. induction n as [n IH] using lt_wf_ind. intros l ->.
  assert (AG : agree l (fun x => N x \/ (A x /\ before (lefts lm rm W) x l)) (fun x => N x \/ (A' x /\ before (lefts lm rm W) x l))).
  { intros x [L| ->]; [rewrite (IH _ L x eq_refl); tauto|]. pose proof (before_irrefl (lefts lm rm W) l). tauto. }
  specialize (H l). specialize (H' l). cbv zeta in H, H'. rewrite H, H'. clear H H'.
  set (N1 := fun x => N x \/ (A x /\ before (lefts lm rm W) x l)) in *. set (N2 := fun x => N x \/ (A' x /\ before (lefts lm rm W) x l)) in *.
  assert (AS : agree l (fun x => S x \/ N1 x) (fun x => S x \/ N2 x)) by (intros x D; rewrite (AG x D); reflexivity).
  assert (AP : agree l (fun x => P x \/ N1 x) (fun x => P' x \/ N2 x)) by (intros x D; rewrite (AG x D), (HP x); reflexivity).
  rewrite (HP l).
  assert (E1 : noun_josa_begin coef lm rm josa W N1 l <-> noun_josa_begin coef lm rm josa W N2 l) by (split; [eapply nj_begin_ext; exact AG|eapply nj_begin_ext; apply agree_sym; exact AG]).
  assert (E2 : noun_josa coef (fun x => S x \/ N1 x) l <-> noun_josa coef (fun x => S x \/ N2 x) l) by (split; [eapply noun_josa_ext; exact AS|eapply noun_josa_ext; apply agree_sym; exact AS]).
  assert (E3 : noun_verb verbs (fun x => P x \/ N1 x) l <-> noun_verb verbs (fun x => P' x \/ N2 x) l) by (split; [eapply noun_verb_ext; exact AP|eapply noun_verb_ext; apply agree_sym; exact AP]).
  assert (E4 : bad_suffix lm rm verbs W (fun x => P x \/ N1 x) l <-> bad_suffix lm rm verbs W (fun x => P' x \/ N2 x) l) by (split; [eapply bad_suffix_ext; exact AP|eapply bad_suffix_ext; apply agree_sym; exact AP]).
  assert (E5 : compound (fun x => S x \/ N1 x) l <-> compound (fun x => S x \/ N2 x) l) by (split; [eapply compound_ext; exact AS|eapply compound_ext; apply agree_sym; exact AS]).
  unfold N1, N2 in E1, E2, E3, E4, E5. cbv beta in E1, E2, E3, E4, E5. rewrite <- E2, <- E3, <- E4, <- E5. unfold N1, N2. rewrite <- E1. reflexivity.
Qed.

Lemma fold_keys {V B} (f : dict str V -> str -> dict str V) (g : dict str V -> str * B -> dict str V) (L : list (str * B)) : (forall d p, In p L -> g d p = f d (fst p)) -> forall d, fold_left g L d = fold_left f (map fst L) d.
Proof. induction L as [|p L IH]; intros H d; [reflexivity|]. cbn [fold_left map]. rewrite (H d p (or_introl eq_refl)). apply IH. intros; apply H; right; assumption. Qed.

Section Result.
  Variables (c : nwconf) (st : nwstate) (W : list str).
  Let coef := w_coef c.
  Let lm := w_lm c.
  Let rm := w_rm c.
  Let josa : str -> Prop := fun x => In x (w_josa c).
  Let verbs : str -> Prop := fun x => In x (w_verbs c).
  Hypothesis T : trained lm rm W st.
  Notation fr := (freq lm rm W).
  Notation sc := (score coef lm rm W).
  Notation predict := (news_predict c st).
  Variables (ms : Q) (mf : Z) (cands : list str) (mfp : Q).
  Let order := match cands with [] => lefts lm rm W | _ => cands end.
  Let ns := noun_scores ms mfp (scored_candidates c st mf cands).
  Let good := good_score coef lm rm W ms mf cands mfp.
  Hypothesis POS : forall l, good l -> fr l <> 0.
  Variables (nd : dict str nval) (N : str -> Prop).
  Hypothesis HN : forall x, dmem nd x = true <-> N x.
  Let HS : forall x, dmem ns x = true <-> good x := ns_In c st W T ms mf cands mfp.
  Let njb := noun_josa_begin coef lm rm josa W.
  Let K : str -> Prop := fun x => good x \/ N x.

  Definition nj (d : dict str nval) (l : str) : bool := match is_NJsubJ c st d l with Ok b => b | Err _ => false end.
  Lemma nj_ok d M l : (forall x, dmem d x = true <-> M x) -> fr l <> 0 -> is_NJsubJ c st d l = Ok (nj d l) /\ (nj d l = true <-> njb M l).
  Proof. intros HM F. destruct (is_NJsubJ_spec c st W T d M HM l F) as (b & E & H). unfold nj. rewrite E. auto. Qed.
  Definition nsub (l : str) : list str :=
    filter (fun l0 => negb (Qle_bool (qdiv (l_frequency st l0) (l_frequency st l)) (7 # 10))) (filter (fun l0 => negb (Qle_bool (ns_score (predict l0)) (7 # 10)))
                   (map (fun e => firstn e l) (filter (fun e => mem (skipn e l) (w_josa c)) (seq 2 (length l - 2))))).
  Lemma find_ok l : fr l <> 0 -> find_NsubJ c st l = Ok (nsub l).
  Proof.
    intros F. unfold find_NsubJ, nsub. destruct (filter _ (map _ _)) as [|x0 xs]; [reflexivity|]. pose proof T as (_ & TF & _). rewrite (TF l). destruct (Z.eqb_spec (fr l) 0); [contradiction|]. reflexivity.
  Qed.
  Lemma nsub_In l x : In x (nsub l) <-> exists j, l = x ++ j /\ (2 <= length x)%nat /\ j <> [] /\ josa j /\ (7 # 10 < sc x)%Q /\ (7 # 10 < zq (fr x) / zq (fr l))%Q.
  Proof.
    unfold nsub. rewrite !filter_In, in_map_iff, (score_gt c st W T), gtb_iff. pose proof T as (_ & TF & _). rewrite !TF. split.
    - intros [[(e & <- & I) S] R]. apply filter_In in I as [I J]. apply in_seq in I. apply mem_In in J. exists (skipn e l). rewrite firstn_skipn, firstn_length. split; [reflexivity|]. split; [lia|]. split; [|auto].
      intros X. apply (f_equal (@length _)) in X. rewrite skipn_length in X. cbn [length] in X. lia.
    - intros (j & -> & L & NE & J & S & R). split; [split; [|exact S]|exact R]. exists (length x). split; [apply firstn_pre|]. apply filter_In. rewrite skipn_pre. split; [|apply mem_In, J]. apply in_seq. rewrite app_length. destruct j; [congruence|cbn [length]; lia].
  Qed.
  Lemma keys_good l : In l (dkeys ns) <-> good l.
  Proof. rewrite <- HS. symmetry. apply dmem_In. Qed.

  Lemma post_ok : exists pp P, postprocessing c st ns nd = Ok pp /\ NoDup (dkeys pp) /\ (forall l, dmem pp l = true <-> P l) /\ (forall l s, dget pp l = Some s -> s = predict l) /\ kept_nouns coef lm rm josa verbs W order good N P.
  Proof.
    unfold postprocessing.
    set (njsubjs := filter (nj nd) (dkeys ns)). 
    assert (E1 : mapM (fun l => do b <- is_NJsubJ c st nd l; Ok (l, b)) (dkeys ns) = Ok (map (fun l => (l, nj nd l)) (dkeys ns))).
    { apply mapM_pure. intros l I. apply keys_good in I. destruct (nj_ok nd N l HN (POS l I)) as [-> _]. reflexivity. }
    rewrite E1. cbn [bind]. cbv zeta.
    assert (E2 : map fst (filter snd (map (fun l => (l, nj nd l)) (dkeys ns))) = njsubjs).
    { unfold njsubjs. clear. induction (dkeys ns) as [|x L IH]; [reflexivity|]. cbn [map filter snd]. destruct (nj nd x); cbn [map fst]; rewrite IH; reflexivity. }
    rewrite E2.
    assert (NJ : forall l, good l -> (mem l njsubjs = true <-> njb N l)).
    { intros l G. rewrite mem_In. unfold njsubjs. rewrite filter_In, keys_good. destruct (nj_ok nd N l HN (POS l G)) as [_ ->]. tauto. }
    assert (E3 : mapM (fun l => do s <- find_NsubJ c st l; Ok (if mem l njsubjs then [] else s)) (dkeys ns) = Ok (map (fun l => if mem l njsubjs then [] else nsub l) (dkeys ns))).
    { apply mapM_pure. intros l I. apply keys_good in I. rewrite (find_ok l (POS l I)). reflexivity. }
    rewrite E3. cbn [bind]. set (nsubs := concat (map (fun l => if mem l njsubjs then [] else nsub l) (dkeys ns))).
    assert (NB : forall l0, mem l0 nsubs = true <-> noun_begin coef lm rm josa W good N l0).
    { intros l0. rewrite mem_In. unfold nsubs, noun_begin. rewrite in_concat. split.
      - intros (L & I & X). apply in_map_iff in I as (l & <- & I). apply keys_good in I. destruct (mem l njsubjs) eqn:M; [destruct X|]. apply nsub_In in X as (j & -> & X). exists j. split; [exact I|]. split; [|exact X]. intros Y. apply (NJ _ I) in Y. congruence.
      - intros (j & G & NJ' & X). exists (nsub (l0 ++ j)). split; [|apply nsub_In; exists j; split; [reflexivity|exact X]]. apply in_map_iff. exists (l0 ++ j). split; [|apply keys_good, G]. destruct (mem (l0 ++ j) njsubjs) eqn:M; [|reflexivity]. exfalso. apply NJ', (NJ _ G), M. }
    set (nvs := filter (fun l => is_NVsubE st ns nd l && is_NWsub st ns nd l && negb (is_compound ns nd l)) (dkeys ns)).
    assert (NV : forall l, good l -> (mem l nvs = true <-> noun_verb_begin lm rm W good N l /\ rare_extension lm rm W K l /\ ~ compound K l)).
    { intros l G. rewrite mem_In. unfold nvs. assert (L2 : (2 <= length l)%nat) by apply G. rewrite filter_In, keys_good, !andb_true_iff, negb_true_iff, (is_NVsubE_spec c st W T nd N HN ns good HS l L2), (is_NWsub_spec c st W T nd N HN ns good HS l L2), <- not_true_iff_false, (is_compound_spec c nd N HN ns good HS l). fold K. tauto. }
    set (cond := fun (pp : dict str nscore) l => negb (mem l njsubjs || mem l nsubs || mem l nvs) && (unijosa_filter c st ns nd l || is_compound ns nd l) && suffix_filter c st pp nd l && dang_hada_filter st ns nd l).
    assert (NSV : forall l s, dget ns l = Some s -> s = predict l) by (destruct (ns_struct c st W T ms mf cands mfp) as (p & q & _ & _ & _ & V); exact V).
    pose proof (ns_NoDup c st W T ms mf cands mfp) as ND. fold ns in ND.
    set (f := fun (pp : dict str nscore) l => if cond pp l then dset pp l (predict l) else pp).
    match goal with |- context [fold_left ?g ns []] => assert (EF : fold_left g ns [] = fold_left f (dkeys ns) []) end.
    { unfold dkeys. apply fold_keys. intros d [l s] I. cbn [fst snd]. apply (dget_In_iff _ _ _ ND) in I. apply NSV in I. subst s. unfold f, cond.
      destruct (mem l njsubjs || mem l nsubs || mem l nvs); cbn [negb andb]; [reflexivity|]. destruct (unijosa_filter c st ns nd l), (is_compound ns nd l); cbn [negb andb orb]; try reflexivity; destruct (suffix_filter c st d nd l); cbn [negb andb]; try reflexivity; destruct (dang_hada_filter st ns nd l); reflexivity. }
    rewrite EF. clear EF.
    set (condP := fun (P : str -> Prop) l => ~ njb N l /\ ~ noun_begin coef lm rm josa W good N l /\ ~ (noun_verb_begin lm rm W good N l /\ rare_extension lm rm W K l /\ ~ compound K l) /\
      (typical coef lm rm W K l \/ compound K l) /\ ~ bad_suffix lm rm verbs W (fun x => P x \/ N x) l /\ not_hada lm rm W K l).
    assert (HC : forall d P l, In l (dkeys ns) -> (forall y, dmem d y = true <-> P y) -> (cond d l = true <-> condP P l)).
    { intros d P l I HP. pose proof I as IK. apply keys_good in I. assert (NE : l <> []) by (destruct I as (_ & _ & _ & _ & _ & L2); intros ->; cbn in L2; lia).
      assert (G : dget ns l = Some (predict l)) by (apply dget_keys in IK; destruct (dget ns l) as [s|] eqn:D; [apply NSV in D; congruence|congruence]).
      unfold cond, condP. rewrite !andb_true_iff, negb_true_iff, !orb_false_iff, orb_true_iff, <- !not_true_iff_false, (NJ l I), (NB l), (NV l I).
      rewrite (unijosa_spec c st W T nd N HN ns good HS l _ G (predict_spec c st W T l)), (is_compound_spec c nd N HN ns good HS l), (suffix_spec c st W T nd N HN d P HP l NE), (dang_spec c st W T nd N HN ns good HS l NE). fold K. tauto. }
    destruct (grow cond predict condP (dkeys ns) [] ND HC) as (P & GP & GA). fold f in GP.
    assert (WF : forall L d, NoDup (dkeys d) -> (forall l s, dget d l = Some s -> s = predict l) -> NoDup (dkeys (fold_left f L d)) /\ (forall l s, dget (fold_left f L d) l = Some s -> s = predict l)).
    { clear. intros L. induction L as [|l L IH]; intros d N1 N2; [auto|]. cbn [fold_left]. apply IH; unfold f at 1; destruct (cond d l); try assumption; [apply (dwf_dset d), N1|]. intros l' s. rewrite dget_dset. destruct (eqb_spec l l') as [->|_]; [congruence|apply N2]. }
    destruct (WF (dkeys ns) [] ltac:(constructor) ltac:(discriminate)) as [W1 W2].
    exists (fold_left f (dkeys ns) []), P. split; [reflexivity|]. split; [exact W1|]. split; [intros l; rewrite GP; unfold dmem; cbn [dget]; split; [intros [X|X]; [discriminate|exact X]|auto]|]. split; [exact W2|].
    intros l. rewrite GA, keys_good. unfold condP. fold K njb.
    assert (B : good l -> (bad_suffix lm rm verbs W (fun x => (dmem (@nil (str * nscore)) x = true \/ P x /\ before (dkeys ns) x l) \/ N x) l <-> bad_suffix lm rm verbs W (fun x => (P x /\ before order x l) \/ N x) l)).
    { intros G. assert (AG : agree l (fun x => (dmem (@nil (str * nscore)) x = true \/ P x /\ before (dkeys ns) x l) \/ N x) (fun x => (P x /\ before order x l) \/ N x)).
      { intros x _. assert (D : dmem (@nil (str * nscore)) x = true <-> False) by (split; [discriminate|tauto]). rewrite D. assert (X : (P x /\ before (dkeys ns) x l) <-> (P x /\ before order x l)); [|tauto].
        split; intros [PX B]; (split; [exact PX|]); apply (ns_before c st W T ms mf cands mfp x l); try assumption; apply keys_good, (proj1 (GA x) PX). }
      split; [eapply bad_suffix_ext; exact AG|eapply bad_suffix_ext; apply agree_sym; exact AG]. }
    split.
    - intros (G & H1 & H2 & H3 & H4 & H5 & H6). rewrite (B G) in H5. tauto.
    - intros (G & H1 & H2 & H3 & H4 & H5 & H6). rewrite <- (B G) in H5. tauto.
  Qed.

  Lemma post_analysis_ok pp P : (forall l, dmem pp l = true <-> P l) -> NoDup (dkeys nd) ->
    exists nd' A, post_analysis c st mf ns pp nd = Ok nd' /\ NoDup (dkeys nd') /\ (forall l, dmem nd' l = true <-> N l \/ A l) /\ added_compounds coef lm rm josa verbs W mf good N P A.
  Proof.
    intros HP WFN.
    set (cond := fun (d : dict str nval) l => negb (dmem pp l) && negb (nj d l) && negb (is_NJ c ns d l) && negb (is_NV c pp d l) && suffix_filter c st pp d l && is_compound ns d l).
    set (f := fun (d : dict str nval) l => if cond d l then dset d l (Count (l_frequency st l)) else d).
    assert (NDC : NoDup (dkeys (eojeol_candidates st mf))) by (destruct (candidates_keys c st W T mf) as (p & ->); apply NoDup_filter, fs_NoDup).
    assert (FL : forall l n, In (l, n) (eojeol_candidates st mf) -> n = l_frequency st l /\ fr l <> 0).
    { intros l n I. assert (S : stands_alone lm rm W mf l) by (apply (candidates_In c st W T mf); apply in_map_iff; exists (l, n); auto). split; [|destruct S; lia].
      unfold eojeol_candidates, dfilter in I. apply filter_In in I as [I _]. assert (NDL : NoDup (dkeys (t_lc st))) by (pose proof T as (_ & _ & EQT & _); rewrite EQT; apply fs_NoDup). apply (dget_In_iff _ _ _ NDL) in I. unfold l_frequency, dgetd. rewrite I. reflexivity. }
    assert (E : post_analysis c st mf ns pp nd = Ok (fold_left f (dkeys (eojeol_candidates st mf)) nd)).
    { unfold post_analysis. rewrite (foldM_pure _ (fun d lc => f d (fst lc))); [f_equal; unfold dkeys; apply fold_keys; reflexivity|]. intros d [l n] I. destruct (FL l n I) as [-> F]. cbv zeta. cbn [fst snd]. unfold f, cond. destruct (dmem pp l); cbn [negb andb]; [reflexivity|].
      destruct (nj_ok d (fun x => dmem d x = true) l (fun x => iff_refl _) F) as [-> _]. cbn [bind]. f_equal. destruct (nj d l); cbn [negb andb]; [reflexivity|]. destruct (is_NJ c ns d l); cbn [negb andb]; [reflexivity|]. destruct (is_NV c pp d l); cbn [negb andb]; reflexivity. }
    rewrite E. clear E.
    set (condP := fun (M : str -> Prop) l => ~ P l /\ ~ njb M l /\ ~ noun_josa coef (fun x => good x \/ M x) l /\ ~ noun_verb verbs (fun x => P x \/ M x) l /\ ~ bad_suffix lm rm verbs W (fun x => P x \/ M x) l /\ compound (fun x => good x \/ M x) l).
    assert (HC : forall d M l, In l (dkeys (eojeol_candidates st mf)) -> (forall y, dmem d y = true <-> M y) -> (cond d l = true <-> condP M l)).
    { intros d M l I HM. apply (candidates_In c st W T mf) in I. change (stands_alone lm rm W mf l) in I. assert (F : fr l <> 0) by (destruct I; lia). assert (NE : l <> []) by (intros ->; apply F; unfold freq, after, len; rewrite map_length; replace (filter _ W) with (@nil str); [reflexivity|]; clear; induction W as [|w W' IH]; [reflexivity|]; cbn [filter]; rewrite andb_false_r; exact IH).
      destruct (nj_ok d M l HM F) as [_ NJ]. unfold cond, condP. rewrite !andb_true_iff, !negb_true_iff, <- !not_true_iff_false, (HP l), NJ, (is_NJ_spec c d M HM ns good HS l), (is_NV_spec c d M HM pp P HP l), (suffix_spec c st W T d M HM pp P HP l NE), (is_compound_spec c d M HM ns good HS l). fold coef lm rm. tauto. }
    destruct (grow cond (fun l => Count (l_frequency st l)) condP (dkeys (eojeol_candidates st mf)) nd NDC HC) as (A & GP & GA). fold f in GP.
    exists (fold_left f (dkeys (eojeol_candidates st mf)) nd), A. split; [reflexivity|]. split; [|split].
    - clear - WFN. revert WFN. generalize nd as d. induction (dkeys (eojeol_candidates st mf)) as [|l L IH]; intros d H; [exact H|]. cbn [fold_left]. apply IH. unfold f. destruct (cond d l); [apply (dwf_dset d), H|exact H].
    - intros l. rewrite GP, HN. reflexivity.
    - intros l. cbv zeta. rewrite GA, (candidates_In c st W T mf).
      set (M1 := fun y => dmem nd y = true \/ A y /\ before (dkeys (eojeol_candidates st mf)) y l). set (M2 := fun x => N x \/ A x /\ before (lefts lm rm W) x l).
      assert (EQ : stands_alone lm rm W mf l -> (condP M1 l <-> condP M2 l)).
      { intros SA. assert (AG : agree l M1 M2).
        { intros x _. unfold M1, M2. rewrite HN. assert (X : A x /\ before (dkeys (eojeol_candidates st mf)) x l <-> A x /\ before (lefts lm rm W) x l); [|tauto].
          destruct (candidates_keys c st W T mf) as (p & EK). assert (PK : forall z, stands_alone lm rm W mf z -> p z = true /\ In z (lefts lm rm W)) by (intros z SZ; apply (candidates_In c st W T mf) in SZ; rewrite EK in SZ; apply filter_In in SZ; tauto).
          destruct (PK l SA) as [PL IL]. rewrite EK. split; intros [AX B]; (split; [exact AX|]); assert (SX : stands_alone lm rm W mf x) by (apply (candidates_In c st W T mf), (proj1 (GA x) AX)); destruct (PK x SX) as [PX _]; apply (before_filter p (lefts lm rm W) x l PX PL IL); exact B. }
        assert (AS : agree l (fun x => good x \/ M1 x) (fun x => good x \/ M2 x)) by (intros x D; rewrite (AG x D); reflexivity).
        assert (AP : agree l (fun x => P x \/ M1 x) (fun x => P x \/ M2 x)) by (intros x D; rewrite (AG x D); reflexivity).
        unfold condP.
        assert (E1 : njb M1 l <-> njb M2 l) by (split; [eapply nj_begin_ext; exact AG|eapply nj_begin_ext; apply agree_sym; exact AG]).
        assert (E2 : noun_josa coef (fun x => good x \/ M1 x) l <-> noun_josa coef (fun x => good x \/ M2 x) l) by (split; [eapply noun_josa_ext; exact AS|eapply noun_josa_ext; apply agree_sym; exact AS]).
        assert (E3 : noun_verb verbs (fun x => P x \/ M1 x) l <-> noun_verb verbs (fun x => P x \/ M2 x) l) by (split; [eapply noun_verb_ext; exact AP|eapply noun_verb_ext; apply agree_sym; exact AP]).
        assert (E4 : bad_suffix lm rm verbs W (fun x => P x \/ M1 x) l <-> bad_suffix lm rm verbs W (fun x => P x \/ M2 x) l) by (split; [eapply bad_suffix_ext; exact AP|eapply bad_suffix_ext; apply agree_sym; exact AP]).
        assert (E5 : compound (fun x => good x \/ M1 x) l <-> compound (fun x => good x \/ M2 x) l) by (split; [eapply compound_ext; exact AS|eapply compound_ext; apply agree_sym; exact AS]).
        rewrite E1, E2, E3, E4, E5. reflexivity. }
      split; intros [SA X]; (split; [exact SA|]); apply (EQ SA); exact X.
  Qed.
End Result.

Lemma dmem_map_snd {V B} (f : str * V -> B) (d : dict str V) x : dget (map (fun kv => (fst kv, f kv)) d) x = match dget d x with Some v => Some (f (x, v)) | None => None end.
Proof. induction d as [|[k v] d IH]; [reflexivity|]. cbn [map dget fst]. destruct (eqb_spec k x) as [->|_]; [reflexivity|exact IH]. Qed.
Lemma final_fold (pp : dict str nscore) : NoDup (dkeys pp) -> forall (nd : dict str nval) x, dget (fold_left (fun nd (ls : str * nscore) => dset nd (fst ls) (Scored (snd ls))) pp nd) x = match dget pp x with Some s => Some (Scored s) | None => dget nd x end.
Proof.
  induction pp as [|[l s] pp IH]; intros H nd x; [reflexivity|]. inversion H as [|? ? NI H']; subst. cbn [fold_left fst snd]. rewrite (IH H'). cbn [dget].
  destruct (eqb_spec l x) as [->|n].
  - assert (D : dget pp x = None) by (destruct (dget pp x) eqn:D; [exfalso; apply NI; apply dget_keys; congruence|reflexivity]). rewrite D, dget_dset, eqb_refl. reflexivity.
  - destruct (dget pp x); [reflexivity|]. rewrite dget_dset. destruct (eqb_spec l x); [contradiction|reflexivity].
Qed.

Lemma extract_spec c sents st ms mf cands mfp nd : news_train c sents = Ok st -> NoDup (dkeys nd) -> 0 < mf \/ cands = [] \/ (0 <= ms)%Q \/ (0 <= mfp)%Q ->
  let W := words sents in let coef := w_coef c in let lm := w_lm c in let rm := w_rm c in
  let josa := fun x => In x (w_josa c) in let verbs := fun x => In x (w_verbs c) in
  let S := good_score coef lm rm W ms mf cands mfp in
  let N := fun l => In l (dkeys nd) \/ split_verb coef lm rm verbs W mf l in
  exists D P A, news_extract c st ms mf cands mfp nd = Ok D /\ NoDup (dkeys D) /\
    kept_nouns coef lm rm josa verbs W (match cands with [] => lefts lm rm W | _ => cands end) S N P /\ added_compounds coef lm rm josa verbs W mf S N P A /\
    (forall l, In l (dkeys D) <-> N l \/ P l \/ A l) /\ forall l v, dget D l = Some v -> v = Scored (news_predict c st l).
Proof.
  intros TR WFN HP W coef lm rm josa verbs S N. pose proof (news_trained c sents st TR) as T. fold W lm rm in T.
  assert (POS : forall l, S l -> freq lm rm W l <> 0).
  { intros l (I & M & _ & SC & FR & _). destruct HP as [H|[H|[H|H]]].
    - lia.
    - rewrite H in I. apply lefts_In in I. lia.
    - intros E. unfold score in SC. assert (A : after lm rm W l = []) by (unfold freq, len in E; destruct (after lm rm W l); [reflexivity|cbn [length] in E; lia]). unfold features in SC. rewrite A in SC. cbn [filter map mean] in SC. lra.
    - intros E. rewrite E in FR. unfold zq in FR. change (inject_Z 0) with 0%Q in FR. lra. }
  assert (HN : forall x, dmem (pre_analysis c st mf nd) x = true <-> N x).
  { intros x. rewrite (pre_analysis_spec c st W T mf nd x), dmem_In. reflexivity. }
  pose proof (pre_analysis_wf c st mf nd WFN) as WF1.
  unfold news_extract. destruct (post_ok c st W T ms mf cands mfp POS (pre_analysis c st mf nd) N HN) as (pp & P & EP & NDP & HPP & PV & KN).
  rewrite EP. cbn [bind]. destruct (post_analysis_ok c st W T ms mf cands mfp POS (pre_analysis c st mf nd) N HN pp P HPP WF1) as (nd' & A & EA & NDA & HA & AC).
  rewrite EA. cbn [bind]. eexists. exists P, A. split; [reflexivity|].
  assert (G : forall l v, dget (fold_left (fun nd (ls : str * nscore) => dset nd (fst ls) (Scored (snd ls))) pp (map (fun kv : str * nval => (fst kv, if dmem pp (fst kv) then snd kv else Scored (news_predict c st (fst kv)))) nd')) l = Some v -> v = Scored (news_predict c st l)).
  { intros l v. rewrite (final_fold pp NDP), (dmem_map_snd (fun kv => if dmem pp (fst kv) then snd kv else Scored (news_predict c st (fst kv)))). unfold dmem. destruct (dget pp l) as [s|] eqn:D; [intros [= <-]; f_equal; apply PV, D|]. destruct (dget nd' l); [|discriminate]. cbn [fst]. rewrite D. congruence. }
  split; [|split; [exact KN|split; [exact AC|split; [|exact G]]]].
  - clear - NDA. assert (H : NoDup (dkeys (map (fun kv : str * nval => (fst kv, if dmem pp (fst kv) then snd kv else Scored (news_predict c st (fst kv)))) nd'))) by (unfold dkeys; rewrite map_map; exact NDA).
    revert H. generalize (map (fun kv : str * nval => (fst kv, if dmem pp (fst kv) then snd kv else Scored (news_predict c st (fst kv)))) nd') as d. clear. intros d. generalize pp as L. clear. intros L. revert d. induction L as [|p L IH]; intros d H; [exact H|]. cbn [fold_left]. apply IH, (dwf_dset d), H.
  - intros l. rewrite <- dget_keys, (final_fold pp NDP), (dmem_map_snd (fun kv => if dmem pp (fst kv) then snd kv else Scored (news_predict c st (fst kv)))).
    pose proof (HA l) as HAL. pose proof (HPP l) as HPL. unfold dmem in HAL, HPL. destruct (dget pp l); [split; [intros _; right; left; apply HPL; reflexivity|discriminate]|]. assert (NP : ~ P l) by (intros X; apply HPL in X; discriminate).
    destruct (dget nd' l); (split; [intros X|intros X Y]); try discriminate; try congruence.
    + destruct (proj1 HAL eq_refl); tauto.
    + assert (Z : N l \/ A l) by tauto. apply HAL in Z. discriminate.
Qed.
