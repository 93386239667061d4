(** * Proofs about the extraction of endings: candidates and batch prediction *)
From Coq Require Import QArith Permutation Lqa Sorted.
From Verif Require Import PyBase PyDict PySort SortLemmas CountLemmas QLemmas UtilsModel UtilsSpec UtilsProofs UtilsProofs2 NounModel NounSpec NounProofs NounProofs2 NounProofs3 LemmaModel PredModel PredSpec PredProofs.
Open Scope Z_scope.

Definition wantedb (condition : option str) (r : str) : bool := match condition with None => true | Some [] => true | Some p => eqb (skipn (length r - length p) r) p end.
Lemma wantedb_spec condition r : wantedb condition r = true <-> wanted condition r.
Proof.
  unfold wantedb, wanted. destruct condition as [[|x p]|]; [| |split; [intros _ p E; discriminate|reflexivity]].
  - split; [|reflexivity]. intros _ p E. injection E as <-. exists r. symmetry. apply app_nil_r.
  - rewrite eqb_eq. split.
    + intros E q F. injection F as <-. exists (firstn (length r - length (x :: p)) r). rewrite <- E at 2. symmetry. apply firstn_skipn.
    + intros H. destruct (H _ eq_refl) as (a & ->). rewrite app_length, Nat.add_sub, skipn_app, skipn_all, Nat.sub_diag. reflexivity.
Qed.
Lemma eomi_candidates_spec surf g cond : NoDup (dkeys (eomi_candidates surf g cond)) /\
  forall r, In r (dkeys (eomi_candidates surf g cond)) <-> wantedb cond r = true /\ exists l n, In l surf /\ In (r, n) (get_r g l (-1)).
Proof.
  unfold eomi_candidates.
  set (inner := fun (d : dict str Z) (rc : str * Z) => _).
  assert (In1 : forall L d, NoDup (dkeys d) -> NoDup (dkeys (fold_left inner L d)) /\ forall w, In w (dkeys (fold_left inner L d)) <-> In w (dkeys d) \/ wantedb cond w = true /\ exists n, In (w, n) L).
  { induction L as [|[l n] L IH]; intros d N; [split; [exact N|]; intros w; split; [auto|intros [H|(_ & n & [])]; exact H]|].
    cbn [fold_left].
    assert (E : inner d (l, n) = if wantedb cond l then dset d l (dgetd d l 0 + n) else d) by reflexivity.
    assert (S : NoDup (dkeys (inner d (l, n))) /\ forall w, In w (dkeys (inner d (l, n))) <-> In w (dkeys d) \/ wantedb cond w = true /\ w = l).
    { rewrite E. destruct (wantedb cond l) eqn:C.
      - split; [apply (dwf_dset d l _ N)|]. intros w. rewrite dkeys_dset. split; [intros [H|H]; subst; auto|intros [H|[_ H]]; auto].
      - split; [exact N|]. intros w. split; [auto|]. intros [H|[H ->]]; [exact H|congruence]. }
    destruct S as [S1 S2]. destruct (IH _ S1) as [I1 I2]. split; [exact I1|]. intros w. rewrite I2, S2. split.
    - intros [[H|[H ->]]|(H & m & I)]; [auto| |]; right; (split; [exact H|]); [exists n; left; reflexivity|exists m; right; exact I].
    - intros [H|(H & m & [I|I])]; [auto| |right; eauto]. injection I as <- _. auto. }
  assert (Out : forall R d, NoDup (dkeys d) -> let d' := fold_left (fun d l => fold_left inner (get_r g l (-1)) d) R d in
     NoDup (dkeys d') /\ forall w, In w (dkeys d') <-> In w (dkeys d) \/ wantedb cond w = true /\ exists l n, In l R /\ In (w, n) (get_r g l (-1))).
  { induction R as [|r R IH]; intros d N; cbn [fold_left]; [split; [exact N|]; intros w; split; [auto|intros [H|(_ & r & n & [] & _)]; exact H]|].
    destruct (In1 (get_r g r (-1)) d N) as [S1 S2]. destruct (IH _ S1) as [I1 I2]. split; [exact I1|]. intros w. rewrite I2, S2. split.
    - intros [[H|(H & n & I)]|(H & r' & n & I & J)]; [auto| |]; right; (split; [exact H|]); [exists r, n|exists r', n]; (split; [|assumption]); [left; reflexivity|right; exact I].
    - intros [H|(H & r' & n & [<-|I] & J)]; [auto|left; right; eauto|right; split; [exact H|]; exists r', n; auto]. }
  destruct (Out surf [] (NoDup_nil _)) as [A B]. split; [exact A|]. intros w. rewrite B. split; [intros [[]|H]; exact H|auto].
Qed.
Lemma eomi_candidates_uni surf cond lm rm f g r : 0 < lm -> uni lm rm (dget f) g -> (In r (dkeys (eomi_candidates surf g cond)) <-> ending_candidate surf cond lm rm f r).
Proof.
  intros P U. destruct (eomi_candidates_spec surf g cond) as [_ H]. rewrite H, wantedb_spec. unfold ending_candidate. split; intros (C & l & n & I & J); (split; [exact C|]); exists l, n; (split; [exact I|]).
  - apply (proj2 (uni_rows lm rm _ g l U)) in J as [W F]. rewrite (window_spec lm rm l r P) in W. auto.
  - apply (proj2 (uni_rows lm rm _ g l U)). rewrite (window_spec lm rm l r P). exact J.
Qed.

(** ** the loop *)
Section Loop.
  Variables (surf nouns : list str) (lm rm : Z) (ms : Q) (mnf : Z) (f : str -> option Z).
  Notation like := (likeb surf nouns).
  Definition etaken (S : dict str (Z * Q)) (x : str) : bool := existsb (fun p => Qle_bool ms (snd (snd p)) && endsb lm rm like x (fst p)) S.
  Definition eleft_b (S : dict str (Z * Q)) (r l : str) (n : Z) : Prop :=
    r <> [] /\ in_window lm rm l r = true /\ f (l ++ r) = Some n /\
    forall p, In p S -> Qle_bool ms (snd (snd p)) = true -> (length r < length (fst p))%nat -> endsb lm rm like (l ++ r) (fst p) = false.
  Definition escored (S : dict str (Z * Q)) : Prop :=
    forall r p, In (r, p) S -> forall fs, NoDup (map fst fs) -> (forall l n, In (l, n) fs <-> eleft_b S r l n) -> eomi_predict surf nouns fs r ms mnf = Ok p.
  Lemma ends_same_length P P' x w w' : endsb lm rm P x w = true -> endsb lm rm P' x w' = true -> length w = length w' -> w = w'.
  Proof.
    intros A B L. apply endsb_spec in A as (_ & l & -> & _), B as (_ & l' & E & _).
    apply (f_equal (@rev _)) in E. rewrite !rev_app_distr in E. apply (f_equal (firstn (length w))) in E.
    rewrite <- (rev_length w) in E at 1. rewrite L, <- (rev_length w') in E. rewrite !firstn_app, !firstn_all, !Nat.sub_diag in E. cbn [firstn] in E. rewrite !app_nil_r in E.
    apply (f_equal (@rev _)) in E. rewrite !rev_involutive in E. exact E.
  Qed.
  Lemma eomi_loop todo : forall S g, NoDup (dkeys S ++ todo) -> StronglySorted longer (dkeys S ++ todo) ->
    uni lm rm (fun x => if etaken S x then None else f x) g -> escored S ->
    exists g' S', foldM (eomi_batch_step surf nouns ms mnf) todo (g, S) = Ok (g', S') /\
    dkeys S' = dkeys S ++ todo /\ escored S' /\ forall g0, reach g0 g -> reach g0 g'.
  Proof.
    induction todo as [|w todo IH]; intros S g ND SS U SC; cbn [foldM].
    - exists g, S. rewrite app_nil_r. auto.
    - pose proof (cols_nonempty lm rm _ g w U) as NE. pose proof (uni_cols_NoDup lm rm _ g w U) as NC.
      assert (PX : exists p, eomi_predict surf nouns (get_l g w (-1)) w ms mnf = Ok p) by (unfold eomi_predict; rewrite eomi_predict3_eq by exact NE; cbn [bind]; eexists; reflexivity).
      destruct PX as (p & EP).
      assert (NI : ~ In w (dkeys S)) by (intros I; apply NoDup_remove_2 in ND; apply ND, in_or_app; left; exact I).
      set (S1 := S ++ [(w, p)]).
      assert (K : dkeys S1 ++ todo = dkeys S ++ w :: todo) by (unfold S1, dkeys; rewrite map_app, <- app_assoc; reflexivity).
      assert (LE : forall q, In q S -> (length w <= length (fst q))%nat).
      { intros q I. apply SS_app_inv in SS as (_ & _ & X). apply (X (fst q) w); [apply in_map, I|left; reflexivity]. }
      assert (T1 : forall x, etaken S1 x = etaken S x || (Qle_bool ms (snd p) && endsb lm rm like x w)).
      { intros x. unfold etaken, S1. rewrite existsb_app. cbn [existsb fst snd]. rewrite orb_false_r. reflexivity. }
      assert (G1 : exists g1, (if Qle_bool ms (snd p) then foldM (eomi_remove surf nouns w) (get_l g w (-1)) g else Ok g) = Ok g1 /\
                     uni lm rm (fun x => if etaken S1 x then None else f x) g1 /\ forall g0, reach g0 g -> reach g0 g1).
      { destruct (Qle_bool ms (snd p)) eqn:A.
        - destruct (uni_take_cols lm rm surf nouns w _ g U) as (g1 & E1 & U1 & R1). exists g1. split; [exact E1|]. split; [|exact R1]. eapply uni_ext; [|exact U1]. intros x. cbv beta. rewrite T1. cbn [andb].
          destruct (etaken S x), (endsb lm rm like x w); reflexivity.
        - exists g. split; [reflexivity|]. split; [|auto]. eapply uni_ext; [|exact U]. intros x. cbv beta. rewrite T1. cbn [andb]. rewrite orb_false_r. reflexivity. }
      destruct G1 as (g1 & E1 & U1 & R1).
      assert (SC1 : escored S1).
      { intros w' p' I fs N H. unfold S1 in I. apply in_app_or in I as [I|[I|[]]].
        - apply (SC w' p' I fs N). intros l n. rewrite H. unfold eleft_b, S1. split; intros (A0 & A & B & C); (split; [exact A0|]; split; [exact A|]; split; [exact B|]); intros q Iq.
          + apply C, in_or_app. left. exact Iq.
          + apply in_app_or in Iq as [Iq|[<-|[]]]; [apply C, Iq|]. cbn [fst snd]. intros _ L. specialize (LE _ I). cbn [fst] in LE. lia.
        - injection I as <- <-. rewrite <- EP. symmetry.
          apply eomi_predict_ext; [reflexivity|reflexivity| |exact NE]. apply NoDup_Permutation; [apply NoDup_pairs, NC|apply NoDup_pairs, N|].
          intros [l n]. rewrite (uni_cols lm rm _ g w l n U), H. unfold eleft_b. split.
          + intros (NW & W & F). destruct (etaken S (l ++ w)) eqn:T; [discriminate|]. split; [exact NW|]. split; [exact W|]. split; [exact F|].
            intros q Iq A L. unfold S1 in Iq. apply in_app_or in Iq as [Iq|[<-|[]]]; [|cbn [fst] in L; lia].
            destruct (endsb lm rm like (l ++ w) (fst q)) eqn:B; [|reflexivity]. exfalso. rewrite <- not_true_iff_false in T. apply T. apply existsb_exists. exists q. rewrite A, B. auto.
          + intros (NW & W & F & X). split; [exact NW|]. split; [exact W|]. destruct (etaken S (l ++ w)) eqn:T; [|exact F]. exfalso.
            apply existsb_exists in T as (q & Iq & T). apply andb_true_iff in T as [A B]. destruct (Nat.eq_dec (length w) (length (fst q))) as [E|E].
            * assert (EQ : fst q = w); [|rewrite <- EQ in NI; apply NI, in_map, Iq]. symmetry. eapply (ends_same_length (fun _ => true)); [apply endsb_spec; split; [exact NW|]; exists l; split; [reflexivity|]; split; [exact W|reflexivity]|exact B|exact E].
            * specialize (LE q Iq). rewrite (X q) in B; [discriminate|apply in_or_app; left; exact Iq|exact A|lia]. }
      assert (ST : eomi_batch_step surf nouns ms mnf (g, S) w = Ok (g1, S1)).
      { unfold eomi_batch_step. cbn [fst snd]. rewrite EP. cbn [bind]. rewrite E1. cbn [bind]. rewrite (dset_fresh S w p NI). reflexivity. }
      rewrite ST. cbn [bind]. rewrite <- K in ND, SS. destruct (IH S1 g1 ND SS U1 SC1) as (g' & S' & F & KK & SC' & R'). exists g', S'. rewrite KK, K. split; [exact F|]. split; [reflexivity|]. split; [exact SC'|]. intros g0 RR. apply R', R1, RR.
  Qed.
End Loop.
Lemma endsb_takes surf nouns lm rm x r : 0 < lm -> (endsb lm rm (likeb surf nouns) x r = true <-> takes surf nouns lm rm r x).
Proof.
  intros P. rewrite endsb_spec. unfold takes. split; intros (A & l & B & C & D); (split; [exact A|]; exists l; split; [exact B|]; split); try (apply (window_spec lm rm l r P), C); apply likeb_spec, D.
Qed.
Lemma eleft_spec surf nouns lm rm ms S f r l n : 0 < lm -> NoDup (dkeys S) -> (eleft_b surf nouns lm rm ms (dget f) S r l n <-> left_for_ending surf nouns S ms lm rm f r l n).
Proof.
  intros P N. unfold eleft_b, left_for_ending. rewrite (window_spec lm rm l r P). split; intros (A0 & A & B & C); (split; [exact A0|]; split; [exact A|]; split; [exact B|]).
  - intros w' (p & D & Q) L H. apply (endsb_takes surf nouns lm rm _ _ P) in H. specialize (C (w', p) (dget_In _ _ _ D)). cbn [fst snd] in C. rewrite C in H; [discriminate|apply Qle_bool_iff, Q|exact L].
  - intros [w' p] I Q L. cbn [fst snd] in *. destruct (endsb lm rm (likeb surf nouns) (l ++ r) w') eqn:E; [|reflexivity]. exfalso.
    apply (C w'); [exists p; split; [apply In_dget; assumption|apply Qle_bool_iff, Q]|exact L|apply endsb_takes; assumption].
Qed.
Lemma eleft_rows surf nouns lm rm f g S ms r : 0 < lm -> uni lm rm (dget f) g -> NoDup (dkeys S) ->
  exists fs, NoDup (map fst fs) /\ forall l n, In (l, n) fs <-> left_for_ending surf nouns S ms lm rm f r l n.
Proof.
  intros P U N.
  exists (filter (fun lc => negb (existsb (fun p => Qle_bool ms (snd (snd p)) && (length r <? length (fst p))%nat && endsb lm rm (likeb surf nouns) (fst lc ++ r) (fst p)) S)) (get_l g r (-1))).
  split; [apply (NoDup_filter_map (K:=str)); exact (uni_cols_NoDup lm rm _ g r U)|]. intros l n. rewrite filter_In, (uni_cols lm rm _ g r l n U), <- eleft_spec by assumption. unfold eleft_b. cbn [fst].
  rewrite negb_true_iff, <- not_true_iff_false, existsb_exists. split.
  - intros [(A0 & A & B) C]. split; [exact A0|]. split; [exact A|]. split; [exact B|]. intros p I Q L. destruct (endsb lm rm (likeb surf nouns) (l ++ r) (fst p)) eqn:E; [|reflexivity]. exfalso. apply C. exists p. split; [exact I|].
    rewrite Q. cbn [andb]. rewrite E, andb_true_r. apply Nat.ltb_lt, L.
  - intros (A0 & A & B & C). split; [auto|]. intros (p & I & H). rewrite !andb_true_iff in H. destruct H as [[Q L] E]. rewrite (C p I Q) in E; [discriminate|apply Nat.ltb_lt, L].
Qed.
Lemma eomi_batch_all surf nouns lm rm ms mnf ec g cond : NoDup (map fst (ec_counter ec)) -> 1 < lm -> 0 < rm -> train_counter ec lm rm = Ok g ->
  exists S, eomi_batch surf nouns ms mnf g (dkeys (eomi_candidates surf g cond)) = Ok (g, S) /\ ending_scores surf nouns cond ms mnf lm rm (ec_counter ec) S.
Proof.
  intros N L R E. destruct (trained_uni ec lm rm N L R) as (g0 & E0 & U & O & RL). rewrite E in E0. injection E0 as <-. assert (P : 0 < lm) by lia.
  destruct (eomi_candidates_spec surf g cond) as [NC _]. pose proof (eomi_candidates_uni surf cond lm rm (ec_counter ec) g) as CU.
  set (ws := dkeys (eomi_candidates surf g cond)) in *.
  assert (NW : NoDup (sort_len ws)) by (eapply Permutation_NoDup; [apply Permutation_sym, sort_perm|exact NC]).
  destruct (eomi_loop surf nouns lm rm ms mnf (dget (ec_counter ec)) (sort_len ws) [] g) as (g' & S & F & K & SC & RE);
    [exact NW|apply sort_len_sorted|eapply uni_ext; [|exact U]; reflexivity|intros w p []|].
  exists S. split.
  { transitivity (Ok (reset_lrgraph g', S)); [exact (f_equal (fun x => bind x (fun st => Ok (reset_lrgraph (fst st), snd st))) F)|]. rewrite (trained_reset ec lm rm g g' L R E (RE g (reach_refl g))). reflexivity. }
  assert (ND : NoDup (dkeys S)) by (rewrite K; exact NW).
  split; [exact ND|]. split.
  - intros r. rewrite dget_keys. unfold dkeys in K |- *. rewrite K. cbn [app map]. unfold sort_len. rewrite sort_In. apply CU; assumption.
  - intros r p D. destruct (eleft_rows surf nouns lm rm _ g S ms r P U ND) as (fs & NF & HF). exists fs. split; [exact NF|]. split; [exact HF|].
    apply (SC r p (dget_In _ _ _ D) fs NF). intros l n. rewrite HF. symmetry. apply eleft_spec; assumption.
Qed.
(** the specification determines the scores *)
Lemma ending_scores_unique surf surf' nouns nouns' cond lm rm ms mnf f S S' : 0 < lm -> (forall x, In x surf <-> In x surf') -> (forall x, In x nouns <-> In x nouns') ->
  ending_scores surf nouns cond ms mnf lm rm f S -> ending_scores surf' nouns' cond ms mnf lm rm f S' -> forall r, dget S r = dget S' r.
Proof.
  intros P ES EN (ND & K & SC) (ND' & K' & SC').
  assert (KK : forall r, dget S r <> None <-> dget S' r <> None).
  { intros r. rewrite K, K'. unfold ending_candidate. split; intros (C & l & n & I & J); (split; [exact C|]); exists l, n; (split; [apply ES, I|exact J]). }
  assert (TT : forall r x, takes surf nouns lm rm r x <-> takes surf' nouns' lm rm r x).
  { intros r x. unfold takes, stem_like, noun_and_stem. split; intros (A & l & B & C & D); (split; [exact A|]; exists l; split; [exact B|]; split; [exact C|]); (destruct D as [D|(y & t & D1 & D2 & D3)]; [left; apply ES, D|right; exists y, t; split; [exact D1|]; split; [apply EN, D2|apply ES, D3]]). }
  assert (EQ : forall m r, (Z.to_nat rm < length r + m)%nat -> dget S r = dget S' r).
  { induction m as [|m IH]; intros r LW.
    - assert (NI : dget S r = None). { destruct (dget S r) eqn:X; [|reflexivity]. exfalso. assert (Y : dget S r <> None) by congruence. apply K in Y as (_ & l & n & _ & (_ & _ & Y) & _). lia. }
      rewrite NI. destruct (dget S' r) eqn:X; [|reflexivity]. exfalso. apply (proj2 (KK r)); [rewrite X; discriminate|exact NI].
    - destruct (dget S r) as [p|] eqn:D; destruct (dget S' r) as [p'|] eqn:D'.
      + destruct (SC r p D) as (fs & NF & HF & X). destruct (SC' r p' D') as (fs' & NF' & HF' & X').
        assert (NE : Forall (fun lc => fst lc <> []) fs). { apply Forall_forall. intros [l n] I. apply HF in I as (_ & (I & _) & _). exact I. }
        rewrite (eomi_predict_ext surf surf' nouns nouns' fs fs' r ms mnf ES EN) in X; [congruence| |exact NE].
        apply NoDup_Permutation; [apply NoDup_pairs, NF|apply NoDup_pairs, NF'|]. intros [l n]. rewrite HF, HF'. unfold left_for_ending, accepted.
        split; intros (A0 & A & B & C); (split; [exact A0|]; split; [exact A|]; split; [exact B|]); intros w' (q & Q & Q') LL H; apply (C w'); try assumption; try (apply TT, H); exists q; (split; [|exact Q']);
          [rewrite (IH w') by lia; exact Q|rewrite <- (IH w') by lia; exact Q].
      + exfalso. apply (proj1 (KK r)); [rewrite D; discriminate|exact D'].
      + exfalso. apply (proj2 (KK r)); [rewrite D'; discriminate|exact D].
      + reflexivity. }
  intros r. apply (EQ (Datatypes.S (Z.to_nat rm)) r). lia.
Qed.
