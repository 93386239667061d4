(** * Proofs: adjectives and verbs *)
From Verif Require Import PyBase PyDict CountLemmas HangleModel HangleSpec LemmaModel LemmaSpec LemmaProofs LemmaProofs3 NounSpec UtilsModel WordModel NounModel PredModel PredSpec3 PredProofs4.
Open Scope Z_scope.
Local Opaque syl.

Lemma mapM_conj stem ms : good_stem stem -> (forall m, In m ms -> good_ending m) ->
  exists ls, mapM (fun e => conjugate stem e false) ms = Ok ls /\ forall x, In x (concat ls) <-> exists m, In m ms /\ surface_of stem m x.
Proof.
  intros GS. induction ms as [|m ms IH]; intros H; [exists []; split; [reflexivity|]; intros x; split; [intros []|intros (m & [] & _)]|].
  destruct IH as (ls & E & S); [intros m' I; apply H; right; exact I|]. destruct (conjugate_exact stem m GS (H m (or_introl eq_refl))) as (cs & C & CS).
  exists (cs :: ls). split; [cbn [mapM]; rewrite C; cbn [bind]; rewrite E; reflexivity|]. intros x. cbn [concat]. rewrite in_app_iff, CS, S. split.
  - intros [A|(m' & I & A)]; [exists m; split; [left; reflexivity|exact A]|exists m'; split; [right; exact I|exact A]].
  - intros (m' & [<-|I] & A); [left; exact A|right; exists m'; split; [exact I|exact A]].
Qed.
Lemma conj_all_ok stem ms : good_stem stem -> (forall m, In m ms -> good_ending m) ->
  exists l, conj_all stem ms = Ok l /\ NoDup l /\ forall x, In x l <-> exists m, In m ms /\ surface_of stem m x.
Proof.
  intros GS H. destruct (mapM_conj stem ms GS H) as (ls & E & S). exists (dedup (concat ls)). unfold conj_all. rewrite E. split; [reflexivity|]. split; [apply dedup_NoDup|]. intros x. rewrite dedup_In. apply S.
Qed.
Lemma good_lit m : forallb (fun x => match x with c :: _ => (44032 <=? c)%N && (c <=? 55203)%N || mem c (u "ㄴㄹㅁㅂㅆ") | [] => false end) m = true -> forall x, In x m -> good_ending x.
Proof.
  intros F x I. rewrite forallb_forall in F. specialize (F x I). destruct x as [|c t]; [discriminate|]. exists c, t. split; [reflexivity|]. apply orb_true_iff in F as [F|F].
  - left. apply andb_true_iff in F as [A B]. unfold syllable. apply N.leb_le in A, B. split; assumption.
  - right. apply mem_In in F. change (u "ㄴㄹㅁㅂㅆ") with ["ㄴ"%ch; "ㄹ"%ch; "ㅁ"%ch; "ㅂ"%ch; "ㅆ"%ch] in F. destruct F as [F|[F|[F|[F|[F|[]]]]]]; symmetry in F; auto.
Qed.
Lemma at_last_snoc p (c : N) : at_last (p ++ [c]) = Ok c.
Proof. unfold at_last. rewrite rev_app_distr. reflexivity. Qed.

Lemma present_ok p a b f : jamo a b f -> good_stem (p ++ [syl a b f]) -> exists l, conjugate_as_present (p ++ [syl a b f]) = Ok l /\ NoDup l /\
  forall x, In x l <-> exists m, In m (if N.eqb f " "%ch then [u "ㄴ다"; u "ㄴ다고"; u "고있는"] else [u "는다"; u "는다고"; u "고있는"]) /\ surface_of (p ++ [syl a b f]) m x.
Proof.
  intros J GS. unfold conjugate_as_present. rewrite at_last_snoc. cbn [bind]. rewrite (parts_syl a b f J). cbn [bind fst snd]. apply conj_all_ok; [exact GS|].
  destruct (N.eqb f " "%ch); apply good_lit; vm_compute; reflexivity.
Qed.
Lemma imperative_ok p a b f : jamo a b f -> good_stem (p ++ [syl a b f]) -> exists l, conjugate_as_imperative (p ++ [syl a b f]) = Ok l /\ NoDup l /\
  forall x, In x l <-> exists m, In m (if N.eqb b "ㅓ"%ch || N.eqb b "ㅕ"%ch then [u "어라"] else [u "아라"]) /\ surface_of (p ++ [syl a b f]) m x.
Proof.
  intros J GS. unfold conjugate_as_imperative. rewrite at_last_snoc. cbn [bind]. rewrite (parts_syl a b f J). cbn [bind fst snd]. apply conj_all_ok; [exact GS|].
  destruct (N.eqb b "ㅓ"%ch || N.eqb b "ㅕ"%ch); apply good_lit; vm_compute; reflexivity.
Qed.
Lemma pleasure_ok stem : good_stem stem -> exists l, conjugate_as_pleasure stem = Ok l /\ NoDup l /\ forall x, In x l <-> exists m, In m pleasure_eomis /\ surface_of stem m x.
Proof. intros GS. apply conj_all_ok; [exact GS|]. apply good_lit. vm_compute. reflexivity. Qed.
Lemma test_forms_ok stem : good_stem stem -> exists s1 s2 s3, conjugate_as_present stem = Ok s1 /\ conjugate_as_imperative stem = Ok s2 /\ conjugate_as_pleasure stem = Ok s3 /\
  NoDup (setupdate (setupdate s1 s2) s3) /\ forall x, In x (setupdate (setupdate s1 s2) s3) <-> test_form stem x.
Proof.
  intros GS. destruct (good_stem_parts stem GS) as (p & a & b & f & E & J & _). subst stem.
  destruct (present_ok p a b f J GS) as (s1 & E1 & N1 & S1). destruct (imperative_ok p a b f J GS) as (s2 & E2 & N2 & S2). destruct (pleasure_ok _ GS) as (s3 & E3 & N3 & S3).
  exists s1, s2, s3. split; [exact E1|]. split; [exact E2|]. split; [exact E3|]. split; [apply setupdate_NoDup, setupdate_NoDup, N1|].
  assert (PE : map u ["자"; "ㄹ까"; "ㄹ까봐"; "까"; "까봐"; "을까"; "을까봐"]%string = pleasure_eomis) by (vm_compute; reflexivity).
  assert (T : forall m, test_ending (p ++ [syl a b f]) m <-> In m (if N.eqb f " "%ch then [u "ㄴ다"; u "ㄴ다고"; u "고있는"] else [u "는다"; u "는다고"; u "고있는"]) \/
     In m (if N.eqb b "ㅓ"%ch || N.eqb b "ㅕ"%ch then [u "어라"] else [u "아라"]) \/ In m pleasure_eomis).
  { intros m. unfold test_ending. rewrite PE. split.
    - intros (p' & a' & b' & f' & E & J' & H). apply app_inj_tail in E as [<- E]. apply (syl_inj a b f a' b' f' J J') in E as (<- & <- & <-).
      destruct H as [[-> H]|[[H0 H]|[->|[[H0 ->]|[(H0 & H1 & ->)|H]]]]].
      + left. rewrite N.eqb_refl. cbn [map In] in *. destruct H as [H|[H|[]]]; [left; exact H|right; left; exact H].
      + left. apply N.eqb_neq in H0. rewrite H0. cbn [map In] in *. destruct H as [H|[H|[]]]; [left; exact H|right; left; exact H].
      + left. destruct (N.eqb f " "%ch); right; right; left; reflexivity.
      + right; left. replace (N.eqb b "ㅓ"%ch || N.eqb b "ㅕ"%ch) with true; [left; reflexivity|]. symmetry. apply orb_true_iff. destruct H0 as [->| ->]; [left|right]; apply N.eqb_refl.
      + right; left. apply N.eqb_neq in H0, H1. rewrite H0, H1. left; reflexivity.
      + right; right; exact H.
    - intros H. exists p, a, b, f. split; [reflexivity|]. split; [exact J|]. destruct H as [H|[H|H]].
      + destruct (N.eqb_spec f " "%ch) as [E|E]; cbn [In map] in *; destruct H as [<-|[<-|[<-|[]]]].
        * left. split; [exact E|left; reflexivity].
        * left. split; [exact E|right; left; reflexivity].
        * right; right; left; reflexivity.
        * right; left. split; [exact E|left; reflexivity].
        * right; left. split; [exact E|right; left; reflexivity].
        * right; right; left; reflexivity.
      + destruct (N.eqb_spec b "ㅓ"%ch) as [E|E]; cbn [orb] in H.
        * destruct H as [<-|[]]. right; right; right; left. split; [left; exact E|reflexivity].
        * destruct (N.eqb_spec b "ㅕ"%ch) as [E'|E']; destruct H as [<-|[]].
          -- right; right; right; left. split; [right; exact E'|reflexivity].
          -- right; right; right; right; left. split; [exact E|]. split; [exact E'|reflexivity].
      + right; right; right; right; right. exact H. }
  intros x. rewrite !setupdate_In, S1, S2, S3. unfold test_form. split.
  - intros [[(m & I & A)|(m & I & A)]|(m & I & A)]; exists m; (split; [apply T|exact A]); [left; exact I|right; left; exact I|right; right; exact I].
  - intros (m & I & A). apply T in I as [I|[I|I]]; [left; left|left; right|right]; exists m; (split; [exact I|exact A]).
Qed.
(** two different known test forms *)
Lemma two_of (P : str -> bool) (l : list str) : NoDup l -> ((length (filter P l) <=? 1)%nat = false <-> exists x y, x <> y /\ In x l /\ In y l /\ P x = true /\ P y = true).
Proof.
  intros N. assert (NF : NoDup (filter P l)) by (apply NoDup_filter, N). split.
  - intros H. apply Nat.leb_gt in H. destruct (filter P l) as [|x [|y t]] eqn:E; cbn [length] in H; try lia.
    assert (X : In x (filter P l)) by (rewrite E; left; reflexivity). assert (Y : In y (filter P l)) by (rewrite E; right; left; reflexivity).
    apply filter_In in X as [X1 X2]. apply filter_In in Y as [Y1 Y2]. exists x, y. split; [|auto]. intros ->. inversion NF as [|? ? A _]; subst. apply A. left; reflexivity.
  - intros (x & y & NE & X & Y & PX & PY). apply Nat.leb_gt. assert (IX : In x (filter P l)) by (apply filter_In; auto). assert (IY : In y (filter P l)) by (apply filter_In; auto).
    destruct (filter P l) as [|a [|b t]]; [destruct IX| |cbn [length]; lia]. destruct IX as [<-|[]]. destruct IY as [<-|[]]. congruence.
Qed.
(** suffixes *)
Lemma suffix_b ss p c : forallb (fun s => match length s with 1%nat | 2%nat => true | _ => false end) ss = true ->
  (mem [c] ss || mem (last_two (p ++ [c])) ss = true <-> ends_with ss (p ++ [c])).
Proof.
  intros F. rewrite forallb_forall in F. rewrite orb_true_iff, !mem_In. unfold ends_with, last_two. split.
  - intros [H|H]; [exists p, [c]; split; [reflexivity|exact H]|]. exists (firstn (length (p ++ [c]) - 2) (p ++ [c])), (skipn (length (p ++ [c]) - 2) (p ++ [c])). split; [symmetry; apply firstn_skipn|exact H].
  - intros (a & b & E & I). specialize (F b I). destruct b as [|x [|y [|]]]; cbn [length] in F; try discriminate.
    + left. apply app_inj_tail in E as [_ <-]. exact I.
    + right. rewrite E, app_length. cbn [length]. replace (length a + 2 - 2)%nat with (length a) by lia. rewrite skipn_app, skipn_all, Nat.sub_diag. exact I.
Qed.
Lemma lemma_is_verb_spec {V} c (preds : dict str V) stem : good_stem stem -> exists b, lemma_is_verb c preds stem = Ok b /\ (b = true <-> verb_stem c (fun w => dget preds w <> None) stem).
Proof.
  intros GS. unfold lemma_is_verb. destruct (mem stem (p_verb c)) eqn:EV.
  - exists true. split; [reflexivity|]. split; [intros _|reflexivity]. apply v_dict, mem_In, EV.
  - apply mem_In_false in EV. destruct (mem stem (p_adj c)) eqn:EA.
    + exists false. split; [reflexivity|]. split; [discriminate|]. apply mem_In in EA. intros [H|H _ _|x y H _ _ _ _ _ _]; contradiction.
    + apply mem_In_false in EA. pose proof (good_stem_parts stem GS) as (p & a & b & f & E & _ & _). assert (AL : at_last stem = Ok (syl a b f)) by (rewrite E; apply at_last_snoc). unfold rule_classify. rewrite AL. cbn [bind].
      assert (ADJ : mem [syl a b f] adj_suffixes || mem (last_two stem) adj_suffixes = true <-> ends_with adjective_suffixes stem).
      { rewrite E. replace adjective_suffixes with adj_suffixes by (vm_compute; reflexivity). apply suffix_b. vm_compute. reflexivity. }
      assert (VRB : mem [syl a b f] verb_suffixes || mem (last_two stem) verb_suffixes = true <-> ends_with verb_suffixes_ stem).
      { rewrite E. replace verb_suffixes_ with verb_suffixes by (vm_compute; reflexivity). apply suffix_b. vm_compute. reflexivity. }
      destruct (mem [syl a b f] adj_suffixes || mem (last_two stem) adj_suffixes) eqn:E1.
      * cbn [bind]. exists false. split; [reflexivity|]. split; [discriminate|]. assert (X : ends_with adjective_suffixes stem) by (apply ADJ; reflexivity). intros [H|_ H _|x y _ H _ _ _ _ _]; contradiction.
      * assert (NA : ~ ends_with adjective_suffixes stem) by (intros X; apply ADJ in X; discriminate). destruct (mem [syl a b f] verb_suffixes || mem (last_two stem) verb_suffixes) eqn:E2.
        -- cbn [bind]. exists true. split; [reflexivity|]. split; [intros _|reflexivity]. apply v_rule; [exact EA|exact NA|apply VRB; reflexivity].
        -- assert (NV : ~ ends_with verb_suffixes_ stem) by (intros X; apply VRB in X; discriminate). cbn [bind].
           destruct (test_forms_ok stem GS) as (s1 & s2 & s3 & C1 & C2 & C3 & ND & S). rewrite C1. cbn [bind]. rewrite C2. cbn [bind]. rewrite C3. cbn [bind]. eexists. split; [reflexivity|]. rewrite negb_true_iff, (two_of _ _ ND). split.
           ++ intros (x & y & NE & IX & IY & PX & PY). apply (v_forms c _ stem x y); try assumption; [apply S, IX|apply S, IY| |]; apply dget_keys, dmem_keys; assumption.
           ++ intros [H|_ _ H|x y _ _ NE TX TY KX KY]; [contradiction|contradiction|]. exists x, y. split; [exact NE|]. split; [apply S, TX|]. split; [apply S, TY|]. split; apply dmem_keys, dget_keys; assumption.
Qed.
(** ** the separation *)
Section Sep.
Context (c : pconf) (P : dict str (Z * list (str * str))).
Let verb (x : str * str) : Prop := verb_stem c (fun w => dget P w <> None) (fst x).
Lemma split_lemmas_spec ls : Forall (fun x => good_stem (fst x)) ls ->
  exists la lv, split_lemmas c P ls = Ok (la, lv) /\ (forall x, In x la <-> In x ls /\ ~ verb x) /\ (forall x, In x lv <-> In x ls /\ verb x) /\ (NoDup ls -> NoDup la /\ NoDup lv) /\ (length la + length lv = length ls)%nat.
Proof.
  induction ls as [|x ls IH]; intros F.
  - exists [], []. split; [reflexivity|]. split; [intros x; split; [intros []|intros [[] _]]|]. split; [intros x; split; [intros []|intros [[] _]]|]. split; [intros _; split; constructor|reflexivity].
  - inversion F as [|? ? G F']; subst. destruct (IH F') as (la & lv & E & A & B & N & L). destruct (lemma_is_verb_spec c P (fst x) G) as (b & EB & SB). cbn [split_lemmas]. rewrite EB. cbn [bind]. rewrite E. cbn [bind fst snd]. destruct b.
    + assert (V : verb x) by (apply SB; reflexivity). exists la, (x :: lv). split; [reflexivity|]. split; [intros y; rewrite A; cbn [In]; split; [intros [I W]; split; [right; exact I|exact W]|intros [[<-|I] W]; [contradiction|split; assumption]]|].
      split; [intros y; cbn [In]; rewrite B; split; [intros [<-|[I W]]; [split; [left; reflexivity|exact V]|split; [right; exact I|exact W]]|intros [[<-|I] W]; [left; reflexivity|right; split; assumption]]|].
      split; [|cbn [length]; lia]. intros ND. inversion ND as [|? ? NI ND']; subst. destruct (N ND') as [N1 N2]. split; [exact N1|]. constructor; [|exact N2]. intros I. apply B in I as [I _]. contradiction.
    + assert (V : ~ verb x) by (intros W; apply SB in W; discriminate). exists (x :: la), lv. split; [reflexivity|].
      split; [intros y; cbn [In]; rewrite A; split; [intros [<-|[I W]]; [split; [left; reflexivity|exact V]|split; [right; exact I|exact W]]|intros [[<-|I] W]; [left; reflexivity|right; split; assumption]]|].
      split; [intros y; rewrite B; cbn [In]; split; [intros [I W]; split; [right; exact I|exact W]|intros [[<-|I] W]; [contradiction|split; assumption]]|].
      split; [|cbn [length]; lia]. intros ND. inversion ND as [|? ? NI ND']; subst. destruct (N ND') as [N1 N2]. split; [|exact N2]. constructor; [|exact N1]. intros I. apply A in I as [I _]. contradiction.
Qed.
Definition opt {A B} (n : A) (l : list B) : option (A * list B) := match l with [] => None | _ => Some (n, l) end.
Lemma separate_fold ps : NoDup (map fst ps) -> Forall (fun wp : str * (Z * list (str * str)) => Forall (fun x => good_stem (fst x)) (snd (snd wp))) ps -> forall A V, NoDup (dkeys A) -> NoDup (dkeys V) ->
  (forall w, In w (map fst ps) -> dget A w = None /\ dget V w = None) ->
  exists A' V', foldM (separate_step c P) ps (A, V) = Ok (A', V') /\ NoDup (dkeys A') /\ NoDup (dkeys V') /\
  forall w, match dget (ps : dict str (Z * list (str * str))) w with
            | None => dget A' w = dget A w /\ dget V' w = dget V w
            | Some (n, ls) => exists la lv, split_lemmas c P ls = Ok (la, lv) /\ dget A' w = opt n la /\ dget V' w = opt n lv
            end.
Proof.
  induction ps as [|[w0 [n0 ls0]] ps IH]; intros ND F A V NA NV D.
  - exists A, V. split; [reflexivity|]. split; [exact NA|]. split; [exact NV|]. intros w. cbn [dget]. auto.
  - cbn [map fst] in ND, D. inversion ND as [|? ? NI ND']; subst. inversion F as [|? ? G F']; subst. cbn [snd] in G. destruct (split_lemmas_spec ls0 G) as (la & lv & E & _).
    cbn [foldM]. unfold separate_step at 1. cbn [fst snd]. rewrite E. cbn [bind fst snd].
    set (A1 := match la with [] => A | _ => dset A w0 (n0, la) end). set (V1 := match lv with [] => V | _ => dset V w0 (n0, lv) end).
    assert (NA1 : NoDup (dkeys A1)) by (unfold A1; destruct la; [exact NA|apply dwf_dset, NA]). assert (NV1 : NoDup (dkeys V1)) by (unfold V1; destruct lv; [exact NV|apply dwf_dset, NV]).
    assert (GA : forall w, dget A1 w = if eqb w0 w then opt n0 la else dget A w).
    { intros w. unfold A1. destruct la as [|y la].
      - destruct (eqb_spec w0 w) as [EW|EW]; [|reflexivity]. subst w. apply (proj1 (D w0 (or_introl eq_refl))).
      - rewrite dget_dset. cbn [opt]. reflexivity. }
    assert (GV : forall w, dget V1 w = if eqb w0 w then opt n0 lv else dget V w).
    { intros w. unfold V1. destruct lv as [|y lv].
      - destruct (eqb_spec w0 w) as [EW|EW]; [|reflexivity]. subst w. apply (proj2 (D w0 (or_introl eq_refl))).
      - rewrite dget_dset. cbn [opt]. reflexivity. }
    destruct (IH ND' F' A1 V1 NA1 NV1) as (A' & V' & EF & NA' & NV' & S).
    { intros w I. rewrite GA, GV. destruct (eqb_spec w0 w) as [NW|NW]; [subst w0; contradiction|]. apply D. right; exact I. }
    exists A', V'. split; [exact EF|]. split; [exact NA'|]. split; [exact NV'|]. intros w. specialize (S w). cbn [dget].
    destruct (eqb_spec w0 w) as [EW|EW].
    + subst w0. assert (X : dget (ps : dict str (Z * list (str * str))) w = None) by (apply dget_None; exact NI). rewrite X, GA, GV in S. destruct (eqb_spec w w) as [_|NW]; [|contradiction]. exists la, lv. split; [exact E|]. exact S.
    + destruct (dget (ps : dict str (Z * list (str * str))) w) as [[n ls]|]; [exact S|]. rewrite GA, GV in S. destruct (eqb_spec w0 w) as [NW|_]; [contradiction|]. exact S.
Qed.
End Sep.
