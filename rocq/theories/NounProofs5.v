(** * LRNounExtractor_v2: compound extraction *)
From Coq Require Import QArith Permutation Sorting.Sorted Bool.
From Coq Require Import Lqa.
From Verif Require Import PyBase PyDict PySort SortLemmas CountLemmas QLemmas PyText UtilsModel UtilsSpec UtilsProofs UtilsProofs2 TokenizerModel TokenizerSpec MaxScoreProofs MaxScoreProofs2 LRTokProofs NounTokProofs NounModel NounSpec NounSpec2 NounProofs NounProofs2 NounProofs3 NounProofs4.
Open Scope Z_scope.

(** ** grouped accumulation *)
Section Group.
  Context {X V : Type}.
  Variable key : X -> option str.
  Variable f : V -> X -> V.
  Variable z : V.
  Definition gstep (d : dict str V) (x : X) : dict str V := match key x with Some k => dset d k (f (dgetd d k z) x) | None => d end.
  Definition isk (k : str) (x : X) : bool := match key x with Some k' => eqb k' k | None => false end.
  Definition gval (o : option V) (l : list X) : option V := match l with [] => o | _ => Some (fold_left f l (match o with Some v => v | None => z end)) end.
  Lemma group_get l : forall d k, dget (fold_left gstep l d) k = gval (dget d k) (filter (isk k) l).
  Proof.
    induction l as [|x l IH]; intros d k; [reflexivity|]. cbn [fold_left filter]. rewrite IH. unfold gstep, isk at 2.
    destruct (key x) as [k'|] eqn:E; [|reflexivity]. rewrite dget_dset. destruct (eqb_spec k' k) as [->|n]; [|reflexivity].
    unfold gval, dgetd. destruct (filter (isk k) l); reflexivity.
  Qed.
  Lemma group_wf l : forall d, NoDup (map fst d) -> NoDup (map fst (fold_left gstep l d)).
  Proof.
    induction l as [|x l IH]; intros d N; [exact N|]. cbn [fold_left]. apply IH. unfold gstep. destruct (key x); [apply dwf_dset; exact N|exact N].
  Qed.
End Group.

Section Compounds.
  Variable features : list str.
  Variable scores : dict str (Z * Q).
  Variable ms : Q.
  Variable D : dict str Q.
  Definition parts_of (w : str) : option (list str) :=
    match decompose_tokens D w with Ok ts => match parse_compound features ts with Some [] => None | x => x end | Err _ => None end.
  Definition ckey (wc : str * Z) : option str := match parts_of (fst wc) with Some p => Some (concat p) | None => None end.
  Definition cscore (wc : str * Z) : Q := match parts_of (fst wc) with Some p => qmax_of (map (fun t => snd (dgetd scores t (0, 0%Q))) p) | None => 0%Q end.
  Definition fscore (old : Q) (wc : str * Z) : Q := if Qle_bool (cscore wc) old then old else cscore wc.
  Definition fcount (old : Z) (wc : str * Z) : Z := old + snd wc.
  Lemma comp_loop g cs : Forall (fun wc : str * Z => exists ts, decompose_tokens D (fst wc) = Ok ts) cs -> forall st, reach g (c_graph st) ->
    exists st', foldM (compound_step features scores D) cs st = Ok st' /\ reach g (c_graph st') /\
      c_scores st' = fold_left (gstep ckey fscore 0%Q) cs (c_scores st) /\ c_counts st' = fold_left (gstep ckey fcount 0) cs (c_counts st).
  Proof.
    induction 1 as [|[w n] cs (ts & E) F IH]; intros st R; [exists st; auto|]. cbn [foldM fold_left]. cbn [fst] in E.
    assert (X : exists st1, compound_step features scores D st (w, n) = Ok st1 /\ reach g (c_graph st1) /\
                c_scores st1 = gstep ckey fscore 0%Q (c_scores st) (w, n) /\ c_counts st1 = gstep ckey fcount 0 (c_counts st) (w, n)).
    { unfold compound_step. cbn [fst snd]. rewrite E. cbn [bind]. unfold gstep, ckey, fscore, cscore, parts_of. cbn [fst]. rewrite E.
      destruct (parse_compound features ts) as [[|p0 ps]|]; [exists st; auto| |exists st; auto].
      eexists. split; [reflexivity|]. cbn [c_graph c_scores c_counts]. split; [apply reach_remove, R|]. split; reflexivity. }
    destruct X as (st1 & E1 & R1 & S1 & C1). rewrite E1. cbn [bind]. destruct (IH st1 R1) as (st' & E' & R' & S' & C'). exists st'. rewrite S', C', S1, C1. auto.
  Qed.
End Compounds.

Lemma parts_nonempty features D w p : parts_of features D w = Some p -> p <> [].
Proof. unfold parts_of. destruct (decompose_tokens D w) as [ts|]; [|discriminate]. destruct (parse_compound features ts) as [[|a l]|]; try discriminate. intros E. injection E as <-. discriminate. Qed.
(** a candidate is never its own single part, so "cut" and "decomposed" agree *)
Lemma parts_makes features scores ms w p noun : NoDup (map fst scores) -> w <> [] -> Forall (fun c => nonspace c = true) w -> ~ known_part scores ms w ->
  (parts_of features (decomposer_scores scores ms) w = Some p /\ concat p = noun) <-> makes features scores ms w p noun.
Proof.
  intros N NW F NK. destruct (tokens_spec (decomposer_scores scores ms) w NW F) as (ts & E & R & T & NT).
  unfold makes, parts_of, decompose_compound. rewrite E. cbn [bind].
  assert (TX : concat (map tw ts) = w) by (rewrite (tiles_concat w 0) by (auto; lia); reflexivity).
  destruct (parse_compound features ts) as [[|a l]|] eqn:P.
  - split; [intros [X _]; discriminate|]. intros (X & Y & _). injection X as <-. congruence.
  - split.
    + intros [X <-]. injection X as <-. split; [reflexivity|]. split; [|reflexivity]. intros EQ. injection EQ as -> ->.
      destruct (last_split ts NT) as (i & x & ->). rewrite parse_shape in P. destruct (forallb goodt i) eqn:G; [|discriminate].
      destruct ((2 <=? length i)%nat && mem (tw x) features) eqn:C.
      * apply andb_true_iff in C as [C _]. apply Nat.leb_le in C. injection P as P. apply (f_equal (@length _)) in P. rewrite map_length in P. cbn in P. lia.
      * destruct (goodt x) eqn:Gx; [|discriminate]. injection P as P. destruct i as [|t0 i]; [|apply (f_equal (@length _)) in P; cbn in P; rewrite map_length, app_length in P; cbn in P; lia].
        cbn in P. injection P as P. apply NK. rewrite <- P. eapply positive_known; [exact N|exact NW|exact R|left; reflexivity|]. unfold goodt in Gx. apply negb_true_iff in Gx. exact Gx.
    + intros (X & _ & C). injection X as <-. auto.
  - split; [intros [X _]; discriminate|]. intros (X & Y & _). injection X as <-. congruence.
Qed.
Lemma candidates_origin lm rm f g scores ms w n : 0 < lm -> 0 <= rm -> uni lm rm (dget f) g -> full (lr g) -> NoDup (map fst scores) ->
  In (w, n) (compound_candidates (lr g) (decomposer_scores scores ms)) <-> compound_candidate lm rm f scores ms w n.
Proof.
  intros P RM [I U] FU N. unfold compound_candidates, compound_candidate. rewrite in_map_iff.
  assert (KN : dmem (decomposer_scores scores ms) w = false <-> ~ known_part scores ms w).
  { rewrite <- dscores_none by exact N. unfold dmem. destruct (dget (decomposer_scores scores ms) w); split; congruence. }
  assert (GET : forall inner, In (w, inner) (lr g) -> dget (lr g) w = Some inner) by (intros inner J; apply In_dget; [apply (inv_lr g I)|exact J]).
  assert (WN : forall r, in_limits lm rm w r -> in_window lm rm w [] = true).
  { intros r (A & B & C). apply window_spec; [exact P|]. split; [exact A|]. split; [exact B|]. cbn. lia. }
  split.
  - intros ([w' inner] & E & J). cbn [fst snd] in E. injection E as -> <-. apply filter_In in J as [J H]. cbn [fst] in H. apply andb_true_iff in H as [H1 H2]. apply Nat.leb_le in H1. apply negb_true_iff in H2.
    split; [exact H1|]. split; [apply KN, H2|]. pose proof (GET _ J) as G. 
    assert (NE : exists r m, in_limits lm rm w r /\ dget f (w ++ r) = Some m).
    { destruct inner as [|[r m] inner]; [exfalso; unfold full in FU; rewrite Forall_forall in FU; apply (FU _ J); reflexivity|]. exists r, m.
      assert (X : pget (lr g) w r = Some m) by (unfold pget; rewrite G; cbn [dget]; rewrite eqb_refl; reflexivity).
      rewrite U in X. destruct (in_window lm rm w r) eqn:W; [|discriminate]. split; [apply (window_spec lm rm w r P), W|exact X]. }
    split; [exact NE|]. destruct NE as (r & m & LI & _). unfold dgetd. assert (X : pget (lr g) w [] = dget f (w ++ [])) by (rewrite U, (WN r LI); reflexivity).
    unfold pget in X. rewrite G, app_nil_r in X. rewrite X. reflexivity.
  - intros (A & B & (r & m & LI & F) & ->). assert (X : pget (lr g) w r = Some m) by (rewrite U, (proj2 (window_spec lm rm w r P) LI); exact F).
    unfold pget in X. destruct (dget (lr g) w) as [inner|] eqn:G; [|discriminate]. exists (w, inner). cbn [fst snd]. split.
    + f_equal. assert (Y : pget (lr g) w [] = dget f (w ++ [])) by (rewrite U, (WN r LI); reflexivity). unfold pget in Y. rewrite G, app_nil_r in Y. unfold dgetd. rewrite Y. reflexivity.
    + apply filter_In. split; [apply dget_In, G|]. cbn [fst]. apply andb_true_iff. split; [apply Nat.leb_le, A|]. apply negb_true_iff, KN, B.
Qed.

(** the whole of extract_compounds *)
Lemma compounds_all features scores ms lm rm ec g g' : NoDup (map fst (ec_counter ec)) -> NoDup (map fst scores) -> 1 < lm -> 0 < rm ->
  Forall (fun p => Forall (fun c => nonspace c = true) (fst p)) (ec_counter ec) -> train_counter ec lm rm = Ok g -> reach g g' ->
  exists st comps, extract_compounds features g' scores ms = Ok (st, comps) /\ reach g (c_graph st) /\ NoDup (map fst comps) /\
  compound_table features scores ms lm rm (ec_counter ec) comps.
Proof.
  intros NE NS A B NSP TR RE. destruct (trained_uni ec lm rm NE A B) as (g0 & E0 & U & O & RL). rewrite TR in E0. injection E0 as <-.
  assert (OR : origin g' = Some (lr g)).
  { destruct RE as (ops & F & ->). destruct (history_origin ops F g (proj1 U)) as (X & _). rewrite X. exact O. }
  assert (FU : full (lr g)).
  { destruct (to_lrgraph_ok ec lm rm false A B) as (g1 & E1 & L1 & _). unfold train_counter in TR. rewrite TR in E1. injection E1 as <-. rewrite L1. apply to_lrgraph_wf. }
  unfold extract_compounds. rewrite OR. set (D := decomposer_scores scores ms).
  set (cand := compound_candidates (lr g) D). set (cs := sort _ cand).
  assert (CC : forall w n, In (w, n) cs <-> compound_candidate lm rm (ec_counter ec) scores ms w n).
  { intros w n. unfold cs. rewrite sort_In. unfold cand, D. apply candidates_origin; try assumption; lia. }
  assert (OKW : forall w n, compound_candidate lm rm (ec_counter ec) scores ms w n -> w <> [] /\ Forall (fun c => nonspace c = true) w /\ ~ known_part scores ms w).
  { intros w n (L & K & (r & m & _ & F) & _). split; [intros ->; cbn in L; lia|]. split; [|exact K]. apply dget_In in F. rewrite Forall_forall in NSP. specialize (NSP _ F). cbn [fst] in NSP. apply Forall_app in NSP. apply NSP. }
  assert (FT : Forall (fun wc : str * Z => exists ts, decompose_tokens D (fst wc) = Ok ts) cs).
  { apply Forall_forall. intros [w n] I. apply CC, OKW in I as (X & Y & _). destruct (tokens_spec D w X Y) as (ts & E & _). eauto. }
  destruct (comp_loop features scores D g cs FT (mkC g' cand [] [] []) RE) as (st & E & R & SC & CT). cbn [c_scores c_counts] in SC, CT.
  rewrite E. cbn [bind]. eexists st, _. split; [reflexivity|]. split; [exact R|].
  assert (NDS : NoDup (map fst (c_scores st))) by (rewrite SC; apply group_wf; constructor).
  split; [rewrite map_map; exact NDS|]. intros noun. exists (filter (isk (ckey features D) noun) cs).
  assert (NCS : NoDup (map fst cs)).
  { unfold cs. eapply Permutation_NoDup; [apply Permutation_map, Permutation_sym, sort_perm|]. unfold cand, compound_candidates. rewrite map_map. cbn [fst].
    apply (NoDup_filter_map (K:=str)). apply (inv_lr g (proj1 U)). }
  assert (WS : forall w n, In (w, n) (filter (isk (ckey features D) noun) cs) <-> compound_candidate lm rm (ec_counter ec) scores ms w n /\ exists p, makes features scores ms w p noun).
  { intros w n. rewrite filter_In, CC. unfold isk, ckey. cbn [fst]. split.
    - intros [I H]. split; [exact I|]. destruct (OKW _ _ I) as (X & Y & Z). destruct (parts_of features D w) as [p|] eqn:P; [|discriminate]. apply eqb_eq in H. exists p. apply parts_makes; auto.
    - intros [I (p & M)]. split; [exact I|]. destruct (OKW _ _ I) as (X & Y & Z). apply parts_makes in M; auto. destruct M as [M <-]. unfold D. rewrite M. apply eqb_refl. }
  split; [apply (NoDup_filter_map (K:=str)); exact NCS|]. split; [exact WS|].
  assert (GC : dget (map (fun p : str * Q => (fst p, (snd p, inject_Z (dgetd (c_counts st) (fst p) 0)))) (c_scores st)) noun =
     match dget (c_scores st) noun with Some s => Some (s, inject_Z (dgetd (c_counts st) noun 0)) | None => None end).
  { clear. induction (c_scores st) as [|[k v] d IH]; [reflexivity|]. cbn [map dget fst snd]. destruct (eqb_spec k noun) as [->|n]; [reflexivity|exact IH]. }
  rewrite GC, SC, group_get. cbn [dget]. unfold gval. destruct (filter (isk (ckey features D) noun) cs) as [|x l] eqn:EF; [reflexivity|].
  assert (PX : forall w n, In (w, n) (x :: l) -> exists p, parts_of features D w = Some p /\ concat p = noun /\ makes features scores ms w p noun).
  { intros w n I. apply WS in I as [I (p & M)]. exists p. destruct (OKW _ _ I) as (X & Y & Z). pose proof M as M'. apply parts_makes in M'; auto. destruct M' as [M1 M2]. auto. }
  split; [discriminate|]. split; [|].
  - f_equal. unfold dgetd. rewrite CT, group_get, EF. cbn [dget gval]. unfold gval. clear. change (fold_left fcount (x :: l) 0) with (fold_left (fun acc (y : str * Z) => acc + snd y) (x :: l) 0).
    rewrite Zsum_fold. rewrite Z.add_0_l. induction (x :: l) as [|y l' IH]; [reflexivity|]. cbn [Zsum map fold_right]. rewrite IH. reflexivity.
  - assert (MX : forall l0 z, (z <= fold_left (fscore features scores D) l0 z)%Q /\ (forall y, In y l0 -> (cscore features scores D y <= fold_left (fscore features scores D) l0 z)%Q) /\
               (fold_left (fscore features scores D) l0 z = z \/ exists y, In y l0 /\ fold_left (fscore features scores D) l0 z = cscore features scores D y)).
    { clear. induction l0 as [|y l0 IH]; intros z; cbn [fold_left]; [split; [lra|]; split; [intros y []|auto]|].
      destruct (IH (fscore features scores D z y)) as (P1 & P2 & P3).
      assert (X1 : (z <= fscore features scores D z y)%Q /\ (cscore features scores D y <= fscore features scores D z y)%Q /\ (fscore features scores D z y = z \/ fscore features scores D z y = cscore features scores D y)).
      { unfold fscore. destruct (Qle_bool (cscore features scores D y) z) eqn:Q; [apply Qle_bool_iff in Q; split; [lra|auto]|]. assert (z < cscore features scores D y)%Q by (apply Qnot_le_lt; intros H; apply Qle_bool_iff in H; congruence). split; [lra|]. split; [lra|auto]. }
      destruct X1 as (X1 & X2 & X3). split; [lra|]. split.
      - intros y' [<-|I]; [lra|apply P2, I].
      - destruct P3 as [P3|(y' & I & P3)]; [|right; exists y'; split; [right; exact I|exact P3]]. rewrite P3. destruct X3 as [X3|X3]; [left; exact X3|right; exists y; split; [left; reflexivity|exact X3]]. }
    destruct (MX (x :: l) 0%Q) as (M1 & M2 & M3). split; [exact M1|].
    assert (QM : forall w n p, In (w, n) (x :: l) -> parts_of features D w = Some p -> In (cscore features scores D (w, n)) (map (part_score scores) p) /\ forall t, In t p -> (part_score scores t <= cscore features scores D (w, n))%Q).
    { intros w n p _ P. unfold cscore. cbn [fst]. rewrite P. pose proof (parts_nonempty _ _ _ _ P) as NP. destruct p as [|t0 p]; [congruence|]. unfold qmax_of. cbn [map].
      destruct (qmax_spec (map (part_score scores) p) (part_score scores t0)) as [Q1 Q2]. split; [exact Q1|]. intros t I. apply Q2. destruct I as [<-|I]; [left; reflexivity|right; apply in_map_iff; eauto]. }
    split.
    + intros w n p t I M IT. destruct (PX w n I) as (p' & P' & _ & M'). assert (p' = p) by (destruct M as (M & _), M' as (M' & _); congruence). subst p'.
      destruct (QM w n p I P') as [_ Q]. specialize (Q t IT). specialize (M2 (w, n) I). lra.
    + destruct M3 as [M3|([w n] & I & M3)]; [left; exact M3|]. right. destruct (PX w n I) as (p & P & _ & M). destruct (QM w n p I P) as [Q _]. apply in_map_iff in Q as (t & Q & IT). exists w, n, p, t. rewrite M3. auto.
Qed.
