(** * Proofs about the part-of-speech extractors: the repairs of the chat extractor *)
From Coq Require Import QArith Permutation.
From Verif Require Import PyBase PyDict CountLemmas PyText HangleModel TokenizerModel UtilsModel UtilsSpec UtilsProofs NounModel JosaProofs LemmaModel PredModel NewsSpec NewsProofs2 NewsProofs6 PosModel PosSpec PosProofs PosProofs2 PosProofs3.
Open Scope Z_scope.

Definition counts_of (cs : dict str predicator) : dict str Z := map (fun wp : str * predicator => (fst wp, fst (snd wp))) cs.
Definition trips (cs : dict str predicator) : list (str * str * Z) := concat (map (fun wp : str * predicator => map (fun se : str * str => (fst se, snd se, fst (snd wp))) (snd (snd wp))) cs).
Lemma fold_incs_inner (ls : list (str * str)) n : forall g, fold_left (fun g (se : str * str) => inc2 g (fst se) (snd se) n) ls g = incs (map (fun se : str * str => (fst se, snd se, n)) ls) g.
Proof. induction ls as [|se ls IH]; intros g; [reflexivity|]. cbn [fold_left map]. rewrite IH. reflexivity. Qed.
Lemma stem_graph_incs cs : stem_graph cs = incs (trips cs) [].
Proof.
  unfold stem_graph, trips. generalize (@nil (str * dict str Z)) as g. induction cs as [|wp cs IH]; intros g; [reflexivity|]. cbn [fold_left map concat]. rewrite IH, fold_incs_inner. symmetry. apply incs_app.
Qed.
Lemma filter_map_comm {A B} (p : B -> bool) (f : A -> B) l : filter p (map f l) = map f (filter (fun y => p (f y)) l).
Proof. induction l as [|y l IH]; [reflexivity|]. cbn [map filter]. destruct (p (f y)); cbn [map]; rewrite IH; reflexivity. Qed.
Lemma weight_fun x A Q s n n' : weight x A Q s n -> weight x A Q s n' -> n = n'.
Proof.
  intros (es & N & I & f & F & ->) (es' & N' & I' & f' & F' & ->). assert (PM : Permutation es es') by (apply NoDup_Permutation; [exact N|exact N'|intros e; rewrite I, I'; reflexivity]).
  rewrite (Zsum_perm f _ _ PM). apply Zsum_ext. intros e H. eapply how_much_fun; [apply F|apply F', H]. apply (Permutation_in _ (Permutation_sym PM)), H.
Qed.
Lemma filter_NoDup_one (ls : list (str * str)) s e : NoDup ls -> filter (fun se : str * str => eqb (fst se) s && eqb (snd se) e) ls = if mem (s, e) ls then [(s, e)] else [].
Proof.
  induction 1 as [|[s' e'] ls NI N IH]; [reflexivity|]. cbn [filter fst snd]. rewrite IH. 
  destruct (mem (s, e) ((s', e') :: ls)) eqn:M.
  - apply mem_In in M. destruct (eqb_spec s' s) as [->|X]; [destruct (eqb_spec e' e) as [->|Y]|]; cbn [andb].
    + destruct (mem (s, e) ls) eqn:M2; [|reflexivity]. apply mem_In in M2. contradiction.
    + destruct M as [[= H]|M]; [congruence|]. apply (proj2 (mem_In _ _)) in M. rewrite M. reflexivity.
    + destruct M as [[= H]|M]; [congruence|]. apply (proj2 (mem_In _ _)) in M. rewrite M. reflexivity.
  - assert (NM : ~ In (s, e) ((s', e') :: ls)) by (intros I; apply (proj2 (mem_In _ _)) in I; congruence). assert (M2 : mem (s, e) ls = false) by (destruct (mem (s, e) ls) eqn:M2; [exfalso; apply NM; right; apply (proj1 (mem_In _ _)), M2|reflexivity]). rewrite M2.
    destruct (eqb_spec s' s) as [->|X]; [destruct (eqb_spec e' e) as [->|Y]|]; cbn [andb]; [exfalso; apply NM; left; reflexivity|reflexivity|reflexivity].
Qed.
Section Repair.
  Variable x : posx.
  Let E := x_eoj x.
  Variable cs : dict str predicator.
  Variable A : str -> str -> str -> Prop.
  Hypothesis NC : NoDup (dkeys cs).
  Hypothesis SC : sub E (counts_of cs) (fun w => exists s e, A w s e).
  Hypothesis HC : forall w n ls, In (w, (n, ls)) cs -> NoDup ls /\ ls <> [] /\ (forall s e, In (s, e) ls <-> A w s e) /\ 0 < n.
  Lemma cs_entry w : (exists s e, A w s e) -> exists n ls, In (w, (n, ls)) cs.
  Proof. intros H. apply (sub_In E _ _ w SC) in H. unfold counts_of, dkeys in H. rewrite map_map in H. apply in_map_iff in H as ([w' [n ls]] & Q & I). cbn [fst snd] in Q. subst w'. eauto. Qed.
  Lemma trips_In t : In t (trips cs) <-> exists w n ls, In (w, (n, ls)) cs /\ snd t = n /\ In (fst t) ls.
  Proof.
    unfold trips. rewrite in_concat. split.
    - intros (L & I & J). apply in_map_iff in I as ([w [n ls]] & <- & I). cbn [fst snd] in J. apply in_map_iff in J as ([s e] & <- & J). exists w, n, ls. cbn [fst snd]. auto.
    - intros (w & n & ls & I & <- & J). eexists. split; [apply in_map_iff; exists (w, (snd t, ls)); split; [reflexivity|exact I]|]. cbn [fst snd]. apply in_map_iff. exists (fst t). split; [destruct t as [[s e] n]; reflexivity|exact J].
  Qed.
  Lemma tsum_at s e : how_much (fun w => A w s e) E (tsum (filter (at_pair s e) (trips cs))).
  Proof.
    assert (EQ : tsum (filter (at_pair s e) (trips cs)) = Zsum (fun wc : str * Z => if (match dget cs (fst wc) with Some p => mem (s, e) (snd p) | None => false end) then snd wc else 0) (counts_of cs)).
    { unfold counts_of. rewrite Zsum_map. cbn [fst snd]. transitivity (Zsum (fun wp : str * predicator => if mem (s, e) (snd (snd wp)) then fst (snd wp) else 0) cs).
      - assert (H : forall w n ls, In (w, (n, ls)) cs -> NoDup ls) by (intros w n ls I; apply (HC w n ls I)). clear - H. unfold trips. induction cs as [|[w [n ls]] cs' IH]; [reflexivity|]. cbn [map concat Zsum fst snd]. rewrite filter_app. unfold tsum in *. rewrite map_app.
        assert (ZA : forall a b, zsum (a ++ b) = zsum a + zsum b) by (clear; intros a b; induction a as [|y a IH]; [reflexivity|]; cbn [app zsum fold_right] in *; unfold zsum in *; lia). rewrite ZA, IH by (intros w' n' ls' I; apply (H w' n' ls'); right; exact I). f_equal.
        rewrite filter_map_comm. rewrite (filter_ext _ (fun se : str * str => eqb (fst se) s && eqb (snd se) e)) by (intros [a b]; reflexivity). rewrite filter_NoDup_one by (apply (H w n ls); left; reflexivity). destruct (mem (s, e) ls); cbn; lia.
      - apply Zsum_ext. intros [w [n ls]] I. cbn [fst snd]. assert (D : dget cs w = Some (n, ls)) by (apply (dget_In_iff _ _ _ NC), I). rewrite D. reflexivity. }
    rewrite EQ. apply (sub_sum E (counts_of cs) _ (fun w => match dget cs w with Some p => mem (s, e) (snd p) | None => false end) (fun w => A w s e) SC); [intros w H; exists s, e; exact H|]. intros w H. apply cs_entry in H as (n & ls & I). rewrite (proj2 (dget_In_iff _ _ _ NC) I). cbn [snd]. rewrite mem_In. apply (HC w n ls I).
  Qed.
  Lemma filter_at_nil s e : filter (at_pair s e) (trips cs) = [] <-> ~ exists w, A w s e.
  Proof.
    split.
    - intros H [w AW]. destruct (cs_entry w) as (n & ls & I); [eauto|]. assert (J : In (s, e, n) (filter (at_pair s e) (trips cs))); [|rewrite H in J; destruct J]. apply filter_In. split; [apply trips_In; exists w, n, ls; cbn [fst snd]; split; [exact I|]; split; [reflexivity|apply (HC w n ls I), AW]|].
      unfold at_pair. cbn [fst snd]. rewrite !eqb_refl. reflexivity.
    - intros H. destruct (filter (at_pair s e) (trips cs)) as [|t T] eqn:F; [reflexivity|]. exfalso. apply H. assert (J : In t (filter (at_pair s e) (trips cs))) by (rewrite F; left; reflexivity). apply filter_In in J as [J B]. apply trips_In in J as (w & n & ls & I & _ & J).
      unfold at_pair in B. apply andb_true_iff in B as [B1 B2]. apply eqb_eq in B1, B2. destruct t as [[s' e'] m]. cbn [fst snd] in *. subst s' e'. exists w. apply (HC w n ls I), J.
  Qed.
  Lemma tsum_pos s e : (exists w, A w s e) -> 0 < tsum (filter (at_pair s e) (trips cs)).
  Proof.
    intros H. assert (NN : filter (at_pair s e) (trips cs) <> []) by (intros X; apply (proj1 (filter_at_nil s e)) in X; contradiction).
    assert (P : forall t, In t (filter (at_pair s e) (trips cs)) -> 0 < snd t) by (intros t I; apply filter_In in I as [I _]; apply trips_In in I as (w & n & ls & I & <- & _); apply (HC _ _ _ I)).
    destruct (filter (at_pair s e) (trips cs)) as [|t T]; [congruence|]. clear - P. unfold tsum. cbn [map]. assert (0 <= zsum (map snd T)); [|pose proof (P t (or_introl eq_refl)); unfold zsum in *; cbn [fold_right]; lia].
    assert (P' : forall t, In t T -> 0 < snd t) by (intros; apply P; right; assumption). clear P. induction T as [|y T IH]; [cbn; lia|]. cbn [map]. pose proof (P' y (or_introl eq_refl)). assert (0 <= zsum (map snd T)) by (apply IH; intros; apply P'; right; assumption). unfold zsum in *. cbn [fold_right]. lia.
  Qed.
  Lemma row_spec s row : dget (stem_graph cs) s = Some row -> NoDup (dkeys row) /\ row <> [] /\
    (forall e, In e (dkeys row) <-> exists w, A w s e) /\ forall e n, In (e, n) row -> n = tsum (filter (at_pair s e) (trips cs)) /\ 0 < n.
  Proof.
    intros D. assert (G : is_graph (stem_graph cs)) by (rewrite stem_graph_incs; apply gwf_incs; split; constructor).
    assert (ND : NoDup (dkeys row)) by (destruct G as [_ G]; rewrite Forall_forall in G; apply (G (s, row)), dget_In, D).
    assert (PG : forall e, dget row e = match filter (at_pair s e) (trips cs) with [] => None | M => Some (tsum M) end).
    { intros e. pose proof (pget_incs (trips cs) [] s e) as P. rewrite <- stem_graph_incs in P. unfold pget in P at 1. rewrite D in P. rewrite P. change (pget [] s e) with (@None Z). destruct (filter (at_pair s e) (trips cs)); reflexivity. }
    assert (KE : forall e, In e (dkeys row) <-> exists w, A w s e).
    { intros e. rewrite <- dget_keys, PG. destruct (filter (at_pair s e) (trips cs)) as [|t T] eqn:F.
      - apply filter_at_nil in F. split; [congruence|contradiction].
      - split; [|discriminate]. intros _. destruct (In_dec_str e (dkeys row)) as [I|I]; apply dget_keys in I || idtac.
        + assert (NN : filter (at_pair s e) (trips cs) <> []) by (rewrite F; discriminate). assert (J : In t (filter (at_pair s e) (trips cs))) by (rewrite F; left; reflexivity). apply filter_In in J as [J B]. apply trips_In in J as (w & n & ls & I' & _ & J).
          unfold at_pair in B. apply andb_true_iff in B as [B1 B2]. apply eqb_eq in B1, B2. destruct t as [[s' e'] m]. cbn [fst snd] in *. subst s' e'. exists w. apply (HC w n ls I'), J.
        + exfalso. apply I. apply dget_keys. rewrite PG, F. discriminate. }
    split; [exact ND|]. split; [|split; [exact KE|]].
    - assert (H0 : forall (a : str) (d : dict str Z), dget [] a = Some d -> d <> []) by (intros a d H; discriminate H). apply (incs_row_nonempty (trips cs) [] H0 s row). rewrite <- stem_graph_incs. exact D.
    - intros e n I. assert (DE : dget row e = Some n) by (apply (dget_In_iff _ _ _ ND), I). rewrite PG in DE. assert (n = tsum (filter (at_pair s e) (trips cs))) by (destruct (filter (at_pair s e) (trips cs)); congruence).
      split; [assumption|]. subst n. apply tsum_pos. apply KE. apply In_dkeys_fst. eauto.
  Qed.
  Lemma graph_keys s : In s (dkeys (stem_graph cs)) <-> exists w e, A w s e.
  Proof.
    rewrite stem_graph_incs. split.
    - intros I. apply dget_keys in I. destruct (dget (incs (trips cs) []) s) as [row|] eqn:D; [|congruence]. rewrite <- stem_graph_incs in D. destruct (row_spec s row D) as (_ & NN & K & _). destruct row as [|[e n] row]; [congruence|]. destruct (proj1 (K e)) as [w H]; [left; reflexivity|]. eauto.
    - intros (w & e & H). apply dget_keys. intros D. pose proof (pget_incs (trips cs) [] s e) as P. unfold pget in P at 1. rewrite D in P. change (pget [] s e) with (@None Z) in P. destruct (filter (at_pair s e) (trips cs)) eqn:F; [|discriminate]. apply filter_at_nil in F. apply F. eauto.
  Qed.
  Lemma wrong_stem_spec s : In s (find_wrong_stem cs) <-> wrong_stem x A s.
  Proof.
    unfold find_wrong_stem. assert (G : NoDup (dkeys (stem_graph cs))) by (rewrite stem_graph_incs; apply (gwf_incs (trips cs) []); split; constructor).
    assert (R : In s (map fst (filter (fun sr : str * dict str Z => Qle_bool (9 # 10) (jaum_begin_prop (snd sr))) (stem_graph cs))) <-> exists row, dget (stem_graph cs) s = Some row /\ Qle_bool (9 # 10) (jaum_begin_prop row) = true).
    { rewrite in_map_iff. split.
      - intros ([s' row] & <- & I). apply filter_In in I as [I B]. exists row. split; [apply (dget_In_iff _ _ _ G), I|exact B].
      - intros (row & D & B). exists (s, row). split; [reflexivity|]. apply filter_In. split; [apply dget_In, D|exact B]. }
    rewrite R. clear R.
    assert (W : forall row, dget (stem_graph cs) s = Some row -> exists k n, weight x A letter_ending s k /\ weight x A (fun _ => True) s n /\ 0 < n /\ (Qle_bool (9 # 10) (jaum_begin_prop row) = true <-> 9 * n <= 10 * k)).
    { intros row D. destruct (row_spec s row D) as (ND & NN & KE & CN).
      set (f := fun e => tsum (filter (at_pair s e) (trips cs))).
      set (lb := fun e : str => match e with [] => false | c :: _ => mem c jaum_list end).
      assert (LB : forall e, lb e = true <-> letter_ending e).
      { intros [|c t]; cbn [lb]; [split; [discriminate|intros (c & t & H & _); discriminate]|]. split; [intros M; exists c, t; split; [reflexivity|apply (proj1 (mem_In _ _)), M]|]. intros (c' & t' & H & I). injection H as -> ->. apply (proj2 (mem_In _ _)), I. }
      exists (Zsum f (filter lb (dkeys row))), (Zsum f (dkeys row)).
      assert (SR : forall b : str -> bool, Zsum (fun rc : str * Z => if b (fst rc) then snd rc else 0) row = Zsum f (filter b (dkeys row))).
      { intros b. assert (H : forall e n, In (e, n) row -> n = f e) by (intros e n I; apply (CN e n I)). clear - H. induction row as [|[e n] row IH]; [reflexivity|]. cbn [Zsum dkeys map filter fst snd]. rewrite IH by (intros; apply H; right; assumption).
        rewrite (H e n (or_introl eq_refl)). destruct (b e); cbn [Zsum]; unfold dkeys; lia. }
      split; [|split; [|split]].
      - exists (filter lb (dkeys row)). split; [apply NoDup_filter, ND|]. split; [intros e; rewrite filter_In, KE, LB; tauto|]. exists f. split; [intros e _; apply tsum_at|reflexivity].
      - exists (dkeys row). split; [exact ND|]. split; [intros e; rewrite KE; tauto|]. exists f. split; [intros e _; apply tsum_at|reflexivity].
      - destruct row as [|[e n] row']; [congruence|]. pose proof (CN e n (or_introl eq_refl)) as [EN PN]. cbn [dkeys map fst Zsum]. fold (f e) in EN. rewrite <- EN. assert (0 <= Zsum f (map fst row')); [|lia]. apply Zsum_nonneg. intros e' I. apply in_map_iff in I as ([e'' n'] & <- & I). cbn [fst]. destruct (CN e'' n' (or_intror I)) as [Q1 Q2]. fold (f e'') in Q1. lia.
      - assert (PN : 0 < Zsum f (dkeys row)).
        { destruct row as [|[e n] row']; [congruence|]. pose proof (CN e n (or_introl eq_refl)) as [EN PN]. cbn [dkeys map fst Zsum]. fold (f e) in EN. rewrite <- EN. assert (0 <= Zsum f (map fst row')); [|lia]. apply Zsum_nonneg. intros e' I. apply in_map_iff in I as ([e'' n'] & <- & I). cbn [fst]. destruct (CN e'' n' (or_intror I)) as [Q1 Q2]. fold (f e'') in Q1. lia. }
        unfold jaum_begin_prop.
        assert (S1 : Zsum snd row = Zsum f (dkeys row)).
        { rewrite (Zsum_ext snd (fun rc : str * Z => if (fun _ : str => true) (fst rc) then snd rc else 0)) by (intros; reflexivity). rewrite (SR (fun _ => true)). f_equal. clear. induction (dkeys row) as [|y l IH]; [reflexivity|]. cbn [filter]. rewrite IH. reflexivity. }
        assert (S2 : Zsum (fun rc : str * Z => match fst rc with [] => 0 | y :: _ => if mem y jaum_list then snd rc else 0 end) row = Zsum f (filter lb (dkeys row))).
        { rewrite <- SR. apply Zsum_ext. intros [[|c t] n] _; reflexivity. }
        rewrite S1, S2. destruct (Z.eqb_spec (Zsum f (dkeys row)) 0) as [Z0|_]; [lia|]. rewrite Qle_bool_iff. change (inject_Z ?a) with (zq a). rewrite ratio_ge by exact PN. unfold zq, Qle, Qmult, inject_Z. cbn [Qnum Qden]. lia. }
    split.
    - intros (row & D & B). destruct (W row D) as (k & n & W1 & W2 & PN & IFF). split; [apply graph_keys, dget_keys; congruence|]. exists k, n. split; [exact W1|]. split; [exact W2|]. split; [exact PN|apply IFF, B].
    - intros (H & k & n & W1 & W2 & PN & LE). apply graph_keys in H. apply dget_keys in H. destruct (dget (stem_graph cs) s) as [row|] eqn:D; [|congruence]. exists row. split; [reflexivity|]. destruct (W row eq_refl) as (k' & n' & W1' & W2' & _ & IFF). apply IFF. rewrite (weight_fun _ _ _ _ _ _ W1' W1), (weight_fun _ _ _ _ _ _ W2' W2). exact LE.
  Qed.
End Repair.
