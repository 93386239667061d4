(** * Proofs about the part-of-speech extractors: the last stages and the whole extraction *)
From Coq Require Import QArith Permutation.
From Verif Require Import PyBase PyDict PySort CountLemmas PyText HangleModel TokenizerModel UtilsModel NounModel JosaProofs LemmaModel PredModel PosModel PosSpec PosProofs PosProofs2 PosProofs3 PosProofs4 PosProofs5 PosProofs6 PosProofs7.
Open Scope Z_scope.

(** ** the tokenizer *)
Lemma ms_ext sc sc' w : (forall s, dgetd sc s 0%Q = dgetd sc' s 0%Q) -> ms_recursive sc 0%Q 10 w = ms_recursive sc' 0%Q 10 w.
Proof.
  intros H. unfold ms_recursive. destruct (length w <=? 2)%nat; [reflexivity|].
  assert (I : forall n m, ms_initialize sc 0%Q w n m = ms_initialize sc' 0%Q w n m).
  { intros n m. unfold ms_initialize. f_equal. unfold ms_candidates. apply flat_map_ext. intros b. apply flat_map_ext. intros r. rewrite H. reflexivity. }
  rewrite I. destruct (ms_find _) as [|r0 rs]; [reflexivity|]. unfold ms_last, ms_first. rewrite !H. reflexivity.
Qed.
Lemma split_word w : w <> [] -> Forall (fun c => is_space c = false) w -> split w = [w].
Proof.
  intros NN F. pose proof (split_join [w]) as H. cbn [concat] in H. assert (P : Forall (fun w : str => w <> [] /\ Forall (fun c => nonspace c = true) w) [w]).
  { constructor; [|constructor]. split; [exact NN|]. eapply Forall_impl; [|exact F]. intros c C. unfold nonspace. rewrite C. reflexivity. }
  specialize (H P). exact H.
Qed.
Lemma dget_ones (L : list str) n : dget (map (fun n => (n, 1%Q)) L) n = if mem n L then Some 1%Q else None.
Proof. induction L as [|m L IH]; [reflexivity|]. cbn [map dget mem existsb]. fold (mem n L). destruct (eqb_spec m n) as [->|X]; [rewrite eqb_refl; reflexivity|]. rewrite IH. destruct (eqb_spec n m) as [->|_]; [congruence|]. reflexivity. Qed.
Section Last.
  Variable chat : bool.
  Variable x : posx.
  Let E := x_eoj x.
  Hypothesis NE : NoDup (dkeys E).
  Hypothesis WE : forall w, In w (dkeys E) -> w <> [] /\ Forall (fun c => is_space c = false) w.
  Variables nouns : dict str Z.
  Hypothesis HN : forall n, In n (dkeys nouns) <-> N5 chat x n.
  Lemma first_tokens_iff w ts : In w (dkeys E) -> (first_tokens nouns w = Ok ts <-> tokens chat x w ts).
  Proof.
    intros I. destruct (WE w I) as [NN F]. unfold first_tokens. set (sc := map (fun n : str => (n, 1%Q)) (filter (fun n => (1 <? length n)%nat) (dkeys nouns))).
    assert (G : forall n, dget sc n = if mem n (filter (fun n => (1 <? length n)%nat) (dkeys nouns)) then Some 1%Q else None) by (intros n; apply dget_ones).
    assert (M : forall n, mem n (filter (fun n : str => (1 <? length n)%nat) (dkeys nouns)) = true <-> N5 chat x n /\ (2 <= length n)%nat) by (intros n; rewrite mem_In, filter_In, HN, Nat.ltb_lt; reflexivity).
    assert (S1 : forall n, dget sc n = Some 1%Q <-> N5 chat x n /\ (2 <= length n)%nat) by (intros n; rewrite G, <- M; destruct (mem n _); split; congruence).
    assert (S2 : forall n q, dget sc n = Some q -> q = 1%Q) by (intros n q; rewrite G; destruct (mem n _); congruence).
    unfold ms_tokenize. rewrite (split_word w NN F). cbn [mapM]. split.
    - destruct (ms_recursive sc 0%Q 10 w) as [ts'|] eqn:R; [|discriminate]. cbn [bind]. intros [= ->]. exists sc. auto.
    - intros (sc' & H1 & H2 & R). assert (EQ : forall s, dgetd sc s 0%Q = dgetd sc' s 0%Q).
      { intros s. unfold dgetd. destruct (dget sc s) as [q|] eqn:D.
        - pose proof (S2 s q D). subst q. apply S1, H1 in D. rewrite D. reflexivity.
        - destruct (dget sc' s) as [q|] eqn:D'; [|reflexivity]. pose proof (H2 s q D'). subst q. apply H1, S1 in D'. congruence. }
      rewrite (ms_ext _ _ w EQ), R. reflexivity.
  Qed.
  Lemma parse_compound_iff suffix ts n : (forall t, suffix t = true <-> N5 chat x t \/ A4 chat x t \/ V4 chat x t \/ J2 x t) -> (parse_compound suffix ts = Some n <-> joined chat x ts n).
  Proof.
    intros HS. unfold parse_compound, joined. destruct ts as [|t0 ts0] using rev_ind.
    - cbn. split; [discriminate|]. intros (init & t & Q & _). destruct init; discriminate.
    - clear IHts0. rewrite removelast_last, rev_app_distr, app_length. cbn [rev app length].
      assert (U : forall init t, ts0 ++ [t0] = init ++ [t] -> init = ts0 /\ t = t0) by (intros init t Q; apply app_inj_tail in Q as [-> ->]; auto).
      assert (QP : forall q, Qle_bool q 0 = false <-> (0 < q)%Q).
      { intros q. rewrite <- not_true_iff_false, Qle_bool_iff. split; [apply Qnot_le_lt|apply Qlt_not_le]. }
      destruct (existsb (fun t => Qle_bool (tsc t) 0) ts0) eqn:EX.
      + split; [discriminate|]. intros (init & t & Q & P & _). apply U in Q as [-> ->]. apply existsb_exists in EX as (k & I & B). apply P in I. apply QP in I. congruence.
      + assert (P : forall k, In k ts0 -> (0 < tsc k)%Q).
        { intros k I. apply QP. destruct (Qle_bool (tsc k) 0) eqn:B; [|reflexivity]. assert (existsb (fun t => Qle_bool (tsc t) 0) ts0 = true) by (apply existsb_exists; eauto). congruence. }
        assert (SP : ((3 <=? length ts0 + 1)%nat && suffix (tw t0)) = true <-> ((2 <= length ts0)%nat /\ (N5 chat x (tw t0) \/ A4 chat x (tw t0) \/ V4 chat x (tw t0) \/ J2 x (tw t0)))).
        { rewrite andb_true_iff, Nat.leb_le, HS. split; intros [A B]; split; try assumption; lia. }
        destruct ((3 <=? length ts0 + 1)%nat && suffix (tw t0)).
        * assert (S0 := proj1 SP eq_refl). split.
          -- intros [= <-]. exists ts0, t0. split; [reflexivity|]. split; [exact P|]. left. auto.
          -- intros (init & t & Q & _ & H). apply U in Q as [-> ->]. cbv zeta in H. destruct H as [[_ ->]|(NS & _)]; [reflexivity|contradiction].
        * assert (S0 : ~ ((2 <= length ts0)%nat /\ (N5 chat x (tw t0) \/ A4 chat x (tw t0) \/ V4 chat x (tw t0) \/ J2 x (tw t0)))) by (intros X; apply SP in X; discriminate).
          rewrite map_app, concat_app. cbn [map concat]. rewrite app_nil_r. destruct (Qle_bool (tsc t0) 0) eqn:B; cbn [negb].
          -- split; [discriminate|]. intros (init & t & Q & _ & H). apply U in Q as [-> ->]. cbv zeta in H. destruct H as [[X _]|(_ & X & _)]; [contradiction|]. apply QP in X. congruence.
          -- apply QP in B. split.
             ++ intros [= <-]. exists ts0, t0. split; [reflexivity|]. split; [exact P|]. right. auto.
             ++ intros (init & t & Q & _ & H). apply U in Q as [-> ->]. cbv zeta in H. destruct H as [[X _]|(_ & _ & ->)]; [contradiction|reflexivity].
  Qed.
  Variables (adjs verbs josas : dict str Z).
  Hypothesis HA : forall w, In w (dkeys adjs) <-> A4 chat x w.
  Hypothesis HV : forall w, In w (dkeys verbs) <-> V4 chat x w.
  Hypothesis HJ : forall w, In w (dkeys josas) <-> J2 x w.
  Hypothesis CH : chat = false.
  Variables e e' nouns' : dict str Z.
  Hypothesis S : sub E e (rest6 chat x).
  Lemma rest6_E w : rest6 chat x w -> In w (dkeys E).
  Proof. intros [[[[[[R _] _] _] _] _] _]. apply R. Qed.
  Lemma compound_nouns_spec : match_compound_nouns e nouns adjs verbs josas = Ok (e', nouns') ->
    sub E e' (rest7 chat x) /\ (forall n, In n (dkeys nouns') <-> N7 chat x n) /\ (NoDup (dkeys nouns) -> NoDup (dkeys nouns')) /\
    forall n, exists k, how_much (fun w => cn chat x w n) E k /\ dgetd nouns' n 0 = dgetd nouns n 0 + k.
  Proof.
    unfold match_compound_nouns. set (suffix := fun w => dmem nouns w || dmem adjs w || dmem verbs w || dmem josas w).
    set (f := fun w => match first_tokens nouns w with Ok ts => parse_compound suffix ts | Err _ => None end).
    destruct (mapM _ e) as [found|] eqn:M; [|discriminate]. cbn [bind]. intros EQ.
    assert (FD : found = map (fun wc : str * Z => (wc, f (fst wc))) e /\ forall w, In w (dkeys e) -> exists ts, first_tokens nouns w = Ok ts).
    { clear - M. unfold f. revert found M. induction e as [|[w c] l IH]; intros found M; cbn [mapM] in M; [injection M as <-; split; [reflexivity|intros w []]|].
      cbn [fst] in M. destruct (first_tokens nouns w) as [ts|] eqn:F; [|discriminate]. cbn [bind] in M. match type of M with context [mapM ?g l] => destruct (mapM g l) as [fl|] eqn:ML; [|discriminate] end. cbn [bind] in M. injection M as <-. destruct (IH fl eq_refl) as [-> IH2].
      split; [cbn [map fst]; rewrite F; reflexivity|]. cbn [dkeys map fst]. intros w' [<-|I]; [eauto|apply IH2, I]. }
    destruct FD as [-> TOT].
    assert (HH : concat (map (fun p : (str * Z) * option str => match snd p with Some n => [(fst (fst p), (n, snd (fst p)))] | None => [] end) (map (fun wc : str * Z => (wc, f (fst wc))) e)) = concat (map (fun wc : str * Z => match f (fst wc) with Some n => [(fst wc, (n, snd wc))] | None => [] end) e)) by (rewrite map_map; reflexivity).
    rewrite HH in EQ. clear HH. set (hits := concat (map (fun wc : str * Z => match f (fst wc) with Some n => [(fst wc, (n, snd wc))] | None => [] end) e)) in *. injection EQ as <- <-.
    assert (SF : forall t, suffix t = true <-> N5 chat x t \/ A4 chat x t \/ V4 chat x t \/ J2 x t) by (intros t; unfold suffix; rewrite !orb_true_iff, !dmem_In, HN, HA, HV, HJ; tauto).
    assert (FC : forall w n, rest6 chat x w -> (f w = Some n <-> cn chat x w n)).
    { intros w n R. pose proof (rest6_E w R) as I. unfold f, cn. destruct (TOT w) as [ts T]; [apply (sub_In E e _ w S), R|]. rewrite T. pose proof T as T'. apply (first_tokens_iff w ts I) in T'. rewrite (parse_compound_iff suffix ts n SF). split.
      - intros J. split; [exact CH|]. split; [exact R|]. exists ts. auto.
      - intros (_ & _ & ts' & T2 & J). apply (first_tokens_iff w ts' I) in T2. assert (ts' = ts) by congruence. subst ts'. exact J. }
    assert (HI : forall w, In w (map fst hits) <-> rest6 chat x w /\ exists n, cn chat x w n).
    { intros w. rewrite in_map_iff. split.
      - intros ([w' [n c]] & Q & I). cbn [fst] in Q. subst w'. unfold hits in I. apply in_concat in I as (L & I & J). apply in_map_iff in I as ([w' c'] & <- & I). cbn [fst snd] in J. destruct (f w') as [n'|] eqn:FW; [|destruct J]. destruct J as [[= -> -> ->]|[]].
        assert (R : rest6 chat x w) by (apply (sub_In E e _ w S), In_dkeys_fst; eauto). split; [exact R|]. exists n. apply FC; assumption.
      - intros [R [n C]]. apply FC in C; [|exact R]. assert (I : In w (dkeys e)) by (apply (sub_In E e _ w S), R). apply In_dkeys_fst in I as [c I]. exists (w, (n, c)). split; [reflexivity|]. unfold hits. apply in_concat. exists [(w, (n, c))]. split; [|left; reflexivity]. apply in_map_iff. exists (w, c). cbn [fst snd]. rewrite C. auto. }
    assert (HK : forall n, In n (map fst (map snd hits)) <-> exists w, cn chat x w n).
    { intros n. rewrite map_map. split.
      - intros I. apply in_map_iff in I as ([w [n' c]] & Q & I). cbn [fst snd] in Q. subst n'. unfold hits in I. apply in_concat in I as (L & I & J). apply in_map_iff in I as ([w' c'] & <- & I). cbn [fst snd] in J. destruct (f w') as [n'|] eqn:FW; [|destruct J]. destruct J as [[= -> -> ->]|[]].
        exists w. apply FC; [|exact FW]. apply (sub_In E e _ w S), In_dkeys_fst; eauto.
      - intros [w C]. assert (R : rest6 chat x w) by apply C. apply FC in C; [|exact R]. assert (I : In w (dkeys e)) by (apply (sub_In E e _ w S), R). apply In_dkeys_fst in I as [c I]. apply in_map_iff. exists (w, (n, c)). split; [reflexivity|]. unfold hits. apply in_concat. exists [(w, (n, c))]. split; [|left; reflexivity]. apply in_map_iff. exists (w, c). cbn [fst snd]. rewrite C. auto. }
    assert (NC : NoDup (dkeys (cumulate [] (map snd hits)))) by (apply cumulate_wf; constructor).
    split; [|split; [|split]].
    - apply (sub_unrecognized E e _ _ _ S); [intros w [R _]; exact R| |].
      + intros w R. rewrite (mem_In w _), HI. unfold rest7. split; [intros [_ [n C]] [_ N]; apply (N n C)|]. intros H. split; [exact R|]. destruct (f w) as [n|] eqn:FW; [exists n; apply FC; assumption|]. exfalso. apply H. split; [exact R|]. intros n C. apply FC in C; [congruence|exact R].
      + intros w R. unfold rest7. destruct (f w) as [n|] eqn:FW; [right; intros [_ H]; apply (H n), FC; assumption|left]. split; [exact R|]. intros n C. apply FC in C; [congruence|exact R].
    - intros n. rewrite cumulate_keys, HN. fold (dkeys (cumulate [] (map snd hits))). rewrite cumulate_keys, HK. unfold N7. cbn [dkeys map In]. tauto.
    - intros N. apply cumulate_wf, N.
    - intros n. exists (Zsum (fun wc : str * Z => if (match f (fst wc) with Some b => eqb b n | None => false end) then snd wc else 0) e). split.
      + apply (sub_sum E e _ (fun w => match f w with Some b => eqb b n | None => false end) _ S); [intros w C; apply C|]. intros w R. destruct (f w) as [m|] eqn:FW.
        * rewrite eqb_eq. split; [intros <-; apply FC; assumption|]. intros C. apply FC in C; [congruence|exact R].
        * split; [discriminate|]. intros C. apply FC in C; [congruence|exact R].
      + rewrite cumulate_table by exact NC. rewrite cumulate_get. change (dgetd [] n 0) with 0. rewrite Z.add_0_l. f_equal. unfold hits. clear. induction e as [|[w c] l IH]; [reflexivity|]. cbn [map concat Zsum fst snd]. destruct (f w) as [m|]; cbn [app map Zsum fst snd]; rewrite IH; lia.
  Qed.
End Last.
