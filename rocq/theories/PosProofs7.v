(** * Proofs about the part-of-speech extractors: the stages of the predicators, and compound nouns *)
From Coq Require Import QArith Permutation.
From Verif Require Import PyBase PyDict PySort CountLemmas PyText HangleModel TokenizerModel UtilsModel NounModel JosaProofs LemmaModel PredModel PosModel PosSpec PosProofs PosProofs2 PosProofs3 PosProofs4 PosProofs5 PosProofs6.
Open Scope Z_scope.

Lemma table_add E c c' K K' (P : str -> str -> Prop) C : NoDup (dkeys E) -> table c K C -> sub E c' K' -> table (cumulate c c') (fun w => K w \/ K' w) (fun w n => exists k1 k2, C w k1 /\ how_much (fun v => v = w /\ K' w) E k2 /\ n = k1 + k2).
Proof.
  intros N (N1 & K1 & C1) S. pose proof (sub_wf E c' K' N S) as N2. split; [apply cumulate_wf, N1|]. split; [intros w; rewrite cumulate_keys, K1; fold (dkeys c'); rewrite (sub_In E c' K' w S); reflexivity|].
  intros w. exists (dgetd c w 0), (dgetd c' w 0). split; [apply C1|]. split; [apply (sub_count E c'); assumption|]. apply cumulate_table, N2.
Qed.
Section Predicators.
  Variable chat : bool.
  Variable x : posx.
  Let E := x_eoj x.
  Hypothesis NE : NoDup (dkeys E).
  Hypothesis PE : forall w n, dget E w = Some n -> 0 < n.
  Hypothesis WE : forall w, In w (dkeys E) -> w <> [].
  Hypothesis NA : NoDup (dkeys (x_adj x)).
  Hypothesis NV : NoDup (dkeys (x_verb x)).
  Hypothesis LA : forall r p, dget (x_adj x) r = Some p -> NoDup (snd p).
  Hypothesis LV : forall r p, dget (x_verb x) r = Some p -> NoDup (snd p).
  (** the table of lemmas after the compounds *)
  Definition lemma_table3 (base d : dict str (Z * list (str * str))) (C : str -> str -> str -> Prop) : Prop := forall w,
    (forall p, dget base w = Some p -> dget d w = Some p) /\
    (dget base w = None -> match dget d w with Some p => dget E w = Some (fst p) /\ (exists s e, C w s e) /\ forall s e, In (s, e) (snd p) <-> C w s e | None => forall s e, ~ C w s e end).
  Lemma table3 base cs (C : str -> str -> str -> Prop) : NoDup (dkeys cs) -> (forall w, In w (dkeys cs) <-> exists s e, C w s e) -> (forall w s e, C w s e -> ~ In w (dkeys base)) ->
    (forall w n ls, In (w, (n, ls)) cs -> dget E w = Some n /\ NoDup ls /\ (forall s e, In (s, e) ls <-> C w s e)) -> lemma_table3 base (dupdate base cs) C.
  Proof.
    intros N K D H w. rewrite (dupdate_get cs N). split.
    - intros p DB. destruct (dget cs w) as [q|] eqn:DC; [|exact DB]. exfalso. assert (I : In w (dkeys cs)) by (apply dget_keys; congruence). apply K in I as (s & e & I). apply (D w s e I). apply dget_keys. congruence.
    - intros DB. destruct (dget cs w) as [[n ls]|] eqn:DC.
      + apply dget_In in DC. destruct (H w n ls DC) as (H1 & _ & H2). split; [exact H1|]. split; [apply K, In_dkeys_fst; eauto|exact H2].
      + rewrite DB. intros s e I. assert (J : In w (dkeys cs)) by (apply K; eauto). apply dget_keys in J. congruence.
  Qed.
  Lemma stage3_spec e2 a2 v2 CA CV x3 e3 a3 v3 : sub E e2 (rest2 x) -> table a2 (A1 x) CA -> table v2 (V1 x) CV ->
    match_predicator_compounds chat x e2 a2 v2 = Ok (x3, e3, a3, v3) ->
    (x_nouns x3 = x_nouns x /\ x_josas x3 = x_josas x /\ x_adv x3 = x_adv x /\ x_eoj x3 = x_eoj x) /\
    (forall s, In s (x_adjs x3) <-> AS3 chat x s) /\ (forall s, In s (x_verbs x3) <-> VS3 chat x s) /\ (forall e, In e (x_eomis x3) <-> EO3 chat x e) /\
    lemma_table3 (x_adj x) (x_adj x3) (ca chat x) /\ lemma_table3 (x_verb x) (x_verb x3) (cv chat x) /\
    sub E e3 (rest3 chat x) /\
    table a3 (fun w => A1 x w \/ is_ca chat x w) (fun w n => exists k1 k2, CA w k1 /\ how_much (fun v => v = w /\ is_ca chat x w) E k2 /\ n = k1 + k2) /\
    table v3 (fun w => V1 x w \/ is_cv chat x w) (fun w n => exists k1 k2, CV w k1 /\ how_much (fun v => v = w /\ is_cv chat x w) E k2 /\ n = k1 + k2) /\
    (chat = true -> x_adjs x3 = x_adjs x /\ x_verbs x3 = x_verbs x) /\ (chat = false -> x_eomis x3 = x_eomis x).
  Proof.
    intros S2 TA TV. unfold match_predicator_compounds. set (preds := dkeys (x_adj x) ++ dkeys (x_verb x)).
    assert (HP : forall l, In l preds <-> adj x l \/ verb x l) by (intros l; apply in_app_iff).
    assert (KA : forall s, In s (x_verbs x ++ x_adjs x) <-> (In s (x_adjs x) \/ In s (x_verbs x))) by (intros s; rewrite in_app_iff; tauto).
    assert (PA : forall w, rest2 x w -> ~ In w (dkeys (x_adj x))) by (intros w [R _]; apply R).
    assert (PV : forall w, rest2 x w -> ~ In w (dkeys (x_verb x))) by (intros w [R _]; apply R).
    destruct (parse_compounds chat e2 preds (x_adj x) (x_verbs x ++ x_adjs x)) as [[[cs ss] cn]|] eqn:P1; [|discriminate]. cbn [bind].
    destruct (parse_spec chat x NE PE preds (x_adj x) _ _ HP KA PA LA e2 S2 cs ss cn P1) as (N1 & C1 & K1 & H1 & T1). fold (ca chat x) in C1, K1, H1, T1.
    assert (HAS : forall s, In s (x_adjs x ++ ss) <-> AS3 chat x s) by (intros s; rewrite in_app_iff, T1; unfold AS3; tauto).
    assert (KV : forall s, In s (x_verbs x ++ x_adjs x ++ ss) <-> (AS3 chat x s \/ In s (x_verbs x))) by (intros s; rewrite in_app_iff, HAS; tauto).
    destruct (parse_compounds chat e2 preds (x_verb x) (x_verbs x ++ x_adjs x ++ ss)) as [[[cs' ss'] cn']|] eqn:P2; [|discriminate]. cbn [bind].
    destruct (parse_spec chat x NE PE preds (x_verb x) _ _ HP KV PV LV e2 S2 cs' ss' cn' P2) as (N2 & C2 & K2 & H2 & T2). fold (cv chat x) in C2, K2, H2, T2.
    intros EQ. injection EQ as <- <- <- <-. cbn [x_nouns x_adj x_verb x_adjs x_verbs x_eomis x_josas x_adv x_eoj].
    assert (DA : forall w s e, ca chat x w s e -> ~ In w (dkeys (x_adj x))) by (intros w s e [[R _] _]; apply PA, R).
    assert (DV : forall w s e, cv chat x w s e -> ~ In w (dkeys (x_verb x))) by (intros w s e [[R _] _]; apply PV, R).
    assert (TA3 := table_add E a2 cn _ _ (fun _ _ => True) _ NE TA C1). assert (TV3 := table_add E v2 cn' _ _ (fun _ _ => True) _ NE TV C2). fold (is_ca chat x) in TA3. fold (is_cv chat x) in TV3.
    split; [auto|]. split; [exact HAS|]. split; [intros s; rewrite in_app_iff, T2; unfold VS3; tauto|].
    assert (EOS : forall base cs0 (C : str -> str -> str -> Prop) e, NoDup (dkeys base) -> NoDup (dkeys cs0) -> (forall w, In w (dkeys cs0) <-> exists s e, C w s e) -> (forall w s e, C w s e -> ~ In w (dkeys base)) ->
      (forall w n ls, In (w, (n, ls)) cs0 -> dget E w = Some n /\ NoDup ls /\ (forall s e, In (s, e) ls <-> C w s e)) -> (forall r p, dget base r = Some p -> NoDup (snd p)) -> (In e (find_wrong_eomi (dupdate base cs0) cs0) <-> wrong_ending base C e)).
    { intros base cs0 C e NB NC K D H L. apply wrong_eomi_spec; [exact NB|exact NC| |exact L|intros w n ls I; apply (H w n ls I)|].
      - intros w I J. apply K in J as (s & e' & J). apply (D w s e' J I).
      - intros w s. split.
        + intros I. assert (J : In w (dkeys cs0)) by (apply K; eauto). apply In_dkeys_fst in J as [[n ls] J]. exists n, ls. split; [exact J|]. apply (H w n ls J), I.
        + intros (n & ls & I & J). apply (H w n ls I), J. }
    split.
    { intros e. unfold EO3. destruct chat.
      - rewrite filter_In, negb_true_iff, <- not_true_iff_false, (mem_In e _), in_app_iff. rewrite (EOS (x_adj x) cs (ca true x) e NA N1 K1 DA H1 LA), (EOS (x_verb x) cs' (cv true x) e NV N2 K2 DV H2 LV). intuition.
      - intuition discriminate. }
    split; [apply table3; assumption|]. split; [apply table3; assumption|]. split.
    { apply (sub_unrecognized E e2 _ _ _ S2); [intros w [R _]; exact R| |].
      - intros w R. rewrite orb_true_iff, !dmem_In. destruct TA3 as (_ & QA & _), TV3 as (_ & QV & _). rewrite QA, QV. unfold rest3. split.
        + intros [[H|H]|[H|H]] (_ & X & Y); [apply (PA w R), H|contradiction|apply (PV w R), H|contradiction].
        + intros H. destruct (sub_dec E cn _ w C1) as [X|X]; [left; right; exact X|]. destruct (sub_dec E cn' _ w C2) as [Y|Y]; [right; right; exact Y|]. exfalso. apply H. split; [exact R|]. split; assumption.
      - intros w R. destruct (sub_dec E cn _ w C1) as [X|X]; [right; intros (_ & Y & _); apply Y, X|]. destruct (sub_dec E cn' _ w C2) as [Y|Y]; [right; intros (_ & _ & Z); apply Z, Y|]. left. split; [exact R|split; assumption]. }
    split; [exact TA3|]. split; [exact TV3|]. split.
    - intros ->. assert (Z1 : ss = []) by (destruct ss as [|s ss]; [reflexivity|]; destruct (proj1 (T1 s) (or_introl eq_refl)); discriminate). assert (Z2 : ss' = []) by (destruct ss' as [|s ss']; [reflexivity|]; destruct (proj1 (T2 s) (or_introl eq_refl)); discriminate). rewrite Z1, Z2, !app_nil_r. auto.
    - intros ->. reflexivity.
  Qed.

  Lemma stage4_spec x3 e3 a3 v3 KA KV CA CV x4 e4 a4 v4 : x_eoj x3 = x_eoj x ->
    (forall s, In s (x_adjs x3) <-> AS3 chat x s) -> (forall s, In s (x_verbs x3) <-> VS3 chat x s) -> (forall e, In e (x_eomis x3) <-> EO3 chat x e) ->
    lemma_table3 (x_adj x) (x_adj x3) (ca chat x) -> lemma_table3 (x_verb x) (x_verb x3) (cv chat x) ->
    sub E e3 (rest3 chat x) -> table a3 KA CA -> table v3 KV CV ->
    lemmatizing_predicators x3 e3 a3 v3 = (x4, e4, a4, v4) ->
    (x_nouns x4 = x_nouns x3 /\ x_josas x4 = x_josas x3 /\ x_adv x4 = x_adv x3 /\ x_eoj x4 = x_eoj x3 /\ x_adjs x4 = x_adjs x3 /\ x_verbs x4 = x_verbs x3 /\ x_eomis x4 = x_eomis x3) /\
    lemma_table x (x_adj x) (x_adj x4) (ca chat x) (la chat x) /\ lemma_table x (x_verb x) (x_verb x4) (cv chat x) (lv chat x) /\
    sub E e4 (rest4 chat x) /\
    table a4 (fun w => KA w \/ is_la chat x w) (fun w n => exists k1 k2, CA w k1 /\ how_much (fun v => v = w /\ is_la chat x w) E k2 /\ n = k1 + k2) /\
    table v4 (fun w => KV w \/ is_lv chat x w) (fun w n => exists k1 k2, CV w k1 /\ how_much (fun v => v = w /\ is_lv chat x w) E k2 /\ n = k1 + k2).
  Proof.
    intros EQE HA HV HO TA TV S3 TBA TBV. unfold lemmatizing_predicators. intros EQ. injection EQ as <- <- <- <-. cbn [x_nouns x_adj x_verb x_adjs x_verbs x_eomis x_josas x_adv x_eoj].
    assert (WR : forall w, rest3 chat x w -> w <> []) by (intros w [[[R _] _] _]; apply WE, R).
    assert (G : forall stems (ST : str -> Prop) (L : str -> str -> str -> Prop), (forall s, In s stems <-> ST s) -> (forall w s e, L w s e <-> rest3 chat x w /\ longest_analysis ST (EO3 chat x) w s e) ->
      let nw := lemmatize_eojeols e3 stems (x_eomis x3) in NoDup (dkeys nw) /\ (forall w, In w (dkeys nw) <-> exists s e, L w s e) /\
      (forall w n ls, In (w, (n, ls)) nw -> dget E w = Some n /\ rest3 chat x w /\ forall s e, In (s, e) ls <-> L w s e) /\ sub E (dfilter (fun w _ => dmem nw w) e3) (fun w => exists s e, L w s e)).
    { intros stems ST L HST HL nw. assert (N : NoDup (dkeys nw)) by (unfold nw; rewrite lemmatize_eojeols_keys; apply NoDup_filter, (sub_wf E e3 _ NE S3)).
      assert (H : forall w n ls, In (w, (n, ls)) nw -> dget E w = Some n /\ rest3 chat x w /\ ls <> [] /\ forall s e, In (s, e) ls <-> L w s e).
      { intros w n ls I. apply lemmatize_eojeols_In in I as [I P]. assert (R3 : rest3 chat x w) by (apply (sub_In E e3 _ w S3), In_dkeys_fst; eauto). split; [|split; [exact R3|]].
        - rewrite <- (sub_get E e3 _ w NE S3); [|apply dget_keys, In_dkeys_fst; eauto]. apply (dget_In_iff _ _ _ (sub_wf E e3 _ NE S3)), I.
        - pose proof (pos_lemmatize_spec stems (x_eomis x3) ST (EO3 chat x) HST HO w (WR w R3)) as SP. rewrite P in SP. destruct SP as [NN SP]. split; [exact NN|]. intros s e. rewrite SP, HL. tauto. }
      assert (K : forall w, In w (dkeys nw) <-> exists s e, L w s e).
      { intros w. split.
        - intros I. apply In_dkeys_fst in I as [[n ls] I]. destruct (H w n ls I) as (_ & _ & NN & II). destruct ls as [|[s e] ls]; [congruence|]. exists s, e. apply II. left. reflexivity.
        - intros (s & e & I). apply HL in I as [R3 LG]. pose proof (pos_lemmatize_spec stems (x_eomis x3) ST (EO3 chat x) HST HO w (WR w R3)) as SP. assert (I : In w (dkeys e3)) by (apply (sub_In E e3 _ w S3), R3). unfold nw. rewrite lemmatize_eojeols_keys. apply filter_In. split; [exact I|]. destruct (pos_lemmatize stems (x_eomis x3) w); [reflexivity|]. exfalso. eapply SP, LG. }
      split; [exact N|]. split; [exact K|]. split; [intros w n ls I; destruct (H w n ls I) as (X1 & X2 & _ & X3); auto|].
      apply (sub_dfilter E e3 _ _ _ S3); [intros w (s & e & I); apply HL in I; apply I|]. intros w _. rewrite dmem_In. apply K. }
    destruct (G (x_adjs x3) (AS3 chat x) (la chat x) HA ltac:(reflexivity)) as (N1 & K1 & H1 & S1). destruct (G (x_verbs x3) (VS3 chat x) (lv chat x) HV ltac:(reflexivity)) as (N2 & K2 & H2 & S2). clear G.
    set (nw1 := lemmatize_eojeols e3 (x_adjs x3) (x_eomis x3)) in *. set (nw2 := lemmatize_eojeols e3 (x_verbs x3) (x_eomis x3)) in *.
    assert (T : forall (base d nw : dict str (Z * list (str * str))) (C L : str -> str -> str -> Prop), lemma_table3 base d C -> (forall w, rest3 chat x w -> ~ In w (dkeys base)) -> (forall w s e, C w s e -> ~ rest3 chat x w) -> NoDup (dkeys nw) -> (forall w, In w (dkeys nw) <-> exists s e, L w s e) ->
      (forall w s e, L w s e -> rest3 chat x w) -> (forall w n ls, In (w, (n, ls)) nw -> dget E w = Some n /\ rest3 chat x w /\ forall s e, In (s, e) ls <-> L w s e) -> lemma_table x base (dupdate d nw) C L).
    { intros base d nw C L T3 DB DC N K RL H w. destruct (T3 w) as [T31 T32]. rewrite (dupdate_get nw N). split.
      - intros p D. destruct (dget nw w) as [[n ls]|] eqn:DN; [|apply T31, D]. exfalso. apply dget_In in DN. apply (DB w); [apply (H w n ls DN)|]. apply dget_keys. congruence.
      - intros D. destruct (dget nw w) as [[n ls]|] eqn:DN.
        + apply dget_In in DN. destruct (H w n ls DN) as (X1 & X2 & X3). cbn [fst snd]. split; [exact X1|]. intros s e. rewrite X3. split; [auto|]. intros [Q|Q]; [|exact Q]. exfalso. apply (DC w s e Q X2).
        + assert (NL : forall s e, ~ L w s e) by (intros s e Q; assert (J : In w (dkeys nw)) by (apply K; eauto); apply dget_keys in J; congruence).
          specialize (T32 D). destruct (dget d w) as [p|]; [|intros s e; split; [apply T32|apply NL]]. destruct T32 as (X1 & _ & X2). split; [exact X1|]. intros s e. rewrite X2. split; [auto|]. intros [Q|Q]; [exact Q|exfalso; apply (NL s e Q)]. }
    split; [repeat split|]. split; [|split; [|split; [|split]]].
    - apply (T (x_adj x) (x_adj x3) nw1 (ca chat x) (la chat x)); try assumption; [intros w [[R _] _]; apply R|intros w s e Q (_ & NC & _); apply NC; exists s, e; exact Q|intros w s e [R _]; exact R].
    - apply (T (x_verb x) (x_verb x3) nw2 (cv chat x) (lv chat x)); try assumption; [intros w [[R _] _]; apply R|intros w s e Q (_ & _ & NC); apply NC; exists s, e; exact Q|intros w s e [R _]; exact R].
    - assert (U1 : sub E (unrecognized e3 (dmem (dfilter (fun w _ => dmem nw1 w) e3))) (fun w => rest3 chat x w /\ ~ is_la chat x w)).
      { apply (sub_unrecognized E e3 _ _ _ S3); [intros w [R _]; exact R| |].
        - intros w R. rewrite dmem_In, (sub_In E _ _ w S1). fold (is_la chat x w). destruct (sub_dec E _ _ w S1) as [Q|Q]; fold (is_la chat x w) in Q; tauto.
        - intros w R. destruct (sub_dec E _ _ w S1) as [Q|Q]; fold (is_la chat x w) in Q; tauto. }
      apply (sub_unrecognized E _ _ _ _ U1); [intros w (R & Q & _); auto| |].
      + intros w [R Q]. rewrite dmem_In, (sub_In E _ _ w S2). fold (is_lv chat x w). unfold rest4. destruct (sub_dec E _ _ w S2) as [Q'|Q']; fold (is_lv chat x w) in Q'; tauto.
      + intros w [R Q]. unfold rest4. destruct (sub_dec E _ _ w S2) as [Q'|Q']; fold (is_lv chat x w) in Q'; tauto.
    - apply (table_add E a3 _ _ _ (fun _ _ => True)); assumption.
    - apply (table_add E v3 _ _ _ (fun _ _ => True)); assumption.
  Qed.
End Predicators.
