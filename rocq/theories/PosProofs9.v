(** * Proofs about the part-of-speech extractors: the whole extraction *)
From Coq Require Import QArith Permutation.
From Verif Require Import PyBase PyDict PySort CountLemmas PyText HangleModel TokenizerModel UtilsModel NounModel JosaProofs LemmaModel PredModel PosModel PosSpec PosProofs PosProofs2 PosProofs3 PosProofs4 PosProofs5 PosProofs6 PosProofs7 PosProofs8.
Open Scope Z_scope.

Section Whole.
  Variable chat : bool.
  Variable x : posx.
  Let E := x_eoj x.
  Hypothesis T : trained x.
  Lemma WE : forall w, In w (dkeys E) -> w <> [] /\ Forall (fun c => is_space c = false) w.
  Proof. intros w I. destruct T as (_ & _ & _ & H & _). apply dget_keys in I. unfold E in I. destruct (dget (x_eoj x) w) as [n|] eqn:D; [|congruence]. destruct (H w n D) as (_ & A & B). auto. Qed.
  Lemma stage5_spec e4 n2 a4 v4 j2 CN CA CV CJ e5 n5 a5 v5 j5 : sub E e4 (rest4 chat x) -> table n2 (N1 x) CN -> table a4 (A4 chat x) CA -> table v4 (V4 chat x) CV -> table j2 (J2 x) CJ ->
    match_syllable_noun_and_r e4 n2 a4 v4 j2 = (e5, (n5, a5, v5, j5)) ->
    sub E e5 (rest5 chat x) /\
    table n5 (N5 chat x) (fun n k => exists k0 k1 k2 k3, CN n k0 /\ how_much (fun w => exists r, sa chat x w n r) E k1 /\ how_much (fun w => exists r, sv chat x w n r) E k2 /\ how_much (fun w => exists r, sj chat x w n r) E k3 /\ k = k0 + k1 + k2 + k3) /\
    table a5 (A4 chat x) (fun a k => exists k0 k1, CA a k0 /\ how_much (fun w => exists l, sa chat x w l a) E k1 /\ k = k0 + k1) /\
    table v5 (V4 chat x) (fun a k => exists k0 k1, CV a k0 /\ how_much (fun w => exists l, sv chat x w l a) E k1 /\ k = k0 + k1) /\
    table j5 (J2 x) (fun a k => exists k0 k1, CJ a k0 /\ how_much (fun w => exists l, sj chat x w l a) E k1 /\ k = k0 + k1).
  Proof.
    intros S (NN & KN & VN) (NA & KA & VA) (NV & KV & VV) (NJ & KJ & VJ). unfold match_syllable_noun_and_r.
    destruct (syllable_noun_and_r e4 (n2, a4, [])) as [[na ac] rm1] eqn:M1. destruct (syllable_noun_and_r e4 (na, v4, rm1)) as [[nb vc] rm2] eqn:M2. destruct (syllable_noun_and_r e4 (nb, j2, rm2)) as [[nc jc] rm3] eqn:M3. intros EQ. injection EQ as <- <- <- <- <-.
    assert (NW : forall w, rest4 chat x w -> w <> []) by (intros w [[[[R _] _] _] _]; apply WE, R).
    destruct (syllable_spec E e4 _ (A4 chat x) n2 a4 [] S KA NW _ _ _ M1) as (K1 & R1 & D1 & CN1 & CR1 & W1 & WR1 & DEC1).
    destruct (syllable_spec E e4 _ (V4 chat x) na v4 rm1 S KV NW _ _ _ M2) as (K2 & R2 & D2 & CN2 & CR2 & W2 & WR2 & DEC2).
    destruct (syllable_spec E e4 _ (J2 x) nb j2 rm2 S KJ NW _ _ _ M3) as (K3 & R3 & D3 & CN3 & CR3 & W3 & WR3 & DEC3).
    split; [|split; [|split; [|split]]].
    - apply (sub_unrecognized E e4 _ _ _ S); [intros w [A _]; exact A| |].
      + intros w A. rewrite (mem_In w rm3). rewrite D3, D2, D1. split.
        * intros H [_ F]. destruct H as [[[[]|(l & r & H)]|(l & r & H)]|(l & r & H)]; destruct (F l r) as (F1 & F2 & F3); [apply F1|apply F2|apply F3]; exact H.
        * intros H. destruct (DEC1 w A) as [X|X]; [auto|]. destruct (DEC2 w A) as [Y|Y]; [auto|]. destruct (DEC3 w A) as [Z|Z]; [auto|]. exfalso. apply H. split; [exact A|]. intros l r. split; [|split]; intros F; [apply X|apply Y|apply Z]; exists l, r; exact F.
      + intros w A. destruct (DEC1 w A) as [(l & r & X)|X]; [right; intros [_ F]; exact (proj1 (F l r) X)|]. destruct (DEC2 w A) as [(l & r & Y)|Y]; [right; intros [_ F]; exact (proj1 (proj2 (F l r)) Y)|]. destruct (DEC3 w A) as [(l & r & Z)|Z]; [right; intros [_ F]; exact (proj2 (proj2 (F l r)) Z)|].
        left. split; [exact A|]. intros l r. split; [|split]; intros F; [apply X|apply Y|apply Z]; exists l, r; exact F.
    - split; [apply W3, W2, W1, NN|]. split.
      + intros n. rewrite K3, K2, K1, KN. unfold N5. split.
        * intros [[[H|(w & r & H)]|(w & r & H)]|(w & r & H)]; [left; exact H|right; exists w, r; left; exact H|right; exists w, r; right; left; exact H|right; exists w, r; right; right; exact H].
        * intros [H|(w & r & [H|[H|H]])]; [auto|left; left; right; exists w, r; exact H|left; right; exists w, r; exact H|right; exists w, r; exact H].
      + intros n. destruct (CN1 n) as (k1 & H1 & E1), (CN2 n) as (k2 & H2 & E2), (CN3 n) as (k3 & H3 & E3). exists (dgetd n2 n 0), k1, k2, k3. split; [apply VN|]. split; [exact H1|]. split; [exact H2|]. split; [exact H3|]. lia.
    - split; [apply WR1, NA|]. split; [exact R1|]. intros a. destruct (CR1 a) as (k & H & EQ). exists (dgetd a4 a 0), k. split; [apply VA|]. split; [exact H|exact EQ].
    - split; [apply WR2, NV|]. split; [exact R2|]. intros a. destruct (CR2 a) as (k & H & EQ). exists (dgetd v4 a 0), k. split; [apply VV|]. split; [exact H|exact EQ].
    - split; [apply WR3, NJ|]. split; [exact R3|]. intros a. destruct (CR3 a) as (k & H & EQ). exists (dgetd j2 a 0), k. split; [apply VJ|]. split; [exact H|exact EQ].
  Qed.
  Lemma table_tab c K C (C' : str -> Z -> Prop) : table c K C -> (forall w n, C w n -> C' w n) -> tabulates c K C'.
  Proof. intros (N & KK & CC) H. split; [exact N|]. split; [exact KK|]. intros w n D. apply H. specialize (CC w). unfold dgetd in CC. rewrite D in CC. exact CC. Qed.
  Lemma table_weaken c (K K' : str -> Prop) (C C' : str -> Z -> Prop) : table c K C -> (forall w, K w <-> K' w) -> (forall w n, C w n -> C' w n) -> table c K' C'.
  Proof. intros (N & KK & CC) H1 H2. split; [exact N|]. split; [intros w; rewrite KK; apply H1|]. intros w. apply H2, CC. Qed.
  Lemma table_filter c (K K' : str -> Prop) C (p : str -> bool) : table c K C -> (forall w, K w -> (p w = true <-> K' w)) -> (forall w, K' w -> K w) -> tabulates (dfilter (fun w _ => p w) c) K' C.
  Proof.
    intros (N & KK & CC) H1 H2. split; [unfold dfilter, dkeys; apply NoDup_filter_map, N|]. split.
    - intros w. rewrite dfilter_In, KK. split; [intros [A B]; apply H1; assumption|]. intros A. split; [apply H2, A|]. apply H1; [apply H2, A|exact A].
    - intros w n D. rewrite dget_dfilter in D by exact N. specialize (CC w). unfold dgetd in CC. destruct (dget c w) as [m|]; [|discriminate]. destruct (p w); [injection D as <-; exact CC|discriminate].
  Qed.
End Whole.
Lemma as_pred_get count d stems eomis w : dget (as_predicator count d stems eomis) w = match dget count w with Some n => Some (n, match dget d w with Some p => Some (snd p) | None => pos_lemmatize stems eomis w end) | None => None end.
Proof.
  unfold as_predicator. induction count as [|[v n] c IH]; [reflexivity|]. cbn [map dget fst snd]. destruct (eqb_spec v w) as [->|_]; [reflexivity|exact IH].
Qed.
Lemma as_pred_keys count d stems eomis : dkeys (as_predicator count d stems eomis) = dkeys count.
Proof. unfold as_predicator, dkeys. rewrite map_map. reflexivity. Qed.
(** every found predicator has its entry *)
Lemma has_entry x base d C L w : lemma_table x base d C L -> (In w (dkeys base) \/ (exists s e, C w s e) \/ exists s e, L w s e) -> exists p, dget d w = Some p.
Proof.
  intros T H. destruct (T w) as [T1 T2]. destruct (dget base w) as [p|] eqn:D; [exists p; apply T1; reflexivity|]. specialize (T2 eq_refl). destruct (dget d w) as [p|]; [eauto|]. exfalso. destruct H as [H|[(s & e & H)|(s & e & H)]]; [apply dget_keys in H; congruence|exact (proj1 (T2 s e) H)|exact (proj2 (T2 s e) H)].
Qed.
Theorem extract_exact chat0 x0 x' t : let x := with_josas chat0 x0 in let chat := is_chat chat0 in trained x -> pos_extract chat0 x0 = Ok (x', t) ->
  tabulates (g_noun t) (fun n => N7 chat x n /\ ~ confused chat x n) (noun_count chat x) /\
  tabulates (g_confused t) (confused chat x) (noun_count chat x) /\
  tabulates (g_adj t) (A4 chat x) (fun w v => adj_count chat x w (fst v) /\ exists p, dget (x_adj x') w = Some p /\ snd v = Some (snd p)) /\
  tabulates (g_verb t) (V4 chat x) (fun w v => verb_count chat x w (fst v) /\ exists p, dget (x_verb x') w = Some p /\ snd v = Some (snd p)) /\
  tabulates (g_adv t) (D1 x) (fun w n => dget (x_eoj x) w = Some n) /\
  tabulates (g_josa t) (J2 x) (josa_count chat x) /\
  tabulates (g_unknown t) (rest7 chat x) (fun w n => dget (x_eoj x) w = Some n) /\
  lemma_table x (x_adj x) (x_adj x') (ca chat x) (la chat x) /\ lemma_table x (x_verb x) (x_verb x') (cv chat x) (lv chat x) /\
  (forall s, In s (x_adjs x') <-> AS3 chat x s) /\ (forall s, In s (x_verbs x') <-> VS3 chat x s) /\ (forall e, In e (x_eomis x') <-> EO3 chat x e) /\
  x_nouns x' = x_nouns x /\ x_josas x' = x_josas x /\ x_adv x' = x_adv x /\ x_eoj x' = x_eoj x.
Proof.
  intros x chat TR. unfold pos_extract. fold (is_chat chat0). fold (with_josas chat0 x0). change (with_josas chat0 x0) with x. change (is_chat chat0) with chat.
  destruct (match_word x) as [e1 [[[n1 a1] v1] d1]] eqn:M1.
  pose proof TR as (NE & NA & NV & HE & LA & LV).
  destruct (match_word_spec x e1 n1 a1 v1 d1 M1) as (S1 & SN1 & SA1 & SV1 & SD1).
  destruct (match_noun_and_word e1 n1 a1 v1 (x_josas x)) as [e2 [[[n2 a2] v2] j2]] eqn:M2.
  destruct (noun_word_spec x NE e1 n1 a1 v1 e2 n2 a2 v2 j2 S1 SN1 SA1 SV1 M2) as (S2 & TN2 & TA2 & TV2 & TJ2).
  destruct (match_predicator_compounds chat x e2 a2 v2) as [[[[x3 e3] a3] v3]|] eqn:M3; [|discriminate]. cbn [bind].
  assert (PE : forall w n, dget (x_eoj x) w = Some n -> 0 < n) by (intros w n D; apply (HE w n D)).
  assert (WW : forall w, In w (dkeys (x_eoj x)) -> w <> []) by (intros w I; apply (WE x TR w I)).
  destruct (stage3_spec chat x NE PE NA NV LA LV e2 a2 v2 _ _ x3 e3 a3 v3 S2 TA2 TV2 M3) as ((X31 & X32 & X33 & X34) & HAS & HVS & HEO & L3A & L3V & S3 & TA3 & TV3 & _).
  destruct (lemmatizing_predicators x3 e3 a3 v3) as [[[x4 e4] a4] v4] eqn:M4.
  destruct (stage4_spec chat x NE WW x3 e3 a3 v3 _ _ _ _ x4 e4 a4 v4 X34 HAS HVS HEO L3A L3V S3 TA3 TV3 M4) as ((X41 & X42 & X43 & X44 & X45 & X46 & X47) & L4A & L4V & S4 & TA4 & TV4).
  assert (IFA : forall w, (A1 x w \/ is_ca chat x w) \/ is_la chat x w <-> A4 chat x w) by (intros w; unfold A4; tauto).
  assert (IFV : forall w, (V1 x w \/ is_cv chat x w) \/ is_lv chat x w <-> V4 chat x w) by (intros w; unfold V4; tauto).
  assert (TA4' := table_weaken _ _ _ _ _ TA4 IFA (fun w n H => H)). assert (TV4' := table_weaken _ _ _ _ _ TV4 IFV (fun w n H => H)). clear TA4 TV4.
  destruct (match_syllable_noun_and_r e4 n2 a4 v4 j2) as [e5 [[[n5 a5] v5] j5]] eqn:M5.
  destruct (stage5_spec chat x TR e4 n2 a4 v4 j2 _ _ _ _ e5 n5 a5 v5 j5 S4 TN2 TA4' TV4' TJ2 M5) as (S5 & TN5 & TA5 & TV5 & TJ5).
  assert (S6 : sub (x_eoj x) (remove_irregular x4 e5) (rest6 chat x)).
  { unfold remove_irregular. assert (HB : forall w, mem w (x_josas x4) || mem w (x_eomis x4) || (length w =? 1)%nat = true <-> josa x w \/ EO3 chat x w \/ length w = 1%nat).
    { intros w. rewrite !orb_true_iff, Nat.eqb_eq, (mem_In w (x_josas x4)), (mem_In w (x_eomis x4)), X47, HEO, X42, X32. unfold josa. tauto. }
    apply (sub_unrecognized (x_eoj x) e5 _ _ _ S5); [intros w [R _]; exact R| |].
    - intros w R. rewrite HB. unfold rest6. split; [tauto|]. intros H.
      destruct (mem w (x_josas x4) || mem w (x_eomis x4) || (length w =? 1)%nat) eqn:B; [apply HB; exact B|]. exfalso. apply H. split; [exact R|]. assert (NB : ~ (josa x w \/ EO3 chat x w \/ length w = 1%nat)) by (intros Q; apply HB in Q; congruence). tauto.
    - intros w R. unfold rest6. destruct (mem w (x_josas x4) || mem w (x_eomis x4) || (length w =? 1)%nat) eqn:B.
      + apply HB in B. right. tauto.
      + left. split; [exact R|]. assert (NB : ~ (josa x w \/ EO3 chat x w \/ length w = 1%nat)) by (intros Q; apply HB in Q; congruence). tauto. }
  match goal with |- context [bind ?Q _] => destruct Q as [[e7 n7]|] eqn:M7; [|discriminate] end. cbn [bind].
  assert (ST7 : sub (x_eoj x) e7 (rest7 chat x) /\ table n7 (N7 chat x) (fun n k => exists k0 k8, (exists k0' k1 k2 k3, (exists k1 k2 k3 k4, how_much (fun w => w = n /\ N1 x n) (x_eoj x) k1 /\ how_much (fun w => exists r, nj x w n r) (x_eoj x) k2 /\ how_much (fun w => exists r, na x w n r) (x_eoj x) k3 /\ how_much (fun w => exists r, nv x w n r) (x_eoj x) k4 /\ k0' = k1 + k2 + k3 + k4) /\
     how_much (fun w => exists r, sa chat x w n r) (x_eoj x) k1 /\ how_much (fun w => exists r, sv chat x w n r) (x_eoj x) k2 /\ how_much (fun w => exists r, sj chat x w n r) (x_eoj x) k3 /\ k0 = k0' + k1 + k2 + k3) /\ how_much (fun w => cn chat x w n) (x_eoj x) k8 /\ k = k0 + k8)).
  { destruct (Bool.bool_dec chat true) as [C|C].
    - rewrite C in M7. injection M7 as <- <-. assert (NCN : forall w n, ~ cn chat x w n) by (intros w n [F _]; rewrite C in F; discriminate). split.
      + eapply sub_weaken; [|exact S6]. intros w. unfold rest7. split; [intros R; split; [exact R|intros n; apply NCN]|intros [R _]; exact R].
      + destruct TN5 as (Q1 & Q2 & Q3). split; [exact Q1|]. split.
        * intros n. rewrite Q2. unfold N7. split; [auto|]. intros [H|[w H]]; [exact H|destruct (NCN w n H)].
        * intros n. exists (dgetd n5 n 0), 0. split; [apply Q3|]. split; [apply how_much_none; intros w; apply NCN|lia].
    - apply Bool.not_true_iff_false in C. pose proof TN5 as (Q1 & Q2 & Q3). pose proof TA5 as (_ & KA5 & _). pose proof TV5 as (_ & KV5 & _). pose proof TJ5 as (_ & KJ5 & _).
      rewrite C in M7. destruct (compound_nouns_spec chat x (WE x TR) n5 Q2 a5 v5 j5 KA5 KV5 KJ5 C (remove_irregular x4 e5) e7 n7 S6 M7) as (R1 & R2 & R3 & R4).
      split; [exact R1|]. split; [apply R3, Q1|]. split; [exact R2|]. intros n. destruct (R4 n) as (k & H & EQ). exists (dgetd n5 n 0), k. split; [apply Q3|]. split; [exact H|exact EQ]. }
  destruct ST7 as (S7 & TN7).
  assert (TN7' : table n7 (N7 chat x) (noun_count chat x)).
  { eapply table_weaken; [exact TN7|intros; reflexivity|]. intros n k (k0 & k8 & (k0' & k5 & k6 & k7 & (k1 & k2 & k3 & k4 & A1' & A2 & A3 & A4' & EQ0) & A5 & A6 & A7 & EQ1) & A8 & EQ2). exists k1, k2, k3, k4, k5, k6, k7, k8. do 8 (split; [assumption|]). lia. }
  clear TN7. intros EQ. injection EQ as EX ET. subst x' t. cbn [g_noun g_adj g_verb g_adv g_unknown g_confused g_josa].
  pose proof TA5 as (NDA & KA5 & VA5). pose proof TV5 as (NDV & KV5 & VV5). pose proof TJ5 as (NDJ & KJ5 & VJ5). pose proof TN7' as (ND7 & K7 & V7).
  assert (HD : forall w, In w (dkeys d1) <-> D1 x w) by (intros w; apply (sub_In (x_eoj x) d1 _ w SD1)).
  (* the confused nouns *)
  set (c0 := dfilter (fun w (_ : Z) => dmem a5 w || dmem v5 w || dmem d1 w) n7).
  assert (HC0 : forall w, (dmem a5 w || dmem v5 w || dmem d1 w) = true <-> A4 chat x w \/ V4 chat x w \/ D1 x w) by (intros w; rewrite !orb_true_iff, !dmem_In, KA5, KV5, HD; tauto).
  set (cf := if chat then dupdate c0 (find_noun_phrase n7 j5 a5 v5) else c0).
  set (phrase := fun noun : str => (2 <? length noun)%nat && existsb (fun i => let r := skipn i noun in dmem j5 r || dmem a5 r || dmem v5 r) (seq 1 (length noun - 1))).
  assert (HPH : forall n, phrase n = true <-> (3 <= length n)%nat /\ exists l r, n = l ++ r /\ l <> [] /\ r <> [] /\ (J2 x r \/ A4 chat x r \/ V4 chat x r)).
  { intros n. unfold phrase. rewrite andb_true_iff, Nat.ltb_lt, existsb_exists. cbv zeta. split.
    - intros [L (i & I & B)]. split; [lia|]. apply in_seq in I. exists (firstn i n), (skipn i n). split; [symmetry; apply firstn_skipn|].
      split; [intros Q; apply (f_equal (@length _)) in Q; rewrite firstn_length in Q; cbn [length] in Q; lia|]. split; [intros Q; apply (f_equal (@length _)) in Q; rewrite skipn_length in Q; cbn [length] in Q; lia|].
      rewrite !orb_true_iff, !dmem_In, KJ5, KA5, KV5 in B. tauto.
    - intros [L (l & r & -> & NL & NR & H)]. split; [lia|]. exists (length l). split; [apply in_seq; rewrite app_length in *; destruct l, r; try congruence; cbn [length] in *; lia|]. rewrite skipn_pre, !orb_true_iff, !dmem_In, KJ5, KA5, KV5. tauto. }
  assert (T0 : tabulates c0 (fun n => N7 chat x n /\ (A4 chat x n \/ V4 chat x n \/ D1 x n)) (noun_count chat x)) by (apply (table_filter n7 (N7 chat x) _ _ (fun w => dmem a5 w || dmem v5 w || dmem d1 w) TN7'); [intros w H; rewrite HC0; tauto|intros w H; tauto]).
  assert (TC : tabulates cf (confused chat x) (noun_count chat x)).
  { unfold cf. destruct (Bool.bool_dec chat true) as [C|C].
    - assert (TP : tabulates (find_noun_phrase n7 j5 a5 v5) (fun n => N7 chat x n /\ (3 <= length n)%nat /\ exists l r, n = l ++ r /\ l <> [] /\ r <> [] /\ (J2 x r \/ A4 chat x r \/ V4 chat x r)) (noun_count chat x)).
      { apply (table_filter n7 (N7 chat x) _ _ phrase TN7'); [intros w H; rewrite HPH; tauto|tauto]. }
      destruct T0 as (Q1 & Q2 & Q3), TP as (P1 & P2 & P3). rewrite C. cbv iota.
      assert (GD := fun w => dupdate_get (find_noun_phrase n7 j5 a5 v5) P1 c0 w). split; [apply dupdate_wf, Q1|]. split.
      + intros w. rewrite <- dget_keys, GD. unfold confused. rewrite <- C. destruct (dget (find_noun_phrase n7 j5 a5 v5) w) as [k|] eqn:D.
        * assert (I : In w (dkeys (find_noun_phrase n7 j5 a5 v5))) by (apply dget_keys; congruence). apply P2 in I. split; [intros _|discriminate]. split; [apply I|]. right. right. right. split; [reflexivity|]. apply I.
        * assert (NI : ~ In w (dkeys (find_noun_phrase n7 j5 a5 v5))) by (intros I; apply dget_keys in I; congruence). rewrite P2 in NI. rewrite dget_keys, Q2. assert (chat = chat) by reflexivity. tauto.
      + rewrite <- C. intros w n. rewrite GD. destruct (dget (find_noun_phrase n7 j5 a5 v5) w) as [k|] eqn:D; [intros [= <-]; apply P3, D|apply Q3].
    - apply Bool.not_true_iff_false in C. rewrite C. cbv iota. destruct T0 as (Q1 & Q2 & Q3). rewrite <- C. split; [exact Q1|]. split; [|exact Q3]. intros w. rewrite Q2. unfold confused. split; [tauto|]. intros (H & [A|[A|[A|[A _]]]]); try tauto. congruence. }
  split.
  { unfold unrecognized. apply (table_filter n7 (N7 chat x) _ _ (fun w => negb (dmem cf w)) TN7'); [|tauto]. intros w H. rewrite negb_true_iff, <- not_true_iff_false, dmem_In. destruct TC as (_ & Q & _). rewrite Q. tauto. }
  split; [exact TC|]. clear TC T0.
  split.
  { split; [rewrite as_pred_keys; exact NDA|]. split; [intros w; rewrite as_pred_keys; apply KA5|]. intros w v D. rewrite as_pred_get in D. destruct (dget a5 w) as [n|] eqn:DN; [|discriminate].
    assert (AW : A4 chat x w) by (apply KA5, dget_keys; congruence). destruct (has_entry x _ _ _ _ w L4A) as [p DP].
    { destruct AW as [[_ A]|[A|A]]; [left; exact A|right; left; exact A|right; right; exact A]. }
    rewrite DP in D. injection D as <-. cbn [fst snd]. split; [|exists p; auto]. specialize (VA5 w). unfold dgetd in VA5. rewrite DN in VA5. destruct VA5 as (k0 & k3 & (k1 & k2 & (k4 & k5 & (k6 & k7 & B1 & B2 & ->) & B3 & ->) & B4 & ->) & B5 & ->).
    exists (k6 + k5 + k2), k7, k3. split; [|split; [exact B2|split; [exact B5|lia]]].
    eapply how_much_ext; [|apply how_much_or; [|apply how_much_or; [|exact B1|exact B3]|exact B4]].
    - intros v. unfold A4. tauto.
    - intros v [[-> A]|[-> A]] [_ (s & e & R & _)]; [destruct R as [[R _] _]; exact ((proj1 (proj2 (proj2 R))) (proj2 A))|destruct R as (_ & R & _); exact (R A)].
    - intros v [-> A] [_ (s & e & ((R & _) & _) & _)]. exact ((proj1 (proj2 (proj2 R))) (proj2 A)). }
  split.
  { split; [rewrite as_pred_keys; exact NDV|]. split; [intros w; rewrite as_pred_keys; apply KV5|]. intros w v D. rewrite as_pred_get in D. destruct (dget v5 w) as [n|] eqn:DN; [|discriminate].
    assert (AW : V4 chat x w) by (apply KV5, dget_keys; congruence). destruct (has_entry x _ _ _ _ w L4V) as [p DP].
    { destruct AW as [[_ A]|[A|A]]; [left; exact A|right; left; exact A|right; right; exact A]. }
    rewrite DP in D. injection D as <-. cbn [fst snd]. split; [|exists p; auto]. specialize (VV5 w). unfold dgetd in VV5. rewrite DN in VV5. destruct VV5 as (k0 & k3 & (k1 & k2 & (k4 & k5 & (k6 & k7 & B1 & B2 & ->) & B3 & ->) & B4 & ->) & B5 & ->).
    exists (k6 + k5 + k2), k7, k3. split; [|split; [exact B2|split; [exact B5|lia]]].
    eapply how_much_ext; [|apply how_much_or; [|apply how_much_or; [|exact B1|exact B3]|exact B4]].
    - intros v. unfold V4. tauto.
    - intros v [[-> A]|[-> A]] [_ (s & e & R & _)]; [destruct R as [[R _] _]; exact ((proj1 (proj2 (proj2 (proj2 R)))) (proj2 A))|destruct R as (_ & _ & R); exact (R A)].
    - intros v [-> A] [_ (s & e & ((R & _) & _) & _)]. exact ((proj1 (proj2 (proj2 (proj2 R)))) (proj2 A)). }
  assert (SUBT : forall c P, sub (x_eoj x) c P -> tabulates c P (fun w n => dget (x_eoj x) w = Some n)).
  { intros c P SC. split; [apply (sub_wf (x_eoj x) c P NE SC)|]. split; [intros w; apply (sub_In (x_eoj x) c P w SC)|]. intros w n D. rewrite <- (sub_get (x_eoj x) c P w NE SC); [exact D|congruence]. }
  split; [apply SUBT, SD1|]. split; [eapply table_tab; [exact TJ5|]; intros w n (k0 & k1 & B0 & B1 & ->); exists k0, k1; auto|]. split; [apply SUBT, S7|]. split; [exact L4A|]. split; [exact L4V|].
  split; [intros s; rewrite X45; apply HAS|]. split; [intros s; rewrite X46; apply HVS|]. split; [intros e; rewrite X47; apply HEO|]. rewrite X41, X42, X43, X44. auto.
Qed.
