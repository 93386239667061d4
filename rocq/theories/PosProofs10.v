(** * Proofs about the part-of-speech extractors: when the extraction does not fail *)
From Coq Require Import QArith Permutation.
From Verif Require Import PyBase PyDict PySort CountLemmas PyText HangleModel TokenizerModel MaxScoreProofs2 UtilsModel NounModel JosaProofs LemmaModel PredModel PosModel PosSpec PosProofs PosProofs2 PosProofs3 PosProofs4 PosProofs5 PosProofs6 PosProofs7 PosProofs8 PosProofs9.
Open Scope Z_scope.

Lemma csp_ok chat s e : decomposable_end s -> decomposable_start e -> exists b, check_suffix_prefix chat s e = Ok b.
Proof.
  intros (p & c & t & -> & DC) (c' & t' & q & -> & DC'). unfold check_suffix_prefix. rewrite (proj2 (at_last_iff (p ++ [c]) c)) by eauto. cbn [bind]. destruct (chat && mem c (u "업닿땋")); [eauto|]. rewrite DC, DC'. destruct t as [[l0 l1] l2], q as [[r0 r1] r2].
  destruct (mem l2 (u "ㄹㅂ")); cbn [bind]; [destruct (mem r0 (u "ㄴㄹㅁㅂ")); [eauto|]|]; destruct ((l1 =? "ㅡ"%ch)%N && (l2 =? " "%ch)%N); eauto.
Qed.
Lemma compound_ok chat preds base known w : ~ In w (dkeys base) -> (forall r p s e, dget base r = Some p -> In (s, e) (snd p) -> decomposable_end s /\ decomposable_start e) -> exists o, compound_lemmas chat preds base known w = Ok o.
Proof.
  intros NB H. unfold compound_lemmas. destruct (separate_lr _ _ 2 w) as [[l r]|]; [|eauto].
  assert (DW : dget base w = None) by (destruct (dget base w) eqn:D; [exfalso; apply NB, dget_keys; congruence|reflexivity]). rewrite DW.
  match goal with |- context [filterM ?f ?L] => destruct (filterM_ok f L) as [fl ->] end; [|cbn [bind]; eauto].
  intros [s e] I. cbn [fst snd]. destruct (dget base r) as [p|] eqn:D; [|destruct I]. apply in_map_iff in I as ([s0 e0] & Q & I). cbn [fst snd] in Q. injection Q as <- <-. destruct (H r p s0 e0 D I) as [(q & c & t & -> & DC) HE]. apply csp_ok; [|exact HE]. exists (l ++ q), c, t. split; [apply app_assoc|exact DC].
Qed.
Lemma mapM_ok {A B} (f : A -> res B) l : (forall y, In y l -> exists z, f y = Ok z) -> exists r, mapM f l = Ok r.
Proof.
  induction l as [|y l IH]; intros H; [exists []; reflexivity|]. cbn [mapM]. destruct (H y (or_introl eq_refl)) as [z ->]. cbn [bind]. destruct IH as [r ->]; [intros; apply H; right; assumption|]. cbn [bind]. eauto.
Qed.
Lemma parse_ok chat e preds base known : (forall w, In w (dkeys e) -> ~ In w (dkeys base)) -> (forall r p s e, dget base r = Some p -> In (s, e) (snd p) -> decomposable_end s /\ decomposable_start e) -> exists r, parse_compounds chat e preds base known = Ok r.
Proof.
  intros NB H. unfold parse_compounds, compounds_of. match goal with |- context [mapM ?f e] => destruct (mapM_ok f e) as [ls ->] end; [|cbn [bind]; eauto].
  intros [w n] I. cbn [fst snd]. destruct (compound_ok chat preds base known w) as [o ->]; [apply NB, In_dkeys_fst; eauto|exact H|]. cbn [bind]. eauto.
Qed.
Theorem extract_total chat0 x0 : let x := with_josas chat0 x0 in trained x ->
  (forall w p s e, dget (x_adj x) w = Some p \/ dget (x_verb x) w = Some p -> In (s, e) (snd p) -> decomposable_end s /\ decomposable_start e) -> exists r, pos_extract chat0 x0 = Ok r.
Proof.
  intros x TR H. unfold pos_extract. fold (is_chat chat0). fold (with_josas chat0 x0). change (with_josas chat0 x0) with x. set (chat := is_chat chat0).
  destruct (match_word x) as [e1 [[[n1 a1] v1] d1]] eqn:M1. pose proof TR as (NE & NA & NV & HE & LA & LV).
  destruct (match_word_spec x e1 n1 a1 v1 d1 M1) as (S1 & SN1 & SA1 & SV1 & SD1).
  destruct (match_noun_and_word e1 n1 a1 v1 (x_josas x)) as [e2 [[[n2 a2] v2] j2]] eqn:M2.
  destruct (noun_word_spec x NE e1 n1 a1 v1 e2 n2 a2 v2 j2 S1 SN1 SA1 SV1 M2) as (S2 & TN2 & TA2 & TV2 & TJ2).
  assert (NB : forall w, In w (dkeys e2) -> ~ In w (dkeys (x_adj x)) /\ ~ In w (dkeys (x_verb x))) by (intros w I; apply (sub_In (x_eoj x) e2 _ w S2) in I as [R _]; split; apply R).
  assert (M3 : exists r, match_predicator_compounds chat x e2 a2 v2 = Ok r).
  { unfold match_predicator_compounds. edestruct (parse_ok chat e2 (dkeys (x_adj x) ++ dkeys (x_verb x)) (x_adj x)) as [[[cs ss] cn] P1]; [intros w I; apply (NB w I)|intros r p s e D I; apply (H r p s e); auto|]. rewrite P1. cbn [bind].
    edestruct (parse_ok chat e2 (dkeys (x_adj x) ++ dkeys (x_verb x)) (x_verb x)) as [[[cs' ss'] cn'] P2]; [intros w I; apply (NB w I)|intros r p s e D I; apply (H r p s e); auto|]. rewrite P2. cbn [bind]. eauto. }
  destruct M3 as [[[[x3 e3] a3] v3] M3]. rewrite M3. cbn [bind].
  assert (PE : forall w n, dget (x_eoj x) w = Some n -> 0 < n) by (intros w n D; apply (HE w n D)).
  assert (WW : forall w, In w (dkeys (x_eoj x)) -> w <> []) by (intros w I; apply (WE x TR w I)).
  destruct (stage3_spec chat x NE PE NA NV LA LV e2 a2 v2 _ _ x3 e3 a3 v3 S2 TA2 TV2 M3) as ((X31 & X32 & X33 & X34) & HAS & HVS & HEO & L3A & L3V & S3 & TA3 & TV3 & _).
  destruct (lemmatizing_predicators x3 e3 a3 v3) as [[[x4 e4] a4] v4] eqn:M4.
  destruct (stage4_spec chat x NE WW x3 e3 a3 v3 _ _ _ _ x4 e4 a4 v4 X34 HAS HVS HEO L3A L3V S3 TA3 TV3 M4) as (_ & _ & _ & S4 & _).
  destruct (match_syllable_noun_and_r e4 n2 a4 v4 j2) as [e5 [[[n5 a5] v5] j5]] eqn:M5.
  assert (SUB5 : forall w, In w (dkeys (remove_irregular x4 e5)) -> In w (dkeys (x_eoj x))).
  { intros w I. unfold remove_irregular, unrecognized in I. apply dfilter_In in I as [I _]. unfold match_syllable_noun_and_r in M5. destruct (syllable_noun_and_r e4 (n2, a4, [])) as [[y1 y2] y3]. destruct (syllable_noun_and_r e4 (y1, v4, y3)) as [[y4 y5] y6]. destruct (syllable_noun_and_r e4 (y4, j2, y6)) as [[y7 y8] y9]. injection M5 as <- _ _ _ _. unfold unrecognized in I. apply dfilter_In in I as [I _].
    apply (sub_In (x_eoj x) e4 _ w S4) in I as [[[[I _] _] _] _]. exact I. }
  assert (M7 : exists r, (if chat then Ok (remove_irregular x4 e5, n5) else match_compound_nouns (remove_irregular x4 e5) n5 a5 v5 j5) = Ok r).
  { destruct chat; [eauto|]. unfold match_compound_nouns. match goal with |- context [mapM ?f ?e] => destruct (mapM_ok f e) as [ls ->] end; [|cbn [bind]; eauto].
    intros [w n] I. cbn [fst]. assert (J : In w (dkeys (x_eoj x))) by (apply SUB5, In_dkeys_fst; eauto). destruct (WE x TR w J) as [NN FW]. unfold first_tokens, ms_tokenize. rewrite (split_word w NN FW). cbn [mapM].
    match goal with |- context [ms_recursive ?sc 0%Q 10 w] => destruct (ms_recursive_tiles sc 0%Q 10 w NN) as (out & R & _) end; [lia|]. rewrite R. cbn [bind]. eauto. }
  destruct M7 as [[e7 n7] M7]. rewrite M7. cbn [bind]. eauto.
Qed.
