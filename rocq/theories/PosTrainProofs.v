(** * Training of the part-of-speech extractors: proofs *)
From Coq Require Import QArith Reals Permutation.
From Verif Require Import PyBase PyDict PyText PyFile CountLemmas HangleModel HangleSpec TokenizerModel UtilsModel UtilsSpec UtilsProofs UtilsProofs2 UtilsProofs4 UtilsProofs5 UtilsProps UtilsProps2 NounModel NounSpec NounSpec2 NounProofs NounProofs2 NounProofs3 NounProofs6 NounProps2 JosaModel
  LemmaModel LemmaSpec LemmaProofs PredModel PredSpec3 PredProofs8 PredProps3 PredProps4 PosModel PosSpec PosProps PosTrainModel PosTrainSpec.
Open Scope Z_scope.

Lemma occurrences_word w sents : 0 < occurrences w sents -> w <> [] /\ Forall (fun c => is_space c = false) w.
Proof.
  unfold occurrences. intros H. destruct (filter (eqb w) (concat (map split sents))) as [|x l] eqn:F; [cbn in H; lia|].
  assert (I : In x (filter (eqb w) (concat (map split sents)))) by (rewrite F; left; reflexivity). apply filter_In in I as [I E]. apply eqb_eq in E. subst x.
  apply in_concat in I as (ws & I & J). apply in_map_iff in I as (s & <- & _). pose proof (split_words s) as W. rewrite Forall_forall in W. destruct (W _ J) as [NE A]. split; [exact NE|].
  eapply Forall_impl; [|exact A]. intros c C. unfold nonspace in C. apply negb_true_iff in C. exact C.
Qed.
(** the counter of the noun extractor *)
Lemma counted pre mc sents : sents <> [] -> mc <= 1 \/ Z.of_nat (length sents) <= 500000 ->
  exists ec, ec_new pre mc 19 500000 (Some sents) = Ok ec /\ eojeol_table pre 19 mc sents (ec_counter ec).
Proof.
  intros NE H.
  assert (K : exists ec, ec_new pre mc 19 500000 (Some sents) = Ok ec /\ cnt_ok (ec_counter ec)).
  { unfold ec_new, counting_from_sents. destruct sents as [|s ss]; [congruence|]. cbn [bind]. eexists. split; [reflexivity|]. cbn [mkCounter ec_counter]. apply cnt_ok_filter, loop_ok. split; constructor. }
  destruct K as (ec & E & C). exists ec. split; [exact E|]. split; [exact (proj1 C)|]. intros w n.
  assert (G : ec_get ec w = if (Z.of_nat (length w) <=? 19) && (mc <=? n) then n else 0).
  { destruct (Z.leb_spec mc 1) as [M|M].
    - destruct (C33_exact_without_filtering pre mc 19 500000 sents w NE (or_introl M)) as (ec' & E' & G & _). rewrite E in E'. injection E' as <-. exact G.
    - destruct (C33_filtered_counts_a_suffix pre mc 19 500000 sents w NE ltac:(lia)) as (ec' & E' & G & U). rewrite E in E'. injection E' as <-. fold n in U.
      destruct (Z.leb_spec (Z.of_nat (length w)) 19) as [L|L]; cbn [andb]; [|destruct G as [G|(_ & G & _)]; [exact G|lia]].
      destruct (Z.leb_spec mc n) as [A|A]; [|destruct G as [G|(G & _)]; [exact G|lia]].
      destruct (C33_filtered_exact_when_frequent pre mc 19 500000 sents w NE ltac:(lia) M L A) as (ec' & E' & X).
      { intros m [M1 M2] D. exfalso. destruct H as [H|H]; [lia|]. rewrite Z.mod_small in D by lia. lia. }
      rewrite E in E'. injection E' as <-. exact X. }
  unfold ec_get, dgetd in G. pose proof (occurrences_nonneg w (map pre sents)) as NN. fold n in NN. destruct (dget (ec_counter ec) w) as [k|] eqn:D.
  - pose proof (cnt_get_pos _ _ _ C D) as P. destruct (Z.of_nat (length w) <=? 19); cbn [andb] in *; [|lia]. destruct (Z.leb_spec mc n) as [A|A]; [|lia]. subst k. destruct (Z.leb_spec (Z.max 1 mc) n); [reflexivity|lia].
  - destruct (Z.of_nat (length w) <=? 19); cbn [andb] in *; [|reflexivity]. destruct (Z.leb_spec mc n) as [A|A]; destruct (Z.leb_spec (Z.max 1 mc) n); try reflexivity; lia.
Qed.
Lemma table_pos pre lim mc sents d w n : eojeol_table pre lim mc sents d -> dget d w = Some n -> 0 < n /\ n = occurrences w (map pre sents) /\ Z.of_nat (length w) <= lim /\ w <> [] /\ Forall (fun c => is_space c = false) w.
Proof.
  intros [_ H] D. specialize (H w). cbv zeta in H. rewrite D in H. destruct (Z.leb_spec (Z.of_nat (length w)) lim) as [L|L]; cbn [andb] in H; [|discriminate].
  destruct (Z.leb_spec (Z.max 1 mc) (occurrences w (map pre sents))) as [M|M]; [|discriminate]. injection H as ->. destruct (occurrences_word w (map pre sents)) as [A B]; [lia|]. repeat split; try assumption; lia.
Qed.

(** ** nouns *)
Lemma reach_origin ec lm rm g g' : NoDup (map fst (ec_counter ec)) -> 1 < lm -> 0 < rm -> train_counter ec lm rm = Ok g -> reach g g' -> origin g' = Some (lr g).
Proof.
  intros N A B TR RE. destruct (trained_uni ec lm rm N A B) as (g0 & E0 & U & O & _). rewrite TR in E0. injection E0 as <-.
  destruct RE as (ops & F & ->). destruct (history_origin ops F g (proj1 U)) as (X & _). rewrite X. exact O.
Qed.
Lemma extract_reach josa suffix c g ms mf st nouns : noun_extract josa suffix josa_dom default_postprocessing false false c g ms mf false = Ok (st, nouns) -> n_conf st = c /\ reach g (n_graph st).
Proof.
  unfold noun_extract. rewrite (surjective_pairing (batch_predict c g (dkeys (noun_candidates c g None)) ms)). cbn [bind]. set (b := batch_predict c g (dkeys (noun_candidates c g None)) ms).
  set (pp := post_processing _ _ _ _ _ _). rewrite (surjective_pairing (check_covered c (fst b) pp 0)). intros E.
  assert (ES : st = mkN c (fst (check_covered c (fst b) pp 0)) (snd (check_covered c (fst b) pp 0))) by congruence. subst st. cbn [n_conf n_graph]. split; [reflexivity|].
  unfold check_covered. apply reach_cover. cbn [fst]. apply reach_reset, reach_batch, reach_refl.
Qed.
Lemma nouns_ok norm r o sents : sents <> [] -> unpruned o sents -> let pre := if o_normalized o then norm else fun s => s in
  exists st table ec, train_nouns norm r o sents = Ok (st, table) /\ n_conf st = feature_sets r o /\ learnt_nouns pre r o sents (dkeys table) /\
    to_EojeolCounter (n_graph st) true = Ok ec /\ eojeol_table pre 19 (o_eojeol o) sents (ec_counter ec).
Proof.
  intros NE UP pre. destruct (counted pre (o_eojeol o) sents NE UP) as (ec & E & TB). set (c := feature_sets r o).
  pose proof TB as [ND _].
  destruct (extract_all (r_nj r) (r_suffix r) ec 10 9 c false false (o_noun_score o) (o_noun_frequency o) false ND) as (g & g' & k & table & comps & t & X); [lia|lia| |discriminate|].
  { intros e n D. apply (table_pos _ _ _ _ _ _ _ TB) in D. lia. }
  cbv zeta in X. destruct X as (TR & NX & -> & EX & _).
  assert (TN : train_nouns norm r o sents = Ok (mkN c g' k, table)).
  { unfold train_nouns, train_sents. fold pre. change (10 + 9) with 19. rewrite E. cbn [bind]. rewrite TR. cbn [bind]. exact NX. }
  destruct (extract_reach _ _ _ _ _ _ _ _ NX) as [_ RE]. cbn [n_graph] in RE.
  pose proof (reach_origin ec 10 9 g g' ND ltac:(lia) ltac:(lia) TR RE) as OR.
  exists (mkN c g' k), table, (mkCounter (flat_counter (lr g))). split; [exact TN|]. split; [reflexivity|]. split; [|split].
  - exists (ec_counter ec), (snd (batch_predict c g (dkeys (noun_candidates c g None)) (o_noun_score o))), t, table. split; [exact TB|]. split; [|split; [exact EX|reflexivity]].
    destruct (C65_prediction ec 10 9 c (o_noun_score o) ND ltac:(lia) ltac:(lia)) as (g0 & E0 & P). rewrite TR in E0. injection E0 as <-. cbv zeta in P.
    destruct (batch_predict c g (dkeys (noun_candidates c g None)) (o_noun_score o)) as [gb S]. cbn [snd]. destruct P as (P1 & P2 & _). split; assumption.
  - cbn [n_graph]. unfold to_EojeolCounter. rewrite OR. reflexivity.
  - destruct (C31_back_to_counter ec 10 9 false false ND ltac:(lia) ltac:(lia)) as (g0 & c' & E0 & E1 & W). change (to_lrgraph ec 10 9 false) with (train_counter ec 10 9) in E0. rewrite TR in E0. injection E0 as <-.
    unfold to_EojeolCounter in E1. assert (EC : c' = mkCounter (flat_counter (lr g))) by congruence. subst c'. split.
    + cbn [mkCounter ec_counter]. rewrite flat_counter_dict_of. apply (dwf_dict_of (flat_list (lr g))).
    + intros w n. rewrite W. destruct TB as [_ TB]. specialize (TB w). cbv zeta in TB. fold n in TB. rewrite TB. change (10 + 9) with 19.
      destruct w as [|x w].
      * cbn [length Nat.eqb negb andb]. assert (n = 0) as ->.
        { unfold n. pose proof (occurrences_nonneg [] (map pre sents)). destruct (Z.eq_dec (occurrences [] (map pre sents)) 0) as [|NZ]; [assumption|]. destruct (occurrences_word [] (map pre sents)) as [X _]; [lia|congruence]. }
        destruct (Z.leb_spec (Z.max 1 (o_eojeol o)) 0); [lia|]. rewrite andb_false_r. reflexivity.
      * cbn [length Nat.eqb negb andb]. destruct (Z.of_nat _ <=? 19); reflexivity.
Qed.

(** ** josas and adverbs *)
Lemma read_features_In files j : In j (read_features files) <-> listed_in files j.
Proof.
  unfold read_features, listed_in. rewrite in_concat. split.
  - intros (l & I & J). apply in_map_iff in I as (content & <- & I). apply in_map_iff in J as (line & <- & J). eauto.
  - intros (content & line & I & J & ->). exists (map strip (file_lines content)). split; [apply in_map_iff; eauto|]. apply in_map, J.
Qed.
Lemma features_In r o j : In j (pos_f (feature_sets r o) ++ common_f (feature_sets r o)) <-> listed_in (r_pos r) j.
Proof.
  rewrite <- read_features_In. unfold feature_sets, load_predictor. cbn [pos_f common_f]. rewrite in_app_iff, !filter_In, negb_true_iff.
  set (pos := read_features (r_pos r)). set (neg := read_features (r_neg r)). split; [tauto|]. intros I. destruct (mem j (filter (fun f => mem f neg) pos)) eqn:M; [|left; auto].
  right. apply mem_In in M. apply filter_In in M. exact M.
Qed.
Lemma josas_ok r o j : In j (match pos_f (feature_sets r o) ++ common_f (feature_sets r o) with [] => r_josas r | js => js end) <->
  listed_in (r_pos r) j \/ (forall w, ~ listed_in (r_pos r) w) /\ In j (r_josas r).
Proof.
  pose proof (features_In r o) as F. destruct (pos_f (feature_sets r o) ++ common_f (feature_sets r o)) as [|x l].
  - split; [intros I; right; split; [intros w W; apply F in W; destruct W|exact I]|]. intros [I|[_ I]]; [apply F in I; destruct I|exact I].
  - rewrite F. split; [left; assumption|]. intros [I|[H _]]; [exact I|]. exfalso. apply (H x), F. left. reflexivity.
Qed.

(** ** predicators *)
Lemma pred_counter norm sents mc : sents <> [] -> exists d, pred_train_sents norm false sents mc = Ok d /\ eojeol_table norm 15 (Z.max 2 mc) sents d.
Proof.
  intros NE. destruct (C72_train_sentences norm false sents mc [] NE) as (d & E & ND & _). exists d. split; [exact E|]. split; [exact ND|]. intros w n.
  destruct (C72_train_sentences norm false sents mc w NE) as (d' & E' & _ & D). rewrite E in E'. injection E' as <-. cbv zeta in D. rewrite D. fold n. replace (Z.max 1 (Z.max 2 mc)) with (Z.max 2 mc) by lia. reflexivity.
Qed.
Definition sets (d : dict str predicator) : Prop := forall w p, In (w, p) d -> NoDup (snd p).
Lemma dset_In_inv {V} (d : dict str V) k v w p : In (w, p) (dset d k v) -> In (w, p) d \/ p = v.
Proof.
  induction d as [|[k0 v0] d IH]; cbn [dset]; [intros [E|[]]; injection E as _ <-; right; reflexivity|].
  destruct (eqb k0 k); cbn [In]; intros [E|I].
  - injection E as _ <-. right. reflexivity.
  - left. right. exact I.
  - left. left. exact E.
  - destruct (IH I) as [J|J]; [left; right; exact J|right; exact J].
Qed.
Lemma sets_dset d k v : sets d -> NoDup (snd v) -> sets (dset d k v).
Proof. intros S N w p I. apply dset_In_inv in I as [I| ->]; [exact (S w p I)|exact N]. Qed.
Lemma sets_drop m d w : sets d -> sets (drop_eomi m d w).
Proof.
  intros S. unfold drop_eomi. destruct (dget d w) as [p|] eqn:D; [|exact S]. apply dget_In in D. destruct (length (snd p) =? 1)%nat.
  - intros w' p' I. unfold dpop in I. apply filter_In in I as [I _]. exact (S w' p' I).
  - apply sets_dset; [exact S|]. cbn [snd]. apply NoDup_filter, (S w p D).
Qed.
Lemma sets_remove c T ws : sets T -> sets (snd (remove_wrong c T ws)).
Proof.
  unfold remove_wrong. cbn [snd]. generalize (concat (map (fun ew => match wrong_words (p_nouns c) (fst ew) (snd ew) with Some (b, ws) => [(fst ew, (b, ws))] | None => [] end) ws)). intros ms. revert T.
  induction ms as [|[m [b l]] ms IH]; intros T S; cbn [fold_left]; [exact S|]. apply IH. cbn [fst snd]. revert T S. induction l as [|w l IHl]; intros T S; cbn [fold_left]; [exact S|]. apply IHl, sets_drop, S.
Qed.
Lemma split_lemmas_sub {V} c (preds : dict str V) ls a b : split_lemmas c preds ls = Ok (a, b) -> NoDup ls -> (NoDup a /\ NoDup b) /\ forall x, In x a \/ In x b -> In x ls.
Proof.
  revert a b. induction ls as [|l ls IH]; intros a b E N; cbn [split_lemmas] in E.
  - injection E as <- <-. split; [split; constructor|]. intros x [[]|[]].
  - destruct (lemma_is_verb c preds (fst l)) as [v|]; [|discriminate]. cbn [bind] in E. destruct (split_lemmas c preds ls) as [[a' b']|] eqn:E'; [|discriminate]. cbn [bind fst snd] in E.
    apply NoDup_cons_iff in N as [NI N]. destruct (IH a' b' eq_refl N) as [[NA NB] SUB]. destruct v.
    + assert (EA : a = a' /\ b = l :: b') by (split; congruence). destruct EA as [-> ->]. split; [split; [exact NA|constructor; [intros I; apply NI, SUB; right; exact I|exact NB]]|]. intros x [I|[<-|I]]; [right; apply SUB; left; exact I|left; reflexivity|right; apply SUB; right; exact I].
    + assert (EA : a = l :: a' /\ b = b') by (split; congruence). destruct EA as [-> ->]. split; [split; [constructor; [intros I; apply NI, SUB; left; exact I|exact NA]|exact NB]|]. intros x [[<-|I]|I]; [left; reflexivity|right; apply SUB; left; exact I|right; apply SUB; right; exact I].
Qed.
Lemma sets_separate c T A V : sets T -> separate c T = Ok (A, V) -> sets A /\ sets V.
Proof.
  intros S E. unfold separate in E.
  assert (H : forall L A0 V0, (forall w p, In (w, p) L -> NoDup (snd p)) -> sets A0 -> sets V0 -> foldM (separate_step c T) L (A0, V0) = Ok (A, V) -> sets A /\ sets V).
  { clear E. induction L as [|[w p] L IH]; intros A0 V0 SL SA SV E; cbn [foldM] in E; [assert (X : A0 = A /\ V0 = V) by (split; congruence); destruct X as [<- <-]; split; assumption|].
    unfold separate_step in E at 1. cbn [fst snd] in E. destruct (split_lemmas c T (snd p)) as [[a b]|] eqn:SP; [|discriminate]. cbn [bind fst snd] in E.
    destruct (split_lemmas_sub _ _ _ _ _ SP (SL w p (or_introl eq_refl))) as [[NA NB] _].
    refine (IH _ _ (fun w' p' I => SL w' p' (or_intror I)) _ _ E).
    - destruct a; [exact SA|]. apply sets_dset; [exact SA|exact NA].
    - destruct b; [exact SV|]. apply sets_dset; [exact SV|exact NB]. }
  refine (H T [] [] S _ _ E); intros w p [].
Qed.
Lemma pred_extract_sets c counter mf c' A V cov : NoDup (dkeys counter) -> pred_extract c counter [] mf = Ok (c', (A, V), cov) -> sets A /\ sets V.
Proof.
  intros ND E. unfold pred_extract, as_lemma_candidates in E. set (cs := default_candidates counter mf) in E.
  assert (NC : NoDup (dkeys cs)) by (apply (NoDup_filter_map (K:=str)); exact ND).
  destruct (C71_table c cs NC) as (st & ET & (NT & _ & TV) & _).
  { intros w n I. apply (In_dget (V:=Z)) in I; [|exact NC]. apply (C71_candidates counter mf w n ND) in I. apply I. }
  rewrite ET in E. cbn [bind] in E. destruct (remove_wrong c (t_lemmas st) (t_words st)) as [c1 T1] eqn:RW. destruct (separate c1 T1) as [[A1 V1]|] eqn:SE; [|discriminate]. cbn [bind] in E.
  assert (X : A1 = A /\ V1 = V) by (split; congruence). destruct X as [-> ->]. refine (sets_separate c1 T1 A V _ SE). replace T1 with (snd (remove_wrong c (t_lemmas st) (t_words st))) by (rewrite RW; reflexivity). apply sets_remove.
  intros w [n ls] I. apply (In_dget (V:=predicator)) in I; [|exact NT]. destruct (TV w n ls I) as (_ & N & _). exact N.
Qed.
