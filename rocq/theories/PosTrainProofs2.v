(** * Training of the part-of-speech extractors: predicators, adverbs and the whole *)
From Coq Require Import QArith Reals Permutation.
From Verif Require Import PyBase PyDict PyText PyFile CountLemmas HangleModel HangleSpec TokenizerModel UtilsModel UtilsSpec NounModel NounSpec NounSpec2 JosaModel
  LemmaModel LemmaSpec LemmaProofs PredModel PredSpec3 PredProofs8 PredProps3 PredProps4 PosModel PosSpec PosProps PosTrainModel PosTrainSpec PosTrainProofs.
Open Scope Z_scope.

Lemma learn_ok norm o sents d p : eojeol_table norm 15 (Z.max 2 (o_eojeol o)) sents d -> Forall good_stem (p_stems p) ->
  exists p1, pred_learn p d (o_eomi o) false (o_eomi_features o) (o_eomi_score o) (o_eomi_frequency o) 10 (1 / 2)%R (7 # 10) 100 = Ok p1 /\ learnt_endings o d p p1.
Proof.
  intros TB GS. unfold learnt_endings. destruct (o_eomi o).
  - destruct (C72_learn p d true false (o_eomi_features o) (o_eomi_score o) (o_eomi_frequency o) 10 (1 / 2)%R (7 # 10) 100 (proj1 TB)) as (f & g & D & c1 & S0 & c2 & NF & HF & G & EX & C1 & _ & C2 & PL & PE & PS & PN & PJ & PA & PV); [|exact GS|reflexivity|left; reflexivity|].
    { intros w n D. apply (table_pos _ _ _ _ _ _ _ TB) in D. lia. }
    subst c1 c2. exists (add_eomis p (dkeys D)). split; [exact PL|]. split; [|split; [discriminate|]].
    + repeat split; reflexivity.
    + intros _. exists f, g, D. split; [exact NF|]. split; [exact HF|]. split; [exact G|]. split; [exact EX|]. intros m. rewrite PE. tauto.
  - exists p. split; [apply C72_learn_nothing|]. split; [repeat split; reflexivity|]. split; [reflexivity|discriminate].
Qed.
Lemma predicators_ok norm r o sents nouns : sents <> [] -> (forall s, In s (r_adj r) \/ In s (r_verb r) -> good_stem s) ->
  let js := match pos_f (feature_sets r o) ++ common_f (feature_sets r o) with [] => r_josas r | js => js end in
  exists p A V, train_predicators norm r o sents (feature_sets r o) nouns = Ok (p, (A, V)) /\ p_adj p = r_adj r /\ p_verb p = r_verb r /\ p_josas p = js /\ sets A /\ sets V /\
    forall adv eoj, learnt_predicators norm r o sents (mkX nouns A V (r_adj r) (r_verb r) (p_eomis p) js adv eoj).
Proof.
  intros NE GS js. unfold train_predicators. fold js. set (p := pred_new nouns js (r_adj r) (r_verb r) (r_eomis r)).
  destruct (pred_counter norm sents (o_eojeol o) NE) as (d & ED & TB). rewrite ED. cbn [bind].
  destruct (C72_construction nouns js (r_adj r) (r_verb r) (r_eomis r)) as (PJ & PA & PV & PE & _ & _ & PS & _). fold p in PJ, PA, PV, PE, PS.
  destruct (learn_ok norm o sents d p TB) as (p1 & E1 & L1). { apply Forall_forall. intros s I. apply GS, PS, I. }
  rewrite E1. cbn [bind]. destruct (C71_extract p1 d [] (o_predicator o) (proj1 TB) (NoDup_nil _)) as (used & T & p2 & T' & A & V & U & TO & CL & SE & EX); [intros w n []|].
  rewrite EX. cbn [bind fst]. exists p2, A, V. split; [reflexivity|]. pose proof L1 as [(LJ & LA & LV & _) _]. pose proof CL as [(CJ & CA & CV & _) _].
  rewrite CJ, CA, CV, LJ, LA, LV, PJ, PA, PV. repeat (split; [reflexivity|]). destruct (pred_extract_sets _ _ _ _ _ _ _ (proj1 TB) EX) as [SA SV]. split; [exact SA|]. split; [exact SV|].
  intros adv eoj. exists d, p, p1, used, T, p2, T'. cbn [x_nouns x_josas x_adj x_verb x_eomis]. split; [exact TB|]. split; [reflexivity|]. split; [exact L1|]. split; [|auto].
  intros w n. rewrite U. apply C71_candidates, (proj1 TB).
Qed.

Lemma good_stem_nonempty s : good_stem s -> s <> [].
Proof. intros (p & c & -> & _). destruct p; discriminate. Qed.
Lemma first_word_unique line w w' : first_word line w -> first_word line w' -> w = w'.
Proof. intros F G. destruct (first_word_split _ _ F) as [a A]. destruct (first_word_split _ _ G) as [b B]. congruence. Qed.
Lemma adverbs_ok r : usable r -> exists a0 a1 a2, load_adverbs (r_adverbs r) = Ok a0 /\ stem_to_adverb (r_adj r) default_suffixs = Ok a1 /\ stem_to_adverb (r_verb r) default_suffixs = Ok a2 /\
  forall a, In a (a0 ++ a1 ++ a2) <-> (exists line p q, In line (file_lines (r_adverbs r)) /\ line = p ++ a ++ q /\ Forall (fun c => is_space c = true) p /\ a <> [] /\ Forall (fun c => is_space c = false) a /\ (forall c q', q = c :: q' -> is_space c = true)) \/
                              exists p, In (p ++ u "하") (r_adj r ++ r_verb r) /\ a = p ++ u "히".
Proof.
  intros [GS NB]. destruct (C77_load (r_adverbs r)) as [[(line & I & SP) _]|(_ & a0 & E0 & F)].
  { exfalso. exact (NB line I SP). }
  destruct (proj2 (C77_stem_to_adverb (r_adj r) default_suffixs)) as (a1 & E1 & H1). { right. intros I. apply (good_stem_nonempty []); [apply GS; left; exact I|reflexivity]. }
  destruct (proj2 (C77_stem_to_adverb (r_verb r) default_suffixs)) as (a2 & E2 & H2). { right. intros I. apply (good_stem_nonempty []); [apply GS; right; exact I|reflexivity]. }
  exists a0, a1, a2. repeat (split; [assumption|]). intros a. rewrite !in_app_iff, H1, H2.
  assert (W : forall line w, first_word line w <-> exists p q, line = p ++ w ++ q /\ Forall (fun c => is_space c = true) p /\ w <> [] /\ Forall (fun c => is_space c = false) w /\ (forall c q', q = c :: q' -> is_space c = true)).
  { intros line w. split.
    - intros ([N W] & p & q & -> & P & Q). exists p, q. repeat (split; [first [reflexivity|assumption]|]). intros c q' ->. destruct Q as [Q|(c' & t & Q & C)]; [discriminate|]. congruence.
    - intros (p & q & -> & P & N & W & Q). split; [split; assumption|]. exists p, q. split; [reflexivity|]. split; [exact P|]. destruct q as [|c t]; [left; reflexivity|]. right. exists c, t. split; [reflexivity|]. apply (Q c t eq_refl). }
  assert (L : In a a0 <-> exists line, In line (file_lines (r_adverbs r)) /\ first_word line a).
  { clear -F. induction F as [|line w ls ws FW F IH].
    - split; [intros []|intros (l & [] & _)].
    - cbn [In]. rewrite IH. split.
      + intros [<-|(l & I & X)]; [exists line; auto|exists l; auto].
      + intros (l & [<-|I] & X); [left; exact (first_word_unique _ _ _ FW X)|right; exists l; auto]. }
  rewrite L. split.
  - intros [(line & I & X)|[(p & s & I & [<-|[]] & ->)|(p & s & I & [<-|[]] & ->)]].
    + apply W in X as (p & q & X). left. exists line, p, q. tauto.
    + right. exists p. rewrite in_app_iff. auto.
    + right. exists p. rewrite in_app_iff. auto.
  - intros [(line & p & q & I & X)|(p & I & ->)].
    + left. exists line. split; [exact I|]. apply W. exists p, q. exact X.
    + right. apply in_app_iff in I as [I|I]; [left|right]; exists p, (u "히"); (split; [exact I|split; [left; reflexivity|reflexivity]]).
Qed.

Lemma train_ok norm r o sents : sents <> [] -> unpruned o sents -> usable r -> exists x, pos_train norm r o sents = Ok x /\ trained_from norm r o sents x /\ trained x.
Proof.
  intros NE UP US. destruct (nouns_ok norm r o sents NE UP) as (st & table & ec & TN & CF & LN & EE & TE).
  destruct (predicators_ok norm r o sents (dkeys table) NE (proj1 US)) as (p & A & V & EP & PA & PV & PJ & SA & SV & LP).
  destruct (adverbs_ok r US) as (a0 & a1 & a2 & E0 & E1 & E2 & HA).
  unfold pos_train. rewrite TN. cbn [bind]. rewrite CF, EP. cbn [bind]. rewrite E0. cbn [bind]. rewrite PA, E1. cbn [bind]. rewrite PV, E2. cbn [bind]. rewrite EE. cbn [bind].
  eexists. split; [reflexivity|]. rewrite PJ. split.
  - unfold trained_from. split; [exact TE|]. split; [exact LN|]. split; [apply LP|]. split; [reflexivity|]. split; [reflexivity|]. cbn [x_josas x_adv]. split; [exact (josas_ok r o)|exact HA].
  - unfold trained. cbn [x_eoj x_adj x_verb]. destruct (LP (a0 ++ a1 ++ a2) (ec_counter ec)) as (d & p0 & p1 & cs & T & p2 & T' & _ & _ & _ & _ & _ & _ & (NA & NV & _) & _). cbn [x_adj x_verb] in NA, NV.
    split; [exact (proj1 TE)|]. split; [exact NA|]. split; [exact NV|]. split; [|split].
    + intros w n D. apply (table_pos _ _ _ _ _ _ _ TE) in D as (P & _ & _ & N & F). auto.
    + intros w q D. apply dget_In in D. exact (SA w q D).
    + intros w q D. apply dget_In in D. exact (SV w q D).
Qed.
