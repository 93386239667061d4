(** * C84: what NewsPOSExtractor and ChatPOSExtractor learn from a corpus *)
From Coq Require Import QArith Reals Permutation.
From Verif Require Import NormalizerModel PyBase PyDict PyText PyFile CountLemmas HangleModel HangleSpec TokenizerModel UtilsModel UtilsSpec NounModel NounSpec NounSpec2 JosaModel
  LemmaModel LemmaSpec LemmaProofs PredModel PredSpec3 PosModel PosSpec PosProps PosTrainModel PosTrainSpec PosTrainProofs PosTrainProofs2.
Open Scope Z_scope.

(** Training on a non-empty corpus succeeds, and leaves in the extractor what [trained_from] says. *)
Theorem C84_train : forall norm r o sents, sents <> [] -> unpruned o sents -> usable r -> exists x, pos_train norm r o sents = Ok x /\ trained_from norm r o sents x.
Proof. intros norm r o sents NE UP US. destruct (train_ok norm r o sents NE UP US) as (x & E & T & _). eauto. Qed.
Print Assumptions C84_train.
(** The extractor is one that the theorems about extract (C77-C79) speak of. *)
Theorem C84_trained : forall norm r o sents x, sents <> [] -> unpruned o sents -> usable r -> pos_train norm r o sents = Ok x -> trained x.
Proof. intros norm r o sents x NE UP US E. destruct (train_ok norm r o sents NE UP US) as (x' & E' & _ & T). rewrite E in E'. injection E' as <-. exact T. Qed.
Print Assumptions C84_trained.
(** An empty corpus is rejected. *)
Theorem C84_empty : forall norm r o chat, pos_train_extract chat norm r o [] = Err ValueError.
Proof. reflexivity. Qed.
Print Assumptions C84_empty.

Lemma analyses norm r o sents x w p s e : learnt_predicators norm r o sents x -> dget (x_adj x) w = Some p \/ dget (x_verb x) w = Some p -> In (s, e) (snd p) ->
  (In s (r_adj r) \/ In s (r_verb r)) /\ In e (x_eomis x) /\ fst p = occurrences w (map norm sents) /\ 2 <= fst p /\ o_predicator o < fst p /\ Forall syllable w /\ surface_of s e w.
Proof.
  intros (d & p0 & p1 & cands & T & p2 & T' & TB & EP & ((LJ & LA & LV & LS & LN) & _) & HC & TO & CL & SE & EM) D I.
  destruct TO as (_ & _ & TV). pose proof CL as ((_ & _ & _ & CS & CN) & CE & NT' & C1 & _). destruct SE as (_ & _ & S0 & S1).
  assert (X : exists ls, dget T' w = Some (fst p, ls) /\ In (s, e) ls).
  { destruct (dget T' w) as [[n ls]|] eqn:ET; [|destruct (S0 w ET) as [Q1 Q2]; destruct D; congruence].
    destruct (S1 w n ls ET) as (la & lv & _ & HA & HV & DA & DV). destruct D as [D|D]; [rewrite DA in D; destruct la; [discriminate|]|rewrite DV in D; destruct lv; [discriminate|]]; injection D as <-; cbn [fst snd] in *;
      exists ls; (split; [reflexivity|]); [apply HA, I|apply HV, I]. }
  destruct X as (ls & ET & IL). destruct (C1 w (fst p) ls ET) as (ls0 & ET0 & L). destruct (proj1 (L s e) IL) as [IL0 NW]. destruct (TV w (fst p) ls0 ET0) as (DC & _ & K). destruct (proj1 (K s e) IL0) as (IS & IE & l & r0 & -> & _ & (_ & _ & SU)).
  apply HC in DC as (DD & MP & SY). destruct (table_pos _ _ _ _ _ _ _ TB DD) as (_ & OC & _). pose proof (proj2 TB (l ++ r0)) as G. cbv zeta in G. rewrite DD in G. rewrite <- OC in G.
  destruct (Z.leb_spec (Z.max 1 (Z.max 2 (o_eojeol o))) (fst p)) as [M|M]; [|rewrite andb_false_r in G; discriminate].
  split; [|split; [|split; [|split; [|split; [|split]]]]]; try assumption; try lia.
  - rewrite LS, EP in IS. destruct (PredProps4.C72_construction (x_nouns x) (x_josas x) (r_adj r) (r_verb r) (r_eomis r)) as (_ & _ & _ & _ & _ & _ & PS & _). apply PS, IS.
  - rewrite EM. apply CE. split; [exact IE|]. intros [RS RO]. apply NW. split; [exact RS|left; exact RO].
Qed.
(** The adjectives and verbs: words of the normalized corpus with the number of their occurrences, at least two and more than the minimum; each
    analysis has a stem of the resources and an ending of the extractor, and conjugates to the word. *)
Theorem C84_predicators : forall norm r o sents x w p s e, sents <> [] -> unpruned o sents -> usable r -> pos_train norm r o sents = Ok x ->
  dget (x_adj x) w = Some p \/ dget (x_verb x) w = Some p -> In (s, e) (snd p) ->
  (In s (r_adj r) \/ In s (r_verb r)) /\ In e (x_eomis x) /\ fst p = occurrences w (map norm sents) /\ 2 <= fst p /\ o_predicator o < fst p /\ Forall syllable w /\ surface_of s e w.
Proof.
  intros norm r o sents x w p s e NE UP US E. destruct (train_ok norm r o sents NE UP US) as (x' & E' & (_ & _ & LP & _) & _). rewrite E in E'. injection E' as <-. exact (analyses norm r o sents x w p s e LP).
Qed.
Print Assumptions C84_predicators.

(** train_extract succeeds on every non-empty corpus, for news and for chats. *)
Theorem C84_train_extract : forall chat norm r o sents, sents <> [] -> unpruned o sents -> usable r ->
  exists x x' t, pos_train norm r o sents = Ok x /\ pos_train_extract chat norm r o sents = Ok (x', t) /\ pos_extract chat x = Ok (x', t).
Proof.
  intros chat norm r o sents NE UP US. destruct (train_ok norm r o sents NE UP US) as (x & E & (_ & _ & LP & _) & T).
  assert (T' : trained (with_josas chat x)) by (destruct chat; exact T).
  assert (DA : x_adj (with_josas chat x) = x_adj x) by (destruct chat; reflexivity). assert (DV : x_verb (with_josas chat x) = x_verb x) by (destruct chat; reflexivity).
  destruct (C79_total chat x T') as (x' & t & EX).
  { rewrite DA, DV. intros w p s e D I. destruct (analyses norm r o sents x w p s e LP D I) as (_ & _ & _ & _ & _ & _ & (q & a & b & f & E0 & o0 & v & g & t & -> & J & -> & H & _)). split.
    - exists q, (syl a b f), (a, b, f). split; [reflexivity|]. apply (syl_decompose a b f J).
    - assert (K : exists q, decompose E0 = Some q). { destruct H as [[J' ->]|[H _]]; [exists (o0, v, g); apply (syl_decompose o0 v g J')|]. destruct H as [->|[->|[->|[->| ->]]]]; eexists; vm_compute; reflexivity. }
      destruct K as [k K]. exists E0, t, k. auto. }
  exists x, x', t. split; [exact E|]. split; [|exact EX]. unfold pos_train_extract. rewrite E. cbn [bind]. exact EX.
Qed.
Print Assumptions C84_train_extract.

(** The reported adverbs and unrecognised words are words of the corpus with the number of their occurrences in it. *)
Theorem C84_counts : forall chat norm r o sents x' t, let pre := if o_normalized o then norm else fun s => s in sents <> [] -> unpruned o sents -> usable r -> pos_train_extract chat norm r o sents = Ok (x', t) ->
  (forall w n, dget (g_adv t) w = Some n -> n = occurrences w (map pre sents) /\ 0 < n /\ In w (x_adv x')) /\ (forall w n, dget (g_unknown t) w = Some n -> n = occurrences w (map pre sents) /\ 0 < n) /\
  (forall w, 1 <= occurrences w (map pre sents) -> o_eojeol o <= occurrences w (map pre sents) -> (length w <= 19)%nat -> In w (x_adv x') -> dget (g_adv t) w <> None).
Proof.
  intros chat norm r o sents x' t pre NE UP US E. destruct (train_ok norm r o sents NE UP US) as (x & EX & (TE & _) & T). unfold pos_train_extract in E. rewrite EX in E. cbn [bind] in E.
  assert (T' : trained (with_josas chat x)) by (destruct chat; exact T). destruct (C78_rest chat x x' t T' E) as ((_ & DA & A) & _ & (_ & _ & U) & _ & _ & XA & XE).
  assert (EJ : x_eoj (with_josas chat x) = x_eoj x) by (destruct chat; reflexivity). rewrite EJ in *. split; [|split].
  - intros w n D. pose proof (A w n D) as D'. apply (table_pos _ _ _ _ _ _ _ TE) in D' as (P & OC & _). split; [exact OC|]. split; [exact P|]. rewrite XA. assert (K : In w (dkeys (g_adv t))) by (apply dget_keys; congruence). apply DA in K. apply K.
  - intros w n D. apply U in D. apply (table_pos _ _ _ _ _ _ _ TE) in D as (P & OC & _). auto.
  - intros w O1 O2 L I ND. apply dget_None in ND. apply ND, DA. rewrite XA in I. split; [|exact I]. unfold eojeol. rewrite EJ. apply dget_keys. rewrite (proj2 TE). cbv zeta. fold pre.
    destruct (Z.leb_spec (Z.of_nat (length w)) 19); [|lia]. destruct (Z.leb_spec (Z.max 1 (o_eojeol o)) (occurrences w (map pre sents))); [discriminate|lia].
Qed.
Print Assumptions C84_counts.

(** ** a corpus *)
Definition ex_res : resources := mkRes [u "은
는
을
이"] [u "고
다"] [u "은"] [] [u "은"] [u "좋"; u "조용하"] [u "먹"; u "자"] [u "고"; u "은"; u "다"] (u "매우 3
아주 2
").
Definition ex_opt : options := mkOpt true true 1 30 (3 # 10) 1 1 1 5 (3 # 10) 1.
Definition ex_sents : list str := [u "사과는 매우 좋은 사과 먹고"; u "사과를 매우 먹고 조용히"; u "사과은 사과이 좋은 ㅎㅎㅎ 자고 사과을"].
Definition summary (x : res (posx * postags)) := match x with Ok (x, t) => Ok (g_noun t, g_adj t, g_verb t, g_adv t, g_unknown t) | Err e => Err e end.
(** the hypotheses are met, and there are nouns, adjectives, verbs, adverbs and unknown words *)
Lemma ex_usable : usable ex_res.
Proof.
  split.
  - assert (F : forallb (fun s => match rev s with [c] => character_is_complete_korean c && negb (N.eqb c "르"%ch) | c :: _ => character_is_complete_korean c && negb (N.eqb c "르"%ch) | [] => false end) (r_adj ex_res ++ r_verb ex_res) = true) by (vm_compute; reflexivity).
    intros s I. rewrite forallb_forall in F. specialize (F s ltac:(apply in_app_iff; exact I)). cbv beta in F. destruct s as [|c p] using rev_ind; [discriminate|]. clear IHp. rewrite rev_app_distr in F. cbn [rev app] in F.
    assert (G : character_is_complete_korean c && negb (N.eqb c "르"%ch) = true) by (destruct (rev p); exact F). apply andb_true_iff in G as [G1 G2].
    exists p, c. split; [reflexivity|]. split; [apply complete_syllable, G1|]. intros ->. discriminate G2.
  - assert (F : forallb (fun l : str => negb (forallb is_space l)) (file_lines (r_adverbs ex_res)) = true) by (vm_compute; reflexivity).
    intros line I A0. rewrite forallb_forall in F. specialize (F line I). cbv beta in F. apply negb_true_iff in F. assert (X : forallb is_space line = true) by (apply forallb_forall; rewrite Forall_forall in A0; exact A0). congruence.
Qed.
Example C84_ex : ex_sents <> [] /\ unpruned ex_opt ex_sents /\ usable ex_res /\
  summary (pos_train_extract None (fun s => s) ex_res ex_opt ex_sents) =
  Ok ([(u "사과", 5)], [(u "좋은", (2, Some [(u "좋", u "은")]))], [(u "먹고", (2, Some [(u "먹", u "고")])); (u "자고", (1, Some [(u "자", u "고")]))], [(u "매우", 2); (u "조용히", 1)], [(u "사과를", 1); (u "ㅎㅎㅎ", 1)]).
Proof. split; [discriminate|]. split; [left; discriminate|]. split; [exact ex_usable|vm_compute; reflexivity]. Qed.
(** ensure_normalized=True, the default, says that the corpus is normalized already; but then it is normalized, and with False it is not. The
    predicators are learnt from normalized sentences in both cases, so a verb of the extractor need not be a word of the corpus. *)
Theorem C84_ensure_normalized_refuted : exists r o sents w, usable r /\ unpruned o sents /\ o_normalized o = true /\ occurrences w sents = 1 /\
  let o' := mkOpt false (o_eomi o) (o_noun_features o) (o_max_eojeol o) (o_noun_score o) (o_noun_frequency o) (o_eojeol o) (o_predicator o) (o_eomi_features o) (o_eomi_score o) (o_eomi_frequency o) in
  (exists x, pos_train normalize_sent_for_lrgraph r o sents = Ok x /\ dget (x_eoj x) w = None) /\
  (exists x v, pos_train normalize_sent_for_lrgraph r o' sents = Ok x /\ dget (x_eoj x) w = Some 1 /\ dget (x_verb x) v <> None /\ dget (x_eoj x) v = None /\ occurrences v sents = 0).
Proof.
  exists ex_res, ex_opt, [u "사과는 abc 먹고."; u "사과를 먹고!"], (u "abc"). split; [exact ex_usable|]. split; [left; discriminate|]. split; [reflexivity|]. split; [vm_compute; reflexivity|]. cbv zeta. split.
  - eexists. split; vm_compute; reflexivity.
  - eexists. exists (u "먹고"). split; [vm_compute; reflexivity|]. split; [vm_compute; reflexivity|]. split; [vm_compute; discriminate|]. split; vm_compute; reflexivity.
Qed.
Print Assumptions C84_ensure_normalized_refuted.
(** The count of a noun is not how often it is a word of the corpus: it may exceed the number of times the noun is a word. *)
Theorem C84_noun_count_refuted : exists r o sents w n x t, usable r /\ unpruned o sents /\ pos_train_extract None (fun s => s) r o sents = Ok (x, t) /\ dget (g_noun t) w = Some n /\ occurrences w sents < n.
Proof.
  exists ex_res, ex_opt, ex_sents, (u "사과"), 5. destruct (pos_train_extract None (fun s => s) ex_res ex_opt ex_sents) as [[x t]|] eqn:E; [|exfalso; revert E; vm_compute; discriminate].
  exists x, t. split; [exact ex_usable|]. split; [left; discriminate|]. split; [reflexivity|]. split; [|vm_compute; reflexivity].
  pose proof (proj2 (proj2 (proj2 C84_ex))) as S. rewrite E in S. cbn [summary] in S. assert (G : g_noun t = [(u "사과", 5)]) by congruence. rewrite G. vm_compute. reflexivity.
Qed.
Print Assumptions C84_noun_count_refuted.
