(** * Property C90: progress messages. The classes print percentages when verbose is set (their default); the theorems say when that changes the outcome. *)
From Coq Require Import QArith Reals Permutation.
From Verif Require Import PyBase PyDict PyText PyFile CountLemmas HangleModel HangleSpec TokenizerModel UtilsModel UtilsSpec UtilsProofs UtilsProofs2 UtilsProofs4 UtilsProps UtilsProps2 NounModel NounSpec NounSpec2 NounProps2 NounProps3 JosaModel
  LemmaModel LemmaSpec LemmaProofs PredModel PredSpec3 PredProps3 PredProps4 PosModel PosSpec PosProps PosTrainModel PosTrainSpec PosTrainProofs PosTrainProofs2 PosTrainProps VerboseModel.
Open Scope Z_scope.

(** some word of the preprocessed sentences has at most [limit] characters and occurs at least [least] times *)
Definition countable (pre : str -> str) (limit least : Z) (sents : list str) : Prop := exists w, Z.of_nat (length w) <= limit /\ 1 <= occurrences w (map pre sents) /\ least <= occurrences w (map pre sents).

Lemma announce_false p w : announce false p w = Ok tt. Proof. reflexivity. Qed.
Lemma announce_true p w : announce true p w = if w =? 0 then Err ZeroDivisionError else Ok tt.
Proof. unfold announce, percentage. destruct (w =? 0); reflexivity. Qed.
Lemma zsum_pos (l : list Z) : Forall (fun n => 0 < n) l -> 0 <= zsum l /\ (zsum l = 0 -> l = []).
Proof.
  induction l as [|x l IH]; intros F; [split; [vm_compute; discriminate|reflexivity]|]. inversion F as [|? ? P F']; subst. destruct (IH F') as [A _].
  change (zsum (x :: l)) with (x + zsum l). split; [lia|]. intros E. lia.
Qed.
Lemma table_empty pre lim mc sents d : eojeol_table pre lim mc sents d -> (d <> [] <-> countable pre lim mc sents) /\ (zsum (dvals d) = 0 <-> d = []).
Proof.
  intros TB. pose proof TB as [ND TG]. assert (P : Forall (fun n => 0 < n) (dvals d)).
  { apply Forall_forall. intros n I. unfold dvals in I. apply in_map_iff in I as ([w n'] & E & I). cbn [snd] in E. subst n'. apply (In_dget (V:=Z)) in I; [|exact ND]. apply (table_pos _ _ _ _ _ _ _ TB) in I. apply I. }
  split; [split|].
  - intros NE. destruct d as [|[w n] d]; [congruence|]. exists w. assert (D : dget ((w, n) :: d) w = Some n) by (apply In_dget; [exact ND|left; reflexivity]).
    rewrite TG in D. cbv zeta in D. destruct (Z.leb_spec (Z.of_nat (length w)) lim) as [L|L]; cbn [andb] in D; [|discriminate].
    destruct (Z.leb_spec (Z.max 1 mc) (occurrences w (map pre sents))) as [M|M]; [|discriminate]. lia.
  - intros (w & L & A & B) E. subst d. specialize (TG w). cbv zeta in TG. change (dget (@nil (str * Z)) w) with (@None Z) in TG.
    destruct (Z.leb_spec (Z.of_nat (length w)) lim); [|lia]. destruct (Z.leb_spec (Z.max 1 mc) (occurrences w (map pre sents))); [discriminate|lia].
  - split; [|intros ->; reflexivity]. intros Z0. apply (proj2 (zsum_pos _ P)) in Z0. unfold dvals in Z0. apply map_eq_nil in Z0. exact Z0.
Qed.
Lemma table_sum_pos pre lim mc sents d : eojeol_table pre lim mc sents d -> 0 <= zsum (dvals d).
Proof.
  intros TB. pose proof TB as [ND _]. apply zsum_pos. apply Forall_forall. intros n I. unfold dvals in I. apply in_map_iff in I as ([w n'] & E & I). cbn [snd] in E. subst n'.
  apply (In_dget (V:=Z)) in I; [|exact ND]. apply (table_pos _ _ _ _ _ _ _ TB) in I. apply I.
Qed.
(** the counter of the noun extractor, for any lengths and checkpoint *)
Lemma counted_any pre mc lim chk sents : sents <> [] -> 0 < chk -> mc <= 1 \/ Z.of_nat (length sents) <= chk ->
  exists ec, ec_new pre mc lim chk (Some sents) = Ok ec /\ eojeol_table pre lim mc sents (ec_counter ec) /\ ec_sum ec = zsum (dvals (ec_counter ec)).
Proof.
  intros NE CK H.
  assert (K : exists ec, ec_new pre mc lim chk (Some sents) = Ok ec /\ cnt_ok (ec_counter ec) /\ ec_sum ec = zsum (dvals (ec_counter ec))).
  { unfold ec_new, counting_from_sents. destruct sents as [|s ss]; [congruence|]. cbn [bind]. eexists. split; [reflexivity|]. cbn [mkCounter ec_counter ec_sum]. split; [|reflexivity]. apply cnt_ok_filter, loop_ok. split; constructor. }
  destruct K as (ec & E & C & S0). exists ec. split; [exact E|]. split; [|exact S0]. split; [exact (proj1 C)|]. intros w n.
  assert (G : ec_get ec w = if (Z.of_nat (length w) <=? lim) && (mc <=? n) then n else 0).
  { destruct (Z.leb_spec mc 1) as [M|M].
    - destruct (C33_exact_without_filtering pre mc lim chk sents w NE (or_introl M)) as (ec' & E' & G & _). rewrite E in E'. injection E' as <-. exact G.
    - destruct (C33_filtered_counts_a_suffix pre mc lim chk sents w NE ltac:(lia)) as (ec' & E' & G & U). rewrite E in E'. injection E' as <-. fold n in U.
      destruct (Z.leb_spec (Z.of_nat (length w)) lim) as [L|L]; cbn [andb]; [|destruct G as [G|(_ & G & _)]; [exact G|lia]].
      destruct (Z.leb_spec mc n) as [A|A]; [|destruct G as [G|(G & _)]; [exact G|lia]].
      destruct (C33_filtered_exact_when_frequent pre mc lim chk sents w NE ltac:(lia) M L A) as (ec' & E' & X).
      { intros m [M1 M2] D. exfalso. destruct H as [H|H]; [lia|]. rewrite Z.mod_small in D by lia. lia. }
      rewrite E in E'. injection E' as <-. exact X. }
  unfold ec_get, dgetd in G. pose proof (occurrences_nonneg w (map pre sents)) as NN. fold n in NN. destruct (dget (ec_counter ec) w) as [k|] eqn:D.
  - pose proof (cnt_get_pos _ _ _ C D) as P. destruct (Z.of_nat (length w) <=? lim); cbn [andb] in *; [|lia]. destruct (Z.leb_spec mc n) as [A|A]; [|lia]. subst k. destruct (Z.leb_spec (Z.max 1 mc) n); [reflexivity|lia].
  - destruct (Z.of_nat (length w) <=? lim); cbn [andb] in *; [|reflexivity]. destruct (Z.leb_spec mc n) as [A|A]; destruct (Z.leb_spec (Z.max 1 mc) n); try reflexivity; lia.
Qed.

(** ** nouns: the result is that of the silent extractor, unless no word at all was counted; then the silent one finds no nouns and the verbose one fails *)
Theorem C90_nouns : forall norm (en : bool) sents mc chk lm rm josa suffix c comp posf ms mf reset, sents <> [] -> 1 < lm -> 0 < rm -> 0 < chk -> mc <= 1 \/ Z.of_nat (length sents) <= chk ->
  let pre := if en then norm else fun s => s in
  exists g n st nouns, train_sents_num norm en sents mc chk lm rm = Ok (g, n) /\ train_sents norm en sents mc chk lm rm = Ok g /\
    noun_extract_v false n josa suffix josa_dom default_postprocessing comp posf c g ms mf reset = Ok (st, nouns) /\
    (countable pre (lm + rm) mc sents -> noun_extract_v true n josa suffix josa_dom default_postprocessing comp posf c g ms mf reset = Ok (st, nouns)) /\
    (~ countable pre (lm + rm) mc sents -> noun_extract_v true n josa suffix josa_dom default_postprocessing comp posf c g ms mf reset = Err ZeroDivisionError /\ nouns = []).
Proof.
  intros norm en sents mc chk lm rm josa suffix c comp posf ms mf reset NE L R CK H pre.
  destruct (counted_any pre mc (lm + rm) chk sents NE CK H) as (ec & E & TB & S0). pose proof (table_empty _ _ _ _ _ TB) as [TE TZ]. pose proof TB as [ND _].
  destruct (C66_extract josa suffix ec lm rm c comp posf ms mf reset ND L R) as (g & g' & k & nouns & comps & tables & X).
  { intros e n D. apply (table_pos _ _ _ _ _ _ _ TB) in D. lia. }
  { intros _. apply Forall_forall. intros [e n] I. cbn [fst]. apply (In_dget (V:=Z)) in I; [|exact ND]. apply (table_pos _ _ _ _ _ _ _ TB) in I as (_ & _ & _ & _ & F). eapply Forall_impl; [|exact F]. intros a A. unfold nonspace. rewrite A. reflexivity. }
  cbv zeta in X. destruct X as (TR & NX & CT & EX & _). exists g, (ec_sum ec), (mkN c (if reset then g else g') k), nouns.
  split. { unfold train_sents_num. fold pre. rewrite E. cbn [bind]. unfold train_counter_num. rewrite TR. cbn [bind]. unfold train_lrgraph_num. rewrite S0. destruct (Z.eqb_spec (zsum (dvals (ec_counter ec))) (-1)) as [N1|_]; [exfalso|reflexivity]. pose proof (table_sum_pos _ _ _ _ _ TB). lia. }
  split. { unfold train_sents. fold pre. rewrite E. cbn [bind]. exact TR. }
  unfold noun_extract_v. rewrite NX. cbn [bind fst]. rewrite announce_false, announce_true, S0. split; [reflexivity|]. split.
  - intros C. apply TE in C. destruct (Z.eqb_spec (zsum (dvals (ec_counter ec))) 0) as [Z0|_]; [apply TZ in Z0; congruence|reflexivity].
  - intros C. assert (Z0 : ec_counter ec = []) by (destruct (ec_counter ec); [reflexivity|exfalso; apply C, TE; discriminate]).
    rewrite (proj2 TZ Z0). split; [reflexivity|].
    destruct (C65_prediction ec lm rm c ms ND L R) as (g0 & E0 & P). rewrite TR in E0. injection E0 as <-. cbv zeta in P.
    destruct (batch_predict c g (dkeys (noun_candidates c g None)) ms) as [gb sc]. cbn [snd] in *. destruct P as (P1 & _).
    assert (SN : forall w, dget sc w = None). { intros w. destruct (dget sc w) eqn:D; [|reflexivity]. exfalso. destruct (proj1 (P1 w) ltac:(congruence)) as (q & n & _ & _ & _ & F). rewrite Z0 in F. discriminate F. }
    assert (CN : forall w, dget comps w = None).
    { intros w. destruct comp; [|subst comps; reflexivity]. destruct (CT w) as (ws & _ & W & M). destruct (dget comps w) as [[a b]|]; [|reflexivity]. exfalso. destruct M as [M _]. destruct ws as [|[v n] ws]; [congruence|].
      destruct (proj1 (W v n) (or_introl eq_refl)) as [CC _]. unfold compound_candidate in CC. rewrite Z0 in CC. destruct CC as (_ & _ & (q & m & _ & F) & _). discriminate F. }
    destruct nouns as [|[w s] nouns]; [reflexivity|]. exfalso. destruct (EX w s) as (A0 & A1 & A2 & A3).
    assert (D : dget ((w, s) :: nouns) w = Some s) by (cbn [dget]; rewrite eqb_refl; reflexivity).
    apply A3 in D as [D _]. apply A2 in D as [D _]. apply A1 in D as [D _]. apply A0 in D as [_ [D|[_ (p & D & _)]]]; [rewrite CN in D|rewrite SN in D]; discriminate.
Qed.
Print Assumptions C90_nouns.

(** ** adjectives and verbs: [d] is the table of the trained extractor. The same, whatever candidates are given *)
Theorem C90_predicators : forall c d cands mf, (forall w n, In (w, n) d -> 0 < n) -> NoDup (dkeys d) -> NoDup (dkeys cands) -> (forall w n, In (w, n) cands -> Forall syllable w) ->
  exists r, pred_extract_v false c d cands mf = Ok r /\ pred_extract c d cands mf = Ok r /\ pred_extract_v true c d cands mf = match d with [] => Err ZeroDivisionError | _ => Ok r end.
Proof.
  intros c d cands mf P ND NC F. destruct (C71_extract c d cands mf ND NC F) as (used & T & c' & T' & A & V & U & _ & _ & _ & E). eexists. unfold pred_extract_v.
  unfold pred_extract in E. rewrite <- U in *. destruct (as_lemma_candidates c used) as [[[c1 p1] cov]|] eqn:AL; [|discriminate]. cbn [bind] in *. rewrite announce_false, announce_true.
  destruct (separate c1 p1) as [av|] eqn:SE; [|discriminate]. cbn [bind] in *. split; [exact E|]. split; [unfold pred_extract; rewrite <- U, AL; cbn [bind]; rewrite SE; exact E|].
  destruct d as [|[w n] d]; [reflexivity|]. destruct (Z.eqb_spec (zsum (dvals ((w, n) :: d))) 0) as [Z0|_]; [|cbn [bind]; exact E].
  exfalso. destruct (zsum_pos (dvals ((w, n) :: d))) as [_ X]; [|specialize (X Z0); discriminate X]. apply Forall_forall. intros m I. unfold dvals in I. apply in_map_iff in I as ([v m'] & <- & I). exact (P v m' I).
Qed.
Print Assumptions C90_predicators.

(** ** the whole: train_extract of the part-of-speech extractors *)
(** what the messages need: a word that the noun extractor counts (at most 19 characters) and one that the predicator extractor counts (at most 15 characters, at least twice) *)
Definition enough (norm : str -> str) (o : options) (sents : list str) : Prop :=
  countable (if o_normalized o then norm else fun s => s) 19 (o_eojeol o) sents /\ countable norm 15 (Z.max 2 (o_eojeol o)) sents.
Theorem C90_pos : forall chat norm r o sents, sents <> [] -> unpruned o sents -> usable r ->
  exists x t, pos_train_extract_v false chat norm r o sents = Ok (x, t) /\ pos_train_extract chat norm r o sents = Ok (x, t) /\
    (enough norm o sents -> pos_train_extract_v true chat norm r o sents = Ok (x, t)) /\
    (~ enough norm o sents -> pos_train_extract_v true chat norm r o sents = Err ZeroDivisionError).
Proof.
  intros chat norm r o sents NE UP US. destruct (C84_train_extract chat norm r o sents NE UP US) as (x & x' & t & ET & EE & EX). exists x', t.
  set (pre := if o_normalized o then norm else fun s => s).
  destruct (counted_any pre (o_eojeol o) 19 500000 sents NE ltac:(lia) UP) as (ec & E & TB & S0). pose proof (table_empty _ _ _ _ _ TB) as [TE TZ].
  assert (NV : forall v, train_nouns_v v norm r o sents = do q <- train_nouns norm r o sents; do _ <- announce v (n_covered (fst q)) (ec_sum ec); Ok q).
  { intros v. unfold train_nouns_v, train_nouns, train_sents_num, train_sents, train_counter_num. fold pre. change (10 + 9) with 19. rewrite E. cbn [bind]. destruct (train_counter ec 10 9) as [g|]; [|reflexivity]. cbn [bind]. unfold train_lrgraph_num. destruct (Z.eqb_spec (ec_sum ec) (-1)) as [N1|_]; [exfalso; pose proof (table_sum_pos _ _ _ _ _ TB); lia|]. reflexivity. }
  destruct (nouns_ok norm r o sents NE UP) as (st & table & ec' & TN & NC & _ & EC & TB').
  destruct (pred_counter norm sents (o_eojeol o) NE) as (d & ED & TD). pose proof (table_empty _ _ _ _ _ TD) as [DE DZ].
  assert (XE : x_eoj x = ec_counter ec').
  { revert ET. unfold pos_train. rewrite TN. cbn [bind]. destruct (train_predicators norm r o sents (n_conf st) (dkeys table)) as [[p [A V]]|]; [|discriminate]. cbn [bind].
    destruct (load_adverbs (r_adverbs r)) as [b1|]; [|discriminate]. cbn [bind]. destruct (stem_to_adverb (p_adj p) default_suffixs) as [b2|]; [|discriminate]. cbn [bind]. destruct (stem_to_adverb (p_verb p) default_suffixs) as [b3|]; [|discriminate]. cbn [bind].
    rewrite EC. cbn [bind]. intros X. assert (Y : x = mkX (dkeys table) A V (p_adj p) (p_verb p) (p_eomis p) (p_josas p) (b1 ++ b2 ++ b3) (ec_counter ec')) by congruence. rewrite Y. reflexivity. }
  pose proof (table_empty _ _ _ _ _ TB') as [TE' TZ']. fold pre in TE'.
  assert (PV : forall v c nouns, train_predicators_v v norm r o sents c nouns = do q <- train_predicators norm r o sents c nouns; do _ <- announce v 0 (zsum (dvals d)); Ok q).
  { intros v c nouns. unfold train_predicators_v, train_predicators. rewrite ED. cbn [bind]. set (p := pred_new _ _ _ _ _).
    destruct (C72_construction nouns (match pos_f c ++ common_f c with [] => r_josas r | js => js end) (r_adj r) (r_verb r) (r_eomis r)) as (_ & _ & _ & _ & _ & _ & PS & _). fold p in PS.
    destruct (learn_ok norm o sents d p TD) as (p1 & E1 & _). { apply Forall_forall. intros s I. apply (proj1 US), PS, I. }
    rewrite E1. cbn [bind]. destruct (C90_predicators p1 d [] (o_predicator o)) as (q & VF & PE & VT).
    { intros w n I. apply (In_dget (V:=Z)) in I; [|exact (proj1 TD)]. apply (table_pos _ _ _ _ _ _ _ TD) in I. apply I. }
    { exact (proj1 TD). } { constructor. } { intros w n []. }
    rewrite PE. cbn [bind]. destruct v.
    - rewrite VT, announce_true. destruct d as [|e d]; [reflexivity|]. destruct (Z.eqb_spec (zsum (dvals (e :: d))) 0) as [Z0|_]; [apply DZ in Z0; discriminate|reflexivity].
    - rewrite VF. reflexivity. }
  assert (TV : forall v, pos_train_v v norm r o sents = do _ <- announce v 0 (ec_sum ec); do _ <- announce v 0 (zsum (dvals d)); Ok x).
  { intros v. unfold pos_train_v. rewrite NV, TN. cbn [bind fst].
    assert (AN : announce v (n_covered st) (ec_sum ec) = announce v 0 (ec_sum ec)) by (destruct v; [rewrite !announce_true|]; reflexivity). rewrite AN.
    destruct (announce v 0 (ec_sum ec)); [|reflexivity]. cbn [bind]. rewrite PV. revert ET. unfold pos_train. rewrite TN. cbn [bind].
    destruct (train_predicators norm r o sents (n_conf st) (dkeys table)) as [q|]; [|discriminate]. cbn [bind]. destruct (announce v 0 (zsum (dvals d))); [|reflexivity]. cbn [bind]. intros ET. exact ET. }
  unfold pos_train_extract_v. rewrite !TV, !announce_false, !announce_true, S0. cbn [bind]. unfold pos_extract_v. rewrite EX. cbn [bind]. rewrite announce_false. cbn [bind]. split; [reflexivity|]. split; [exact EE|]. split.
  - intros [C1 C2]. destruct (Z.eqb_spec (zsum (dvals (ec_counter ec))) 0) as [Z0|_]; [apply TZ in Z0; apply TE in C1; congruence|]. cbn [bind].
    destruct (Z.eqb_spec (zsum (dvals d)) 0) as [Z0|_]; [apply DZ in Z0; apply DE in C2; congruence|]. cbn [bind]. rewrite EX, XE. cbn [bind]. rewrite announce_true.
    destruct (Z.eqb_spec (zsum (dvals (ec_counter ec'))) 0) as [Z0|_]; [apply TZ' in Z0; apply TE' in C1; congruence|]. reflexivity.
  - intros C. destruct (Z.eqb_spec (zsum (dvals (ec_counter ec))) 0) as [Z0|Z0]; [reflexivity|]. cbn [bind]. destruct (Z.eqb_spec (zsum (dvals d)) 0) as [Z1|Z1]; [reflexivity|]. exfalso. apply C. split.
    + apply TE. intros X. apply Z0, TZ, X.
    + apply DE. intros X. apply Z1, DZ, X.
Qed.
Print Assumptions C90_pos.
(** the hypotheses are met, and both cases occur *)
Example C90_ex : ex_sents <> [] /\ unpruned ex_opt ex_sents /\ usable ex_res /\ enough (fun s => s) ex_opt ex_sents /\
  summary (pos_train_extract_v true None (fun s => s) ex_res ex_opt ex_sents) = summary (pos_train_extract None (fun s => s) ex_res ex_opt ex_sents).
Proof.
  split; [discriminate|]. split; [left; discriminate|]. split; [exact ex_usable|]. split; [|vm_compute; reflexivity].
  split; exists (u "매우"); vm_compute; repeat split; discriminate.
Qed.
(** verbose only adds messages? A corpus without repeated words has nouns and adverbs, but the default extractor fails on it. *)
Theorem C90_messages_only_refuted : exists r o sents x t, usable r /\ unpruned o sents /\ pos_train_extract_v false None (fun s => s) r o sents = Ok (x, t) /\
  dget (g_adv t) (u "매우") = Some 1 /\ pos_train_extract_v true None (fun s => s) r o sents = Err ZeroDivisionError.
Proof.
  exists ex_res, ex_opt, [u "사과는 매우 좋은 사과를 먹고"]. destruct (pos_train_extract_v false None (fun s => s) ex_res ex_opt [u "사과는 매우 좋은 사과를 먹고"]) as [[x t]|] eqn:E; [|exfalso; revert E; vm_compute; discriminate].
  exists x, t. split; [exact ex_usable|]. split; [left; discriminate|]. split; [reflexivity|]. split; [|vm_compute; reflexivity].
  assert (G : match pos_train_extract_v false None (fun s => s) ex_res ex_opt [u "사과는 매우 좋은 사과를 먹고"] with Ok (_, t) => dget (g_adv t) (u "매우") | Err _ => None end = Some 1) by (vm_compute; reflexivity).
  rewrite E in G. exact G.
Qed.
Print Assumptions C90_messages_only_refuted.
(** Candidates given by the caller do not help: with no word counted in training, extraction fails on them too. *)
Theorem C90_given_candidates_refuted : exists c d cands r, pred_train_sents (fun s => s) true [u "가 나"] 1 = Ok d /\ pred_extract_v false c d cands 1 = Ok r /\
  dget (snd (snd (fst r))) (u "먹고") = Some (5, [(u "먹", u "고")]) /\ pred_extract_v true c d cands 1 = Err ZeroDivisionError.
Proof.
  exists (pred_new [] [] [] [u "먹"] [u "고"]), [], [(u "먹고", 5)]. destruct (pred_extract_v false (pred_new [] [] [] [u "먹"] [u "고"]) [] [(u "먹고", 5)] 1) as [r|] eqn:E; [|exfalso; revert E; vm_compute; discriminate].
  exists r. split; [vm_compute; reflexivity|]. split; [reflexivity|]. split; [|vm_compute; reflexivity].
  assert (G : match pred_extract_v false (pred_new [] [] [] [u "먹"] [u "고"]) [] [(u "먹고", 5)] 1 with Ok r => dget (snd (snd (fst r))) (u "먹고") | Err _ => None end = Some (5, [(u "먹", u "고")])) by (vm_compute; reflexivity).
  rewrite E in G. exact G.
Qed.
Print Assumptions C90_given_candidates_refuted.
(** Training on a counter or a graph of the caller: the recorded sum of the counter, or the sum of the eojeols of the graph as it is, decides.
    (A recorded sum of -1 is taken for "not given", and the eojeols of the graph are counted.) *)
Theorem C90_given_counts : forall josa suffix dom methods comp posf c ms mf reset,
  (forall (g : lrg), train_graph_num g = Ok (g, zsum (dvals (flat_counter (lr g))))) /\
  (forall ec lm rm g, train_counter ec lm rm = Ok g -> train_counter_num ec lm rm = Ok (g, if ec_sum ec =? -1 then zsum (dvals (flat_counter (lr g))) else ec_sum ec)) /\
  forall num (g : lrg), let silent := noun_extract_v false num josa suffix dom methods comp posf c g ms mf reset in
    silent = noun_extract josa suffix dom methods comp posf c g ms mf reset /\
    (num <> 0 -> noun_extract_v true num josa suffix dom methods comp posf c g ms mf reset = silent) /\
    (num = 0 -> noun_extract_v true num josa suffix dom methods comp posf c g ms mf reset = match silent with Ok _ => Err ZeroDivisionError | Err e => Err e end).
Proof.
  intros josa suffix dom methods comp posf c ms mf reset. split; [reflexivity|]. split.
  { intros ec lm rm g E. unfold train_counter_num. rewrite E. cbn [bind]. unfold train_lrgraph_num. destruct (ec_sum ec =? -1); reflexivity. }
  intros num g silent. unfold silent, noun_extract_v. destruct (noun_extract josa suffix dom methods comp posf c g ms mf reset) as [q|e]; cbn [bind]; [|auto].
  rewrite announce_false, announce_true. split; [reflexivity|]. split; intros H; destruct (Z.eqb_spec num 0); try congruence; reflexivity.
Qed.
Print Assumptions C90_given_counts.
Example C90_given_ex : exists g, train_counter_num (mkCounter [(u "사과는", 3)]) 10 9 = Ok (g, 3) /\ train_graph_num g = Ok (g, 3).
Proof. eexists. split; vm_compute; reflexivity. Qed.
