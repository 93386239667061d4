(** * C101: LRNounExtractor_v2 used again and again *)
From Coq Require Import Reals QArith Lqa Permutation Bool.
From Verif Require Import PyBase PyDict PyText PySort UtilsModel UtilsSpec UtilsProofs UtilsProofs2 UtilsProofs4 UtilsProofs6 WordModel NounModel NounSpec NounSpec2 NounProofs NounProps NounProps2 NounProofs2 NounProofs3 NounProofs6 JosaModel JosaProofs NounLifeModel NounLifeProofs.
Open Scope Z_scope.

(** ** specification *)
(** the trainings that succeed: the lengths are possible, and the corpus is not empty and does not fail *)
Definition learns (s : setup) (k : call) : bool :=
  (1 <? s_left s) && (0 <? s_right s) &&
  match k with
  | TrainSents c _ => (0 <? c_len c) && match c_fails c with None => true | Some _ => false end
  | TrainCounter _ => true
  | _ => false
  end.
Definition last_training (s : setup) (ks : list call) : option call := fold_left (fun t k => if learns s k then Some k else t) ks None.
(** no extraction with reset_lrgraph=False since the last training, extraction with reset or extraction of features *)
Definition settled (s : setup) (ks : list call) : bool :=
  fold_left (fun b k => match k with Extract _ _ reset => reset | Domain _ _ _ _ => true | Predict _ _ => b | _ => if learns s k then true else b end) ks true.
(** counters as EojeolCounter makes them; corpora can be anything *)
Definition valid (s : setup) (k : call) : Prop :=
  match k with
  | TrainCounter ec => NoDup (map fst (ec_counter ec)) /\ (forall e n, dget (ec_counter ec) e = Some n -> 0 < n) /\
      (s_compounds s = true -> Forall (fun p => Forall (fun c => nonspace c = true) (fst p)) (ec_counter ec))
  | _ => True
  end.

(** ** proofs *)
Lemma run_all_app s ks1 : forall x ks2, run_all s x (ks1 ++ ks2) =
  (fst (run_all s (fst (run_all s x ks1)) ks2), snd (run_all s x ks1) ++ snd (run_all s (fst (run_all s x ks1)) ks2)).
Proof.
  induction ks1 as [|k ks1 IH]; intros x ks2; cbn [run_all app]; [cbn [fst snd app]; apply surjective_pairing|].
  destruct (run s x k) as [x1 a]. rewrite IH. destruct (run_all s x1 ks1) as [x2 l]. cbn [fst snd app]. reflexivity.
Qed.
Definition history_inv (s : setup) (ks : list call) (x : extractor) : Prop :=
  match last_training s ks with
  | None => x_graph x = None
  | Some t => exists ec g g', good_counter (negb (s_compounds s)) ec /\ 1 < s_left s /\ 0 < s_right s /\ train_counter ec (s_left s) (s_right s) = Ok g /\
      (forall c, run s (new_extractor c) t = (mkX c (Some g), Trained)) /\ x_graph x = Some g' /\ part g g' /\ (settled s ks = true -> g' = g)
  end.
Lemma last_snoc s ks k : last_training s (ks ++ [k]) = if learns s k then Some k else last_training s ks.
Proof. unfold last_training. rewrite fold_left_app. reflexivity. Qed.
Lemma settled_snoc s ks k : settled s (ks ++ [k]) = match k with Extract _ _ reset => reset | Domain _ _ _ _ => true | Predict _ _ => settled s ks | _ => if learns s k then true else settled s ks end.
Proof. unfold settled. rewrite fold_left_app. reflexivity. Qed.
Lemma good_valid s ec : valid s (TrainCounter ec) -> good_counter (negb (s_compounds s)) ec.
Proof. intros (N & P & B). split; [exact N|]. split; [exact P|]. intros H. apply B. destruct (s_compounds s); [reflexivity|discriminate]. Qed.
Lemma good_weaken b ec : good_counter false ec -> good_counter b ec.
Proof. intros (N & P & B). split; [exact N|]. split; [exact P|]. intros _. apply B. reflexivity. Qed.
(** a training *)
Lemma train_ok s ec x : good_counter (negb (s_compounds s)) ec -> 1 < s_left s -> 0 < s_right s ->
  exists g, train_counter ec (s_left s) (s_right s) = Ok g /\ part g g /\ set_trained x (train_counter ec (s_left s) (s_right s)) = (mkX (x_conf x) (Some g), Trained).
Proof.
  intros G A B. destruct (trained_uni ec (s_left s) (s_right s) (proj1 G) A B) as (g & TR & _). exists g. rewrite TR. split; [reflexivity|]. split; [|reflexivity].
  exact (trained_part _ ec _ _ g G A B TR).
Qed.
Lemma train_bad ec lm rm : (1 <? lm) && (0 <? rm) = false -> exists e, train_counter ec lm rm = Err e.
Proof.
  intros H. unfold train_counter, to_lrgraph, lrg_new. apply andb_false_iff in H. destruct (Z.ltb_spec 1 lm) as [A|A].
  - destruct H as [H|H]; [discriminate|]. apply Z.ltb_ge in H. replace (negb (lm >? 1)) with false by lia. replace (negb (rm >? 0)) with true by lia. eauto.
  - replace (negb (lm >? 1)) with true by lia. eauto.
Qed.
Lemma is_training s k x : (exists c me, k = TrainSents c me) \/ (exists ec, k = TrainCounter ec) -> valid s k ->
  (learns s k = true /\ exists ec g, good_counter (negb (s_compounds s)) ec /\ 1 < s_left s /\ 0 < s_right s /\ train_counter ec (s_left s) (s_right s) = Ok g /\ part g g /\
     forall y, run s y k = (mkX (x_conf y) (Some g), Trained)) \/
  (learns s k = false /\ exists e, run s x k = (x, Raised e)).
Proof.
  intros K V. unfold learns. destruct ((1 <? s_left s) && (0 <? s_right s)) eqn:L; cbn [andb].
  - apply andb_true_iff in L as [A B]. apply Z.ltb_lt in A, B. destruct K as [(c & me & ->)|(ec & ->)].
    + unfold run, count_corpus. destruct (Z.ltb_spec 0 (c_len c)) as [H|H]; cbn [andb].
      2: { right. split; [reflexivity|]. replace (c_len c <=? 0) with true by lia. cbn [bind set_trained]. eauto. }
      replace (c_len c <=? 0) with false by lia. destruct (c_fails c) as [e|] eqn:F; [right; split; [reflexivity|]; cbn [bind set_trained]; eauto|].
      left. split; [reflexivity|].
      assert (CE : exists ec, count_corpus s c me = Ok ec) by (unfold count_corpus; replace (c_len c <=? 0) with false by lia; rewrite F; eauto).
      destruct CE as (ec & CE). pose proof (good_weaken (negb (s_compounds s)) ec (count_corpus_good s c me ec CE)) as G.
      destruct (train_ok s ec x G A B) as (g & TR & P & _). exists ec, g. repeat (split; [assumption|]). intros y.
      unfold count_corpus in CE. replace (c_len c <=? 0) with false in CE by lia. rewrite F in CE. rewrite CE. cbn [bind]. rewrite TR. reflexivity.
    + left. split; [reflexivity|]. pose proof (good_valid s ec V) as G. destruct (train_ok s ec x G A B) as (g & TR & P & _). exists ec, g. repeat (split; [assumption|]).
      intros y. unfold run. rewrite TR. reflexivity.
  - right. split; [reflexivity|]. destruct K as [(c & me & ->)|(ec & ->)]; unfold run.
    + destruct (count_corpus s c me) as [ec|e]; cbn [bind]; [|cbn [set_trained]; eauto]. destruct (train_bad ec _ _ L) as (e & ->). cbn [set_trained]. eauto.
    + destruct (train_bad ec _ _ L) as (e & ->). cbn [set_trained]. eauto.
Qed.
Lemma history_snoc s ks x k : history_inv s ks x -> valid s k -> history_inv s (ks ++ [k]) (fst (run s x k)).
Proof.
  intros H V. unfold history_inv. rewrite last_snoc, settled_snoc.
  assert (TC : (exists c me, k = TrainSents c me) \/ (exists ec, k = TrainCounter ec) -> match (if learns s k then Some k else last_training s ks) with
     | None => x_graph (fst (run s x k)) = None
     | Some t => exists ec g g', good_counter (negb (s_compounds s)) ec /\ 1 < s_left s /\ 0 < s_right s /\ train_counter ec (s_left s) (s_right s) = Ok g /\
      (forall c, run s (new_extractor c) t = (mkX c (Some g), Trained)) /\ x_graph (fst (run s x k)) = Some g' /\ part g g' /\ ((if learns s k then true else settled s ks) = true -> g' = g) end).
  { intros K. destruct (is_training s k x K V) as [(L & ec & g & G & A & B & TR & P & R)|(L & e & R)]; rewrite L.
    - exists ec, g, g. repeat (split; [assumption|]). split; [intros c; apply (R (new_extractor c))|]. rewrite R. cbn [fst x_graph]. auto.
    - rewrite R. cbn [fst]. exact H. }
  destruct k as [c me|ec|ms mf reset|w ms|cands ignore app th]; [apply TC; eauto|apply TC; eauto| | |]; clear TC;
  replace (learns s _) with false by (unfold learns; rewrite andb_false_r; reflexivity); unfold history_inv in H; cbn [run].
  - destruct (last_training s ks) as [t|].
    + destruct H as (ec & g & g' & G & A & B & TR & R & X & P & ST). rewrite X.
      destruct (extract_part (s_josa s) (s_suffix s) (s_compounds s) (s_posf s) (x_conf x) ec (s_left s) (s_right s) (negb (s_compounds s)) g g' ms mf reset G ltac:(intros ->; reflexivity) A B TR P) as (st & nouns & -> & _ & P' & RS).
      exists ec, g, (n_graph st). repeat (split; [assumption|]). split; [reflexivity|]. auto.
    + rewrite H. exact H.
  - cbn [fst]. exact H.
  - unfold domain. destruct (last_training s ks) as [t|].
    + destruct H as (ec & g & g' & G & A & B & TR & R & X & P & ST). rewrite X. set (cs := match cands with [] => _ | _ => _ end).
      pose proof (part_batch (x_conf x) (j_noun_score th) g cs g' P) as Y. cbv zeta in Y. destruct (batch_predict (x_conf x) g' cs (j_noun_score th)) as [g1 S]. cbn [fst snd] in Y. destruct Y as (P1 & _).
      rewrite (part_trained_reset _ ec _ _ g g1 G A B TR P1). pose proof (trained_part _ ec _ _ g G A B TR) as PG.
      exists ec, g, g. repeat (split; [assumption|]). split; [|auto].
      destruct (josa_extract _ _ _ _ _); [|reflexivity]. destruct app; [|reflexivity]. destruct (append_features _ _ _); reflexivity.
    + rewrite H. cbn [fst]. exact H.
Qed.
Lemma history_ok s c ks : Forall (valid s) ks -> history_inv s ks (fst (run_all s (new_extractor c) ks)).
Proof.
  induction ks as [|k ks IH] using rev_ind; intros F; [reflexivity|]. apply Forall_app in F as [F1 F2]. apply Forall_inv in F2. rewrite run_all_app. cbn [fst].
  specialize (IH F1). pose proof (history_snoc s ks _ k IH F2) as X. cbn [run_all]. destruct (run s (fst (run_all s (new_extractor c) ks)) k) as [x1 a]. exact X.
Qed.

(** ** C101 *)
(** what an extractor does depends on its features and on the last training that succeeded: trainings that failed, earlier trainings, predictions, extractions and extractions of
    features leave no other trace, unless reset_lrgraph=False was used since *)
Theorem C101_forgets : forall s c ks t, Forall (valid s) ks -> settled s ks = true -> last_training s ks = Some t ->
  let x := fst (run_all s (new_extractor c) ks) in
  x = fst (run s (new_extractor (x_conf x)) t) /\ forall ks', run_all s x ks' = run_all s (fst (run s (new_extractor (x_conf x)) t)) ks'.
Proof.
  intros s c ks t F ST L x. pose proof (history_ok s c ks F) as H. fold x in H. clearbody x. unfold history_inv in H. rewrite L in H.
  destruct H as (ec & g & g' & _ & _ & _ & _ & R & X & _ & E). specialize (E ST). subst g'. rewrite R. cbn [fst]. assert (EX : x = mkX (x_conf x) (Some g)) by (destruct x as [xc xg]; cbn [x_conf x_graph] in *; congruence).
  split; [exact EX|]. intros ks'. rewrite <- EX. reflexivity.
Qed.
Print Assumptions C101_forgets.
(** with reset_lrgraph=False the extractor goes on with a part of the graph of that training: no pair has more than its count there *)
Theorem C101_unsettled : forall s c ks t, Forall (valid s) ks -> last_training s ks = Some t ->
  let x := fst (run_all s (new_extractor c) ks) in
  exists g g', x_graph (fst (run s (new_extractor c) t)) = Some g /\ x_graph x = Some g' /\
    (forall l r n, seen_from_l g' l r = Some n -> 0 < n /\ exists m, seen_from_l g l r = Some m /\ n <= m) /\ reset_lrgraph g' = g.
Proof.
  intros s c ks t F L x. pose proof (history_ok s c ks F) as H. fold x in H. clearbody x. unfold history_inv in H. rewrite L in H.
  destruct H as (ec & g & g' & G & A & B & TR & R & X & P & _). exists g, g'. rewrite R. split; [reflexivity|]. split; [exact X|]. split; [|exact (part_trained_reset _ ec _ _ g g' G A B TR P)].
  pose proof (trained_part _ ec _ _ g G A B TR) as (IG & _). destruct P as (I' & _ & P). intros l r n. rewrite (seen_l g' l r I'), (seen_l g l r IG). apply P.
Qed.
Print Assumptions C101_unsettled.
(** before the first training that succeeds every question is an AttributeError; after it no extraction and no extraction of features raises *)
Theorem C101_answers : forall s c ks k, Forall (valid s) ks -> let x := fst (run_all s (new_extractor c) ks) in
  match k with
  | Extract _ _ _ => match last_training s ks with None => run s x k = (x, Raised AttributeError) | Some _ => exists nouns, snd (run s x k) = Nouns nouns end
  | Predict _ _ => match last_training s ks with None => run s x k = (x, Raised AttributeError) | Some _ => exists p, run s x k = (x, Score p) end
  | Domain _ _ _ th => match last_training s ks with None => run s x k = (x, Raised AttributeError) | Some _ => 0 < j_pos_freq th -> exists d, snd (run s x k) = Features d end
  | _ => valid s k -> if learns s k then snd (run s x k) = Trained else exists e, run s x k = (x, Raised e)
  end.
Proof.
  intros s c ks k F x. pose proof (history_ok s c ks F) as H. fold x in H. clearbody x. unfold history_inv in H.
  assert (TC : (exists c me, k = TrainSents c me) \/ (exists ec, k = TrainCounter ec) -> valid s k -> if learns s k then snd (run s x k) = Trained else exists e, run s x k = (x, Raised e)).
  { intros K V. destruct (is_training s k x K V) as [(L & ec & g & _ & _ & _ & _ & _ & R)|(L & e & R)]; rewrite L; [rewrite R; reflexivity|eauto]. }
  destruct k as [cc me|ec|ms mf reset|w ms|cands ignore app th]; [apply TC; eauto|apply TC; eauto| | |]; clear TC; (destruct (last_training s ks) as [t|]; [|cbn [run]; unfold domain; rewrite H; reflexivity]);
  destruct H as (ec & g & g' & G & A & B & TR & R & X & P & ST); cbn [run].
  - rewrite X. destruct (extract_part (s_josa s) (s_suffix s) (s_compounds s) (s_posf s) (x_conf x) ec (s_left s) (s_right s) (negb (s_compounds s)) g g' ms mf reset G ltac:(intros ->; reflexivity) A B TR P) as (st & nouns & -> & _). exists nouns. reflexivity.
  - rewrite X. eauto.
  - intros PF. unfold domain. rewrite X. set (cs := match cands with [] => _ | _ => _ end).
    pose proof (part_batch (x_conf x) (j_noun_score th) g cs g' P) as Y. cbv zeta in Y. destruct (batch_predict (x_conf x) g' cs (j_noun_score th)) as [g1 S]. cbn [fst snd] in Y. destruct Y as (P1 & NS & _).
    rewrite (part_trained_reset _ ec _ _ g g1 G A B TR P1).
    destruct (josa_extract_spec ec (s_left s) (s_right s) g th (map (fun p : str * (Z * Q) => (fst p, (inject_Z (fst (snd p)), snd (snd p)))) S) (pos_f (x_conf x)) ignore (proj1 G) (proj1 (proj2 G)) A B TR) as (d & -> & _).
    + unfold dkeys. rewrite map_map. exact NS.
    + exact PF.
    + destruct app; [unfold append_features; rewrite eqb_refl|]; exists d; reflexivity.
Qed.
Print Assumptions C101_answers.
(** the features change only by extract_domain_pos_features with append_extracted_features and a min_noun_frequency of at most 1 (the scores are compared with that threshold); with a larger one,
    like the default of 100, nothing is found *)
Theorem C101_features : forall s c ks, Forall (valid s) ks ->
  (forall cands ignore th, In (Domain cands ignore true th) ks -> (1 < j_noun_freq th)%Q) -> x_conf (fst (run_all s (new_extractor c) ks)) = c.
Proof.
  intros s c ks F. induction ks as [|k ks IH] using rev_ind; intros D; [reflexivity|]. apply Forall_app in F as [F1 F2]. apply Forall_inv in F2. rewrite run_all_app. cbn [fst].
  pose proof (history_ok s c ks F1) as H. assert (IH' : x_conf (fst (run_all s (new_extractor c) ks)) = c) by (apply IH; [exact F1|]; intros a b e J; apply (D a b e), in_or_app; auto).
  assert (DK : forall cands ignore th, k = Domain cands ignore true th -> (1 < j_noun_freq th)%Q) by (intros a b e ->; apply (D a b e), in_or_app; right; left; reflexivity).
  set (x := fst (run_all s (new_extractor c) ks)) in *. clearbody x. clear IH D F1. rewrite <- IH'. clear IH' c.
  assert (TC : (exists c me, k = TrainSents c me) \/ (exists ec, k = TrainCounter ec) -> x_conf (fst (run s x k)) = x_conf x).
  { intros K. destruct (is_training s k x K F2) as [(_ & ec & g & _ & _ & _ & _ & _ & R)|(_ & e & R)]; rewrite R; reflexivity. }
  cbn [run_all]. enough (E : x_conf (fst (run s x k)) = x_conf x) by (destruct (run s x k); exact E).
  destruct k as [cc me|ec|ms mf reset|w ms|cands ignore app th]; [apply TC; eauto|apply TC; eauto| |reflexivity|]; clear TC; unfold history_inv in H; cbn [run].
  - destruct (last_training s ks) as [t|]; [|rewrite H; reflexivity]. destruct H as (ec & g & g' & G & A & B & TR & R & X & P & ST). rewrite X.
    destruct (extract_part (s_josa s) (s_suffix s) (s_compounds s) (s_posf s) (x_conf x) ec (s_left s) (s_right s) (negb (s_compounds s)) g g' ms mf reset G ltac:(intros ->; reflexivity) A B TR P) as (st & nouns & -> & E & _). exact E.
  - unfold domain. destruct (last_training s ks) as [t|]; [|rewrite H; reflexivity]. destruct H as (ec & g & g' & G & A & B & TR & R & X & P & ST). rewrite X. set (cs := match cands with [] => _ | _ => _ end).
    pose proof (part_batch (x_conf x) (j_noun_score th) g cs g' P) as Y. cbv zeta in Y. destruct (batch_predict (x_conf x) g' cs (j_noun_score th)) as [g1 S]. cbn [fst snd] in Y. destruct Y as (_ & _ & SC).
    destruct app.
    + rewrite no_domain_features by (apply domain_scores_small; [exact (DK _ _ _ eq_refl)|exact SC]). cbn [dkeys map]. rewrite no_new_features. reflexivity.
    + destruct (josa_extract _ _ _ _ _); reflexivity.
Qed.
Print Assumptions C101_features.
Theorem C101_domain_nothing : forall s c ks t cands ignore app th, Forall (valid s) ks -> last_training s ks = Some t -> (1 < j_noun_freq th)%Q ->
  snd (run s (fst (run_all s (new_extractor c) ks)) (Domain cands ignore app th)) = Features [].
Proof.
  intros s c ks t cands ignore app th F L TH. pose proof (history_ok s c ks F) as H. set (x := fst (run_all s (new_extractor c) ks)) in *. clearbody x. unfold history_inv in H. rewrite L in H.
  destruct H as (ec & g & g' & G & A & B & TR & R & X & P & ST). cbn [run]. unfold domain. rewrite X. set (cs := match cands with [] => _ | _ => _ end).
  pose proof (part_batch (x_conf x) (j_noun_score th) g cs g' P) as Y. cbv zeta in Y. destruct (batch_predict (x_conf x) g' cs (j_noun_score th)) as [g1 S]. cbn [fst snd] in Y. destruct Y as (_ & _ & SC).
  rewrite no_domain_features by (apply domain_scores_small; [exact TH|exact SC]). destruct app; [|reflexivity]. cbn [dkeys map]. rewrite no_new_features. reflexivity.
Qed.
Print Assumptions C101_domain_nothing.
(** so extractors with the same features and the same last training give the same answers from then on *)
Theorem C101_same_answers : forall s c ks1 ks2 t, Forall (valid s) ks1 -> Forall (valid s) ks2 -> settled s ks1 = true -> settled s ks2 = true ->
  last_training s ks1 = Some t -> last_training s ks2 = Some t ->
  (forall cands ignore th, In (Domain cands ignore true th) (ks1 ++ ks2) -> (1 < j_noun_freq th)%Q) ->
  forall ks, snd (run_all s (fst (run_all s (new_extractor c) ks1)) ks) = snd (run_all s (fst (run_all s (new_extractor c) ks2)) ks).
Proof.
  intros s c ks1 ks2 t F1 F2 S1 S2 L1 L2 D ks.
  pose proof (C101_features s c ks1 F1 ltac:(intros a b e J; apply (D a b e), in_or_app; auto)) as E1. pose proof (C101_features s c ks2 F2 ltac:(intros a b e J; apply (D a b e), in_or_app; auto)) as E2.
  destruct (C101_forgets s c ks1 t F1 S1 L1) as [_ X1]. destruct (C101_forgets s c ks2 t F2 S2 L2) as [_ X2]. rewrite X1, X2, E1, E2. reflexivity.
Qed.
Print Assumptions C101_same_answers.

(** ** what was learnt *)
(** no periodic filtering of the counts: the minimal frequency is at most 1, or there are not more sentences than the checkpoint *)
Definition unfiltered (s : setup) (t : call) : Prop :=
  match t with TrainSents c me => me <= 1 \/ s_checkpoint s <= 0 \/ Z.of_nat (length (c_yields c)) <= s_checkpoint s | _ => True end.
(** the eojeol counts a training is about: those of the (normalized) sentences, at least the minimal frequency, up to the greatest length of an eojeol; or those of the counter *)
Definition counts_of (s : setup) (t : call) (f : dict str Z) : Prop := NoDup (map fst f) /\
  match t with
  | TrainSents c me => forall w n, dget f w = Some n <-> n = occurrences w (map (if s_normalized s then s_normalize s else fun x => x) (c_yields c)) /\ 0 < n /\ me <= n /\ Z.of_nat (length w) <= s_left s + s_right s
  | TrainCounter ec => f = ec_counter ec
  | _ => False
  end.
Lemma no_checkpoint pre mc ml cp (sents : list str) : forall i d, 0 <= i -> i + Z.of_nat (length sents) <= cp -> counting_loop pre mc ml cp i sents d = counting_loop pre mc ml 0 i sents d.
Proof.
  induction sents as [|x sents IH]; intros i d H L; [reflexivity|]. cbn [counting_loop]. cbn [length] in L. rewrite IH by lia. f_equal.
  replace ((mc >? 1) && (0 >? 0) && (i >? 0) && (i mod 0 =? 0)) with false by lia.
  destruct (Z.eq_dec i 0) as [->|NZ]; [replace (0 >? 0) with false by lia; rewrite andb_false_r; reflexivity|].
  replace (i mod cp =? 0) with false; [rewrite andb_false_r; reflexivity|]. symmetry. apply Z.eqb_neq. rewrite Z.mod_small by lia. exact NZ.
Qed.
Lemma corpus_counts s c me ec : unfiltered s (TrainSents c me) -> count_corpus s c me = Ok ec -> counts_of s (TrainSents c me) (ec_counter ec).
Proof.
  intros U. unfold count_corpus. destruct (_ <=? 0); [discriminate|]. destruct (c_fails c); [discriminate|]. intros E. injection E as <-. cbn [mkCounter ec_counter].
  set (pre := if s_normalized s then s_normalize s else fun x => x).
  assert (C0 : cnt_ok []) by (split; constructor).
  assert (X : exists d, counting_loop pre me (s_left s + s_right s) (s_checkpoint s) 0 (c_yields c) [] = d /\ cnt_ok d /\ forall e, dgetd d e 0 = occ_in (s_left s + s_right s) e (map pre (c_yields c))).
  { eexists. split; [reflexivity|]. cbn [unfiltered] in U.
    assert (Y : counting_loop pre me (s_left s + s_right s) (s_checkpoint s) 0 (c_yields c) [] = counting_loop pre me (s_left s + s_right s) 0 0 (c_yields c) [] \/ (me <= 1 \/ s_checkpoint s <= 0)).
    { destruct U as [U|[U|U]]; [auto|auto|]. left. apply no_checkpoint; lia. }
    destruct Y as [->|Y]; [destruct (loop_plain pre me (s_left s + s_right s) 0 ltac:(right; lia) (c_yields c) 0 [] C0) as [A B]|destruct (loop_plain pre me (s_left s + s_right s) (s_checkpoint s) Y (c_yields c) 0 [] C0) as [A B]];
    (split; [exact A|]; intros e; rewrite B; reflexivity). }
  destruct X as (d & -> & C & D). pose proof (cnt_ok_filter (fun _ v => v >=? me) d C) as C'. split; [apply C'|]. cbn beta iota. intros w n. fold pre.
  rewrite (dget_dfilter (K:=str)) by apply C. specialize (D w). unfold dgetd in D. unfold occ_in in D. set (o := occurrences w (map pre (c_yields c))) in *. clearbody o.
  destruct (dget d w) as [v|] eqn:G.
  - pose proof (cnt_get_pos d w v C G) as PV. destruct (Z.leb_spec (Z.of_nat (length w)) (s_left s + s_right s)) as [L|L]; [|lia]. subst v.
    destruct (Z.geb_spec o me) as [M|M]; split; [intros E; assert (o = n) by congruence; lia|intros (-> & _); reflexivity|discriminate|lia].
  - split; [discriminate|]. intros (-> & P & _ & L). destruct (Z.leb_spec (Z.of_nat (length w)) (s_left s + s_right s)); lia.
Qed.
Lemma last_in s ks t : last_training s ks = Some t -> In t ks /\ learns s t = true.
Proof.
  induction ks as [|k ks IH] using rev_ind; [discriminate|]. rewrite last_snoc. destruct (learns s k) eqn:L.
  - intros E. assert (k = t) by congruence. subst k. split; [apply in_or_app; right; left; reflexivity|exact L].
  - intros E. apply IH in E as [A B]. split; [apply in_or_app; auto|exact B].
Qed.
(** the graph holds the splits of the eojeols of the last training with their counts; predict classifies the right parts of the word in it (C51), and extract returns the nouns that C66 says for these counts *)
Theorem C101_learnt : forall s c ks t, Forall (valid s) ks -> settled s ks = true -> last_training s ks = Some t -> unfiltered s t ->
  let x := fst (run_all s (new_extractor c) ks) in
  exists f g, counts_of s t f /\ x_graph x = Some g /\
    (forall l r n, seen_from_l g l r = Some n <-> in_limits (s_left s) (s_right s) l r /\ dget f (l ++ r) = Some n) /\
    (forall w ms, snd (run s x (Predict w ms)) = Score (noun_predict (x_conf x) g w ms)) /\
    forall ms mf reset, exists scores comps tables nouns, snd (run s x (Extract ms mf reset)) = Nouns nouns /\
      (forall w, dget scores w <> None <-> noun_candidate (x_conf x) (s_left s) (s_right s) f w) /\
      (forall w p, dget scores w = Some p -> exists fs, NoDup (map fst fs) /\ (forall r n, In (r, n) fs <-> left_for scores ms (s_left s) (s_right s) f w r n) /\ p = predict_features (x_conf x) w fs ms) /\
      (if s_compounds s then compound_table (pos_f (x_conf x)) scores ms (s_left s) (s_right s) f comps else comps = []) /\
      extracted (s_josa s) (s_suffix s) (x_conf x) (s_left s) (s_right s) f scores comps ms mf tables nouns.
Proof.
  intros s c ks t F ST L UF x. pose proof (history_ok s c ks F) as H. fold x in H. clearbody x. unfold history_inv in H. rewrite L in H.
  destruct H as (_ & g & g' & _ & A & B & _ & R & X & _ & E). specialize (E ST). subst g'. clear ST.
  assert (TR : exists ec, good_counter (negb (s_compounds s)) ec /\ train_counter ec (s_left s) (s_right s) = Ok g /\ counts_of s t (ec_counter ec)).
  { destruct (last_in s ks t L) as [J LT]. rewrite Forall_forall in F. specialize (F t J). specialize (R (x_conf x)). destruct t as [cc me|ec|ms mf reset|w ms|cands ignore app th]; try (unfold learns in LT; rewrite andb_false_r in LT; discriminate).
    - cbn [run] in R. destruct (count_corpus s cc me) as [ec|e] eqn:CC; [|cbn [bind set_trained] in R; discriminate]. cbn [bind] in R. exists ec. split; [exact (good_weaken _ ec (count_corpus_good s cc me ec CC))|].
      split; [|exact (corpus_counts s cc me ec UF CC)]. destruct (train_counter ec (s_left s) (s_right s)) as [h|e]; cbn [set_trained new_extractor x_conf] in R; congruence.
    - cbn [run] in R. exists ec. pose proof (good_valid s ec F) as G. split; [exact G|]. split; [|split; [exact (proj1 G)|reflexivity]].
      destruct (train_counter ec (s_left s) (s_right s)) as [h|e]; cbn [set_trained new_extractor x_conf] in R; congruence. }
  destruct TR as (ec & (N & POS & NSP) & TR & CO). exists (ec_counter ec), g. split; [exact CO|]. split; [exact X|].
  destruct (trained_uni ec (s_left s) (s_right s) N A B) as (g0 & E0 & [IV U] & _). rewrite TR in E0. assert (g0 = g) by congruence. subst g0. clear E0. split; [|split].
  - intros l r n. rewrite (seen_l g l r IV), U, <- (window_spec (s_left s) (s_right s) l r ltac:(lia)). destruct (in_window _ _ l r); split; [auto|intros [_ Y]; exact Y|discriminate|intros [Y _]; discriminate].
  - intros w ms. cbn [run snd]. rewrite X. reflexivity.
  - intros ms mf reset. cbn [run]. rewrite X.
    destruct (extract_all (s_josa s) (s_suffix s) ec (s_left s) (s_right s) (x_conf x) (s_compounds s) (s_posf s) ms mf reset N A B) as (g1 & g2 & k & nouns & comps & tables & Y).
    { intros e n D. specialize (POS e n D). lia. }
    { intros SC. apply NSP. rewrite SC. reflexivity. }
    cbv zeta in Y. destruct Y as (TR1 & NX & CT & EX & _). rewrite TR in TR1. assert (g1 = g) by congruence. subst g1.
    destruct (C65_prediction ec (s_left s) (s_right s) (x_conf x) ms N A B) as (g3 & TR3 & P). rewrite TR in TR3. assert (g3 = g) by congruence. subst g3. clear TR1 TR3.
    set (scores := snd (batch_predict (x_conf x) g (dkeys (noun_candidates (x_conf x) g None)) ms)) in *.
    exists scores, comps, tables, nouns. rewrite NX. split; [reflexivity|].
    destruct (batch_predict (x_conf x) g (dkeys (noun_candidates (x_conf x) g None)) ms) as [gb S]. cbn [snd] in scores. subst scores. destruct P as (P1 & P2 & _).
    split; [exact P1|]. split; [exact P2|]. split; [exact CT|exact EX].
Qed.
Print Assumptions C101_learnt.

(** ** concrete histories *)
Definition life_setup := mkSetup 10 9 500000 false false false [] [] (fun s => s).
Definition life_conf := mkNconf [u "은"; u "에서"] [] [] 1 30.
Definition life_a := TrainSents (mkCorpus 2 [u "서울은 서울에서"; u "학교에서 학교은"] None) 1.
Definition life_b := TrainSents (mkCorpus 1 [u "바다은 바다에서"] None) 1.
Definition life_broken := TrainSents (mkCorpus 5 [u "하늘은"] (Some TypeError)) 1.
(** 서울 is known after the first training, and no more after another one: trainings do not add up. A training that fails changes nothing *)
Definition probe (ks : list call) (w : str) : answer := snd (run life_setup (fst (run_all life_setup (new_extractor life_conf) ks)) (Predict w (3 # 10))).
Theorem C101_trainings_add_up_refuted : exists s c t1 t2 w ms p, valid s t1 /\ valid s t2 /\ learns s t1 = true /\ learns s t2 = true /\
  snd (run s (fst (run_all s (new_extractor c) [t1])) (Predict w ms)) = Score p /\ 0 < fst p /\
  exists q, snd (run s (fst (run_all s (new_extractor c) [t1; t2])) (Predict w ms)) = Score q /\ fst q = 0.
Proof.
  exists life_setup, life_conf, life_a, life_b, (u "서울"), (3 # 10)%Q. eexists. split; [exact Logic.I|]. split; [exact Logic.I|]. split; [reflexivity|]. split; [reflexivity|].
  split; [vm_compute; reflexivity|]. split; [reflexivity|]. eexists. split; [vm_compute; reflexivity|reflexivity].
Qed.
Print Assumptions C101_trainings_add_up_refuted.
(** with reset_lrgraph=False the answers change: the eojeols that begin with a found noun are gone *)
Theorem C101_extraction_without_reset_leaves_answers_refuted : exists s c t w ms p q, valid s t /\ learns s t = true /\
  snd (run s (fst (run_all s (new_extractor c) [t])) (Predict w ms)) = Score p /\ 0 < fst p /\
  snd (run s (fst (run_all s (new_extractor c) [t; Extract (3 # 10) 1 false])) (Predict w ms)) = Score q /\ fst q = 0.
Proof.
  exists life_setup, life_conf, life_a, (u "서울"), (3 # 10)%Q. do 2 eexists. split; [exact Logic.I|]. split; [reflexivity|].
  split; [vm_compute; reflexivity|]. split; [reflexivity|]. split; [vm_compute; reflexivity|reflexivity].
Qed.
Print Assumptions C101_extraction_without_reset_leaves_answers_refuted.
Definition life_th := mkJth (3 # 10) (100 # 1) (3 # 10) 1000 4 (1 / 2)%R (3 / 2)%R.
Definition life_history := [Extract 0 0 true; life_broken; life_a; Extract (3 # 10) 1 false; life_broken; life_b; Predict (u "바다") (3 # 10); Extract (3 # 10) 1 false; Domain [] [] true life_th; Extract (3 # 10) 1 true].
Example C101_ex : Forall (valid life_setup) life_history /\ settled life_setup life_history = true /\ unfiltered life_setup life_b /\ last_training life_setup life_history = Some life_b /\
  (forall cands ignore th, In (Domain cands ignore true th) life_history -> (1 < j_noun_freq th)%Q).
Proof.
  split; [repeat constructor|]. split; [reflexivity|]. split; [left; apply Z.le_refl|]. split; [reflexivity|]. intros a b e J. repeat (destruct J as [J|J]; [try discriminate; injection J as <- <- <-; reflexivity|]). destruct J.
Qed.
Example C101_ex2 : exists p, probe [life_a; life_broken] (u "서울") = Score p /\ fst p = 2 /\ (snd p == 1)%Q.
Proof. eexists. split; [vm_compute; reflexivity|]. split; reflexivity. Qed.
