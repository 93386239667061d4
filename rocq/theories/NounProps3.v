(** * Properties of LRNounExtractor_v2: C66 extraction, C67 coverage, C68 compounds *)
From Coq Require Import QArith Reals Permutation Bool.
From Coq Require Import Lqa.
From Verif Require Import PyBase PyDict PySort PyText CountLemmas UtilsModel UtilsSpec UtilsProofs UtilsProofs2 TokenizerModel TokenizerSpec NounModel NounSpec NounSpec2 JosaModel
  NounProofs NounProofs2 NounProofs3 NounProofs4 NounProofs5 NounProofs6 NounProps.
Open Scope Z_scope.

(** ** C68: compounds *)
(** every word without blanks is either returned whole or cut into at least two known nouns that spell it, possibly up to a trailing positive feature *)
Theorem C68_decompose : forall features scores ms w, NoDup (map fst scores) -> w <> [] -> Forall (fun c => nonspace c = true) w ->
  exists parts, decompose_compound features (decomposer_scores scores ms) w = Ok parts /\
  (parts = [w] \/ (2 <= length parts)%nat /\ Forall (known_part scores ms) parts /\ (concat parts = w \/ exists j, In j features /\ j <> [] /\ concat parts ++ j = w)).
Proof. exact decompose_sound. Qed.
Print Assumptions C68_decompose.
(** for words of 3 to 203 characters, exactly when and how it is cut *)
Theorem C68_decompose_exact : forall features scores ms w, NoDup (map fst scores) -> (3 <= length w < 204)%nat -> Forall (fun c => nonspace c = true) w ->
  exists ts parts, noun_cut scores ms w ts /\ decompose_compound features (decomposer_scores scores ms) w = Ok parts /\
  ((exists j, nouns_and_josa features scores ms ts parts j) \/
   (~ (exists ps j, nouns_and_josa features scores ms ts ps j)) /\ all_nouns scores ms ts /\ parts = map tw ts \/
   (~ (exists ps j, nouns_and_josa features scores ms ts ps j)) /\ ~ all_nouns scores ms ts /\ parts = [w]).
Proof. exact decompose_exact. Qed.
Print Assumptions C68_decompose_exact.
(** shorter words are never cut *)
Theorem C68_decompose_short : forall features scores ms w, NoDup (map fst scores) -> w <> [] -> (length w <= 3)%nat -> Forall (fun c => nonspace c = true) w ->
  decompose_compound features (decomposer_scores scores ms) w = Ok [w].
Proof.
  intros features scores ms w N NW L F. destruct (decompose_sound features scores ms w N NW F) as (parts & E & [->|(A & B & C)]); [exact E|]. exfalso.
  assert (L2 : (4 <= length (concat parts))%nat).
  { destruct parts as [|a [|b parts]]; [cbn in A; lia|cbn in A; lia|]. inversion B as [|? ? (? & _ & _ & La) B']; subst. inversion B' as [|? ? (? & _ & _ & Lb) _]; subst. cbn [concat]. rewrite !app_length. lia. }
  destruct C as [<-|(j & _ & _ & <-)]; [lia|]. rewrite app_length in L. lia.
Qed.
Print Assumptions C68_decompose_short.
(** extract_compounds never fails, and its table is exact: counts are not reduced by those of longer words *)
Theorem C68_compounds : forall features scores ms lm rm ec g g', NoDup (map fst (ec_counter ec)) -> NoDup (map fst scores) -> 1 < lm -> 0 < rm ->
  Forall (fun p => Forall (fun c => nonspace c = true) (fst p)) (ec_counter ec) -> train_counter ec lm rm = Ok g -> reach g g' ->
  exists st comps, extract_compounds features g' scores ms = Ok (st, comps) /\ compound_table features scores ms lm rm (ec_counter ec) comps.
Proof.
  intros features scores ms lm rm ec g g' N NS A B F TR R. destruct (compounds_all features scores ms lm rm ec g g' N NS A B F TR R) as (st & comps & E & _ & _ & T). eauto.
Qed.
Print Assumptions C68_compounds.
Definition ex_scores : dict str (Z * Q) := [(u "서울", (30, 1%Q)); (u "대학교", (20, (9#10)%Q)); (u "시청", (9, (1#10)%Q))].
Example C68_ex : decompose_compound [u "에서"; u "은"] (decomposer_scores ex_scores (3#10)) (u "서울대학교에서") = Ok [u "서울"; u "대학교"] /\
  decompose_compound [u "에서"; u "은"] (decomposer_scores ex_scores (3#10)) (u "서울대학교") = Ok [u "서울"; u "대학교"] /\
  decompose_compound [u "에서"; u "은"] (decomposer_scores ex_scores (3#10)) (u "서울시청") = Ok [u "서울시청"] /\
  decompose_compound [u "에서"; u "은"] (decomposer_scores ex_scores (3#10)) (u "서울에서") = Ok [u "서울에서"].
Proof. vm_compute. auto. Qed.
Definition ex_counter3 := mkCounter [(u "서울은", 7); (u "대학교은", 5); (u "대학교에서", 3); (u "서울에서", 4); (u "서울대학교에서", 2); (u "서울대학교", 3); (u "서울", 2); (u "서울대학교은", 6)].
Definition ex_conf3 := mkNconf [u "에서"; u "은"] [u "다"] [] 1 30.
Definition ex_graph3 := match train_counter ex_counter3 10 9 with Ok g => g | Err _ => ex_graph end.
(** the count of 서울대학교: as an eojeol 3, with josas 2 and 6 *)
Example C68_ex2 : match extract_compounds (pos_f ex_conf3) ex_graph3 ex_scores (3#10) with Ok (_, comps) => comps | Err _ => [] end = [(u "서울대학교", (1%Q, inject_Z 11))].
Proof. vm_compute. reflexivity. Qed.

(** ** C67: coverage *)
Theorem C67_coverage : forall S ec lm rm c g g' (nouns : dict str S), NoDup (map fst (ec_counter ec)) -> 1 < lm -> 0 < rm -> train_counter ec lm rm = Ok g -> reach g g' ->
  let (g1, k) := check_covered c g' nouns 0 in coverage c lm rm (ec_counter ec) nouns g1 k.
Proof.
  intros S ec lm rm c g g' nouns N A B TR R. pose proof (coverage_of ec lm rm c g g' nouns 0 N A B TR R) as X. cbv zeta in X.
  destruct (check_covered c g' nouns 0) as [g1 k]. cbn [fst snd] in X. rewrite Z.sub_0_r in X. apply X.
Qed.
Print Assumptions C67_coverage.
(** so at most the whole corpus is covered, and exactly all of it if every eojeol is explained *)
Theorem C67_bounds : forall S c lm rm (f : dict str Z) (nouns : dict str S) g k, NoDup (map fst f) -> (forall e n, In (e, n) f -> 0 <= n) -> coverage c lm rm f nouns g k ->
  0 <= k <= fold_right Z.add 0 (map snd f) /\ ((forall e n, dget f e = Some n -> explained c lm rm f nouns e) -> k = fold_right Z.add 0 (map snd f)).
Proof.
  intros S c lm rm f nouns g k N NN (_ & es & NE & HE & ->).
  assert (SUM : forall l : list (str * Z), fold_right Z.add 0 (map snd l) = Zsum snd l) by (induction l as [|y l IH]; [reflexivity|cbn; rewrite IH; reflexivity]).
  rewrite !SUM. assert (IN : forall x, In x es -> In x f) by (intros [e n] I; apply HE in I as [I _]; apply dget_In, I).
  assert (NDE : NoDup es) by (apply NoDup_map_inv in NE; exact NE). assert (NDF : NoDup f) by (apply NoDup_map_inv in N; exact N).
  split.
  - split; [apply Zsum_nonneg; intros [e n] I; apply (NN e n), IN, I|].
    assert (SPLIT : exists rest, Permutation f (es ++ rest)).
    { clear - IN NDE NDF. revert f IN NDF. induction es as [|x es IH]; intros f IN NDF; [exists f; reflexivity|]. inversion NDE as [|? ? NI NDE']; subst.
      destruct (in_split x f (IN x (or_introl eq_refl))) as (a & b & ->). destruct (IH NDE' (a ++ b)) as (rest & P).
      - intros y I. specialize (IN y (or_intror I)). apply in_app_or in IN as [J|[J|J]]; [apply in_or_app; auto|subst; contradiction|apply in_or_app; auto].
      - apply NoDup_remove_1 in NDF. exact NDF.
      - exists rest. cbn [app]. rewrite <- P. symmetry. apply Permutation_middle. }
    destruct SPLIT as (rest & P). rewrite (Zsum_perm snd _ _ P), Zsum_app. assert (0 <= Zsum snd rest); [|lia].
    apply Zsum_nonneg. intros [e n] I. apply (NN e n). apply (Permutation_in _ (Permutation_sym P)), in_or_app. right. exact I.
  - intros ALL. apply Zsum_perm, NoDup_Permutation; [exact NDE|exact NDF|]. intros [e n]. rewrite HE. rewrite (dget_In_iff f e n N). split; [tauto|]. intros I. split; [exact I|]. apply (ALL e n). apply In_dget; assumption.
Qed.
Print Assumptions C67_bounds.
Example C67_ex : let st := check_covered ex_conf3 ex_graph3 [(u "대학교", tt)] 0 in snd st = 8 /\ get_r (fst st) (u "대학") 0 = [] /\ get_r (fst st) (u "서울") 0 = [(u "은", 7); (u "대학교은", 6); (u "에서", 4); (u "대학교", 3); (u "대학교에서", 2); ([], 2)].
Proof. cbv zeta. split; [|split]; vm_compute; reflexivity. Qed.

(** ** C66: extract *)
Theorem C66_extract : forall josa suffix ec lm rm c comp posf ms mf reset, NoDup (map fst (ec_counter ec)) -> 1 < lm -> 0 < rm ->
  (forall e n, dget (ec_counter ec) e = Some n -> 0 <= n) -> (comp = true -> Forall (fun p => Forall (fun c => nonspace c = true) (fst p)) (ec_counter ec)) ->
  exists g g' k nouns comps tables, let scores := snd (batch_predict c g (dkeys (noun_candidates c g None)) ms) in
    train_counter ec lm rm = Ok g /\
    noun_extract josa suffix josa_dom default_postprocessing comp posf c g ms mf reset = Ok (mkN c (if reset then g else g') k, nouns) /\
    (if comp then compound_table (pos_f c) scores ms lm rm (ec_counter ec) comps else comps = []) /\
    extracted josa suffix c lm rm (ec_counter ec) scores comps ms mf tables nouns /\
    coverage c lm rm (ec_counter ec) nouns g' k.
Proof. exact extract_all. Qed.
Print Assumptions C66_extract.
(** extract leaves the trained graph and the features as they were: calling it again gives the same nouns *)
Theorem C66_repeatable : forall josa suffix ec lm rm c comp posf ms mf, NoDup (map fst (ec_counter ec)) -> 1 < lm -> 0 < rm ->
  (forall e n, dget (ec_counter ec) e = Some n -> 0 <= n) -> (comp = true -> Forall (fun p => Forall (fun c => nonspace c = true) (fst p)) (ec_counter ec)) ->
  exists g k nouns, train_counter ec lm rm = Ok g /\ noun_extract josa suffix josa_dom default_postprocessing comp posf c g ms mf true = Ok (mkN c g k, nouns) /\
    forall st nouns', noun_extract josa suffix josa_dom default_postprocessing comp posf c g ms mf true = Ok (st, nouns') ->
      noun_extract josa suffix josa_dom default_postprocessing comp posf (n_conf st) (n_graph st) ms mf true = Ok (st, nouns').
Proof.
  intros josa suffix ec lm rm c comp posf ms mf N A B NN F. destruct (extract_all josa suffix ec lm rm c comp posf ms mf true N A B NN F) as (g & g' & k & nouns & comps & t & X). cbv zeta in X. destruct X as (TR & E & _).
  exists g, k, nouns. split; [exact TR|]. split; [exact E|]. intros st nouns' E'. rewrite E in E'. injection E' as <- <-. cbn [n_conf n_graph]. exact E.
Qed.
Print Assumptions C66_repeatable.
(** the option extract_pos_feature has no effect: support and score are mixed up, and no score reaches 100 *)
Theorem C66_pos_feature_option : forall josa suffix ec lm rm c comp ms mf reset g, NoDup (map fst (ec_counter ec)) -> 1 < lm -> 0 < rm ->
  (forall e n, dget (ec_counter ec) e = Some n -> 0 <= n) -> train_counter ec lm rm = Ok g ->
  noun_extract josa suffix josa_dom default_postprocessing comp true c g ms mf reset = noun_extract josa suffix josa_dom default_postprocessing comp false c g ms mf reset.
Proof. intros josa suffix ec lm rm c comp ms mf reset g N A B NN TR. unfold noun_extract. rewrite (extend_noop ec lm rm c g N A B NN TR). reflexivity. Qed.
Print Assumptions C66_pos_feature_option.
(** without resetting the graph a second call finds other nouns *)
Theorem C66_repeatable_without_reset_refuted : exists c g st nouns st' nouns',
  noun_extract [] [] josa_dom default_postprocessing false false c g (3#10) 1 false = Ok (st, nouns) /\
  noun_extract [] [] josa_dom default_postprocessing false false (n_conf st) (n_graph st) (3#10) 1 false = Ok (st', nouns') /\ map fst nouns <> map fst nouns'.
Proof.
  set (run := fun g => noun_extract [] [] josa_dom default_postprocessing false false ex_conf3 g (3#10) 1 false).
  assert (H : match run ex_graph3 with Ok (st, nouns) => n_conf st = ex_conf3 /\ match run (n_graph st) with Ok (st', nouns') => eqb (map fst nouns) (map fst nouns') = false | Err _ => False end | Err _ => False end).
  { vm_compute. auto. }
  destruct (run ex_graph3) as [[st nouns]|] eqn:E; [|destruct H]. destruct H as [HC H]. destruct (run (n_graph st)) as [[st' nouns']|] eqn:E'; [|destruct H].
  exists ex_conf3, ex_graph3, st, nouns, st', nouns'. split; [exact E|]. rewrite HC. split; [exact E'|]. intros X. rewrite X, eqb_refl in H. discriminate.
Qed.
Print Assumptions C66_repeatable_without_reset_refuted.
(** score and frequency of compounds are exchanged: with a minimal frequency above 1 no compound is returned, whatever its count *)
Theorem C66_compounds_filtered : forall josa suffix c lm rm f scores comps ms mf t nouns w s,
  Forall (fun p : str * (Z * Q) => (snd (snd p) <= 1)%Q) scores -> compound_table (pos_f c) scores ms lm rm f comps -> extracted josa suffix c lm rm f scores comps ms mf t nouns ->
  (1 < mf)%Q -> dget nouns w = Some s -> dget comps w = None.
Proof.
  intros josa suffix c lm rm f scores comps ms mf t nouns w s F CT EX MF D. destruct (dget comps w) as [[sc ct]|] eqn:DC; [|reflexivity]. exfalso.
  destruct (EX w s) as (E0 & E1 & E2 & E3). apply E3 in D as [D _]. apply E2 in D as [D _]. apply E1 in D as [D _]. apply E0 in D as [Q [D|[D _]]]; [|congruence].
  rewrite DC in D. injection D as <-. cbn [fst] in Q. destruct (CT w) as (ws & _ & _ & X). rewrite DC in X. destruct X as (_ & _ & _ & _ & [X|(w' & n & p & t' & _ & _ & _ & X)]).
  - subst sc. lra.
  - unfold part_score, dgetd in X. destruct (dget scores t') as [q|] eqn:DQ; [|cbn in X; subst sc; lra]. apply dget_In in DQ. rewrite Forall_forall in F. specialize (F _ DQ). cbn [snd] in F. rewrite X in F. lra.
Qed.
Print Assumptions C66_compounds_filtered.
(** the field called frequency of an extracted compound holds its score: 서울대학교 occurs 11 times, but is reported with frequency 1 and score 11 *)
Definition ex_counter4 := mkCounter [(u "서울은", 7); (u "대학교은", 5); (u "대학교에서", 3); (u "서울에서", 4); (u "서울대학교", 11)].
Theorem C66_compound_frequency_refuted : exists g st nouns, train_counter ex_counter4 10 9 = Ok g /\ dget (ec_counter ex_counter4) (u "서울대학교") = Some 11 /\ noun_extract [] [] josa_dom default_postprocessing true false ex_conf3 g (3#10) 1 true = Ok (st, nouns) /\ exists s, dget nouns (u "서울대학교") = Some (s, inject_Z 11) /\ (s == 1)%Q.
Proof.
  destruct (train_counter ex_counter4 10 9) as [g|] eqn:TR; [|exfalso; vm_compute in TR; discriminate].
  set (run := noun_extract [] [] josa_dom default_postprocessing true false ex_conf3 g (3#10) 1 true).
  assert (H : match run with Ok (_, nouns) => match dget nouns (u "서울대학교") with Some (s, n) => (s == 1)%Q /\ n = inject_Z 11 | None => False end | Err _ => False end).
  { subst run. replace g with (match train_counter ex_counter4 10 9 with Ok g => g | Err _ => g end) by (rewrite TR; reflexivity). clear TR. vm_compute. auto. }
  destruct run as [[st nouns]|] eqn:E; [|destruct H]. exists g, st, nouns. split; [reflexivity|]. split; [reflexivity|]. split; [exact E|]. destruct (dget nouns (u "서울대학교")) as [[s n]|]; [|destruct H]. destruct H as [H ->]. exists s. auto.
Qed.
Print Assumptions C66_compound_frequency_refuted.
