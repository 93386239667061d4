(** * C58, C71, C72: PredicatorExtractor *)
From Coq Require Import QArith Reals Permutation.
From Verif Require Import PyBase PyDict PySort CountLemmas PyText UtilsModel UtilsSpec UtilsProofs4 UtilsProps HangleModel HangleSpec HangleProofs LemmaModel LemmaSpec LemmaProofs NounModel NounSpec NounProofs NounProofs2 WordModel PredModel PredSpec PredSpec2 PredSpec3 PredProofs4 PredProofs6 PredProofs8 PredProofs9 PredProofs10 PredProps PredProps2.
Open Scope Z_scope.

(** ** C58: adjectives and verbs *)
(** every analysis goes to exactly one of the two tables, decided by its stem alone; words keep their frequency *)
Theorem C58_separation : forall c P, NoDup (dkeys P) -> (forall w n ls s m, dget P w = Some (n, ls) -> In (s, m) ls -> good_stem s) ->
  exists A V, separate c P = Ok (A, V) /\ separated c P A V.
Proof.
  intros c P ND G.
  assert (F : Forall (fun wp : str * (Z * list (str * str)) => Forall (fun x => good_stem (fst x)) (snd (snd wp))) P).
  { apply Forall_forall. intros [w [n ls]] I. apply In_dget in I; [|exact ND]. apply Forall_forall. intros [s m] J. exact (G w n ls s m I J). }
  destruct (separate_fold c P P ND F [] []) as (A & V & E & NA & NV & S); [constructor|constructor|intros w _; split; reflexivity|].
  exists A, V. split; [exact E|]. unfold separated. cbv zeta. split; [exact NA|]. split; [exact NV|]. split.
  - intros w D. specialize (S w). change (dget (P : dict str (Z * list (str * str))) w) with (dget P w) in S. rewrite D in S. exact S.
  - intros w n ls D. specialize (S w). rewrite D in S. destruct S as (la & lv & E' & DA & DV).
    assert (FL : Forall (fun x => good_stem (fst x)) ls) by (apply Forall_forall; intros [s m] J; exact (G w n ls s m D J)).
    destruct (split_lemmas_spec c P ls FL) as (la' & lv' & E2 & SA & SV & _ & L). rewrite E' in E2. injection E2 as <- <-. exists la, lv. split; [exact L|]. split; [exact SA|]. split; [exact SV|]. split; [exact DA|exact DV].
Qed.
Print Assumptions C58_separation.
(** nothing is lost: an analysis is in the input iff it is in one of the tables, with the same frequency *)
Theorem C58_partition : forall c P A V, NoDup (dkeys P) -> (forall w n ls s m, dget P w = Some (n, ls) -> In (s, m) ls -> good_stem s) -> separate c P = Ok (A, V) ->
  forall w n x, (exists ls, dget P w = Some (n, ls) /\ In x ls) <-> (exists ls, dget A w = Some (n, ls) /\ In x ls) \/ (exists ls, dget V w = Some (n, ls) /\ In x ls).
Proof.
  intros c P A V ND G E w n x. destruct (C58_separation c P ND G) as (A' & V' & E' & S). assert (A' = A /\ V' = V) as [-> ->] by (split; congruence). clear E'. destruct S as (_ & _ & SN & SS). split.
  - intros (ls & D & I). destruct (SS w n ls D) as (la & lv & _ & SA & SV & DA & DV). assert (DEC : In x la \/ In x lv).
    { destruct x as [s m]. destruct (lemma_is_verb_spec c P s (G w n ls s m D I)) as ([|] & _ & B); [right; apply SV|left; apply SA]; (split; [exact I|]); cbn [fst]; [apply B; reflexivity|]. intros Y. apply B in Y. discriminate. }
    destruct DEC as [J|J]; [left; exists la|right; exists lv]; (split; [|exact J]); [destruct la|destruct lv]; [destruct J|exact DA|destruct J|exact DV].
  - intros [(ls & D & I)|(ls & D & I)]; (destruct (dget P w) as [[n0 l0]|] eqn:DP; [|destruct (SN w DP); congruence]); destruct (SS w n0 l0 DP) as (la & lv & _ & SA & SV & DA & DV).
    + rewrite DA in D. destruct la as [|y la]; [discriminate|]. injection D as <- <-. exists l0. split; [reflexivity|]. apply SA, I.
    + rewrite DV in D. destruct lv as [|y lv]; [discriminate|]. injection D as <- <-. exists l0. split; [reflexivity|]. apply SV, I.
Qed.
Theorem C58_disjoint : forall c P A V, NoDup (dkeys P) -> (forall w n ls s m, dget P w = Some (n, ls) -> In (s, m) ls -> good_stem s) -> separate c P = Ok (A, V) ->
  forall s, ~ ((exists w n ls m, dget A w = Some (n, ls) /\ In (s, m) ls) /\ (exists w n ls m, dget V w = Some (n, ls) /\ In (s, m) ls)).
Proof.
  intros c P A V ND G E s [(w & n & ls & m & D & I) (w' & n' & ls' & m' & D' & I')]. destruct (C58_separation c P ND G) as (A' & V' & E' & S). assert (A' = A /\ V' = V) as [-> ->] by (split; congruence). clear E'. destruct S as (_ & _ & SN & SS).
  destruct (dget P w) as [[n0 l0]|] eqn:DP; [|destruct (SN w DP); congruence]. destruct (SS w n0 l0 DP) as (la & lv & _ & SA & _ & DA & _).
  destruct (dget P w') as [[n1 l1]|] eqn:DP'; [|destruct (SN w' DP'); congruence]. destruct (SS w' n1 l1 DP') as (la' & lv' & _ & _ & SV & _ & DV).
  rewrite DA in D. destruct la as [|y la]; [discriminate|]. injection D as <- <-. rewrite DV in D'. destruct lv' as [|y' lv']; [discriminate|]. injection D' as <- <-. apply SA in I as [_ NV]. apply SV in I' as [_ Y]. contradiction.
Qed.
Print Assumptions C58_disjoint.

(** ** C71: the predicators of a counter *)
(** the default candidates are the eojeols of Hangul syllables whose count is GREATER than the minimum *)
Theorem C71_candidates : forall counter mf w n, NoDup (dkeys counter) ->
  (dget (default_candidates counter mf) w = Some n <-> dget counter w = Some n /\ mf < n /\ Forall syllable w).
Proof.
  intros counter mf w n ND. unfold default_candidates. rewrite dget_dfilter by exact ND.
  assert (K : forallb character_is_complete_korean w = true <-> Forall syllable w).
  { rewrite forallb_forall, Forall_forall. split; intros H x I; [apply complete_syllable, (H x I)|]. destruct (H x I) as [A B]. unfold character_is_complete_korean, between, kor_begin, kor_end. apply andb_true_iff. split; apply N.leb_le; assumption. }
  destruct (dget counter w) as [n0|]; [|split; [discriminate|intros [H _]; discriminate]]. rewrite Z.gtb_ltb. destruct (Z.ltb_spec mf n0) as [L|L]; cbn [andb].
  - destruct (forallb character_is_complete_korean w) eqn:F; split; intros H; try discriminate.
    + injection H as <-. split; [reflexivity|]. split; [exact L|apply K; reflexivity].
    + destruct H as [H _]. exact H.
    + destruct H as (_ & _ & H). apply K in H. discriminate.
  - split; [discriminate|]. intros (H & M & _). injection H as <-. lia.
Qed.
(** the table of lemmas: total for words of Hangul syllables; it holds exactly the candidates that are not a noun and a josa and have an
    analysis with a known stem and a known ending, with all those analyses *)
Theorem C71_table : forall c cands, NoDup (dkeys cands) -> (forall w n, In (w, n) cands -> Forall syllable w) ->
  exists st, lemma_table c cands = Ok st /\ table_of c cands (t_lemmas st) /\ t_num st = Z.of_nat (length (t_lemmas st)) /\ t_count st = Zsum (fun p => fst (snd p)) (t_lemmas st).
Proof. intros c cands ND F. destruct (lemma_table_ok c cands ND F) as (st & E & T & _ & N & C & _). exists st. auto. Qed.
Print Assumptions C71_table.
Lemma clean_ok c T : NoDup (dkeys T) -> (forall w n ls, dget T w = Some (n, ls) -> NoDup ls /\ ls <> []) -> cleaned c T (fst (remove_wrong c T (words_of T))) (snd (remove_wrong c T (words_of T))).
Proof.
  intros ND H. rewrite remove_wrong_eq. cbn [fst snd]. set (ops := ops_of (morphs_of (p_nouns c) (words_of T))).
  assert (NL : forall w n ls, dget T w = Some (n, ls) -> NoDup ls) by (intros w n ls D; apply (H w n ls D)).
  assert (OI : forall m w, In (m, w) ops <-> (exists s, In (w, s) (uses_list T m)) /\ wrong_in T (p_nouns c) m w) by (intros m w; apply (ops_In (p_nouns c) T ND NL)).
  assert (HIT : forall w n ls s m, dget T w = Some (n, ls) -> In (s, m) ls -> (hit ops w m = true <-> wrong_in T (p_nouns c) m w)).
  { intros w n ls s m D I. rewrite hit_In, OI. split; [intros [_ X]; exact X|]. intros X. split; [|exact X]. exists s. apply (uses_list_ok T m ND NL). exists n, ls. split; assumption. }
  unfold cleaned. cbn [p_josas p_adj p_verb p_stems p_eomis p_nouns]. split; [auto|]. split; [|split; [|split; [|split]]].
  - intros m. rewrite filter_In, negb_true_iff, mem_In_false. rewrite (removed_In (p_nouns c) T ND NL). reflexivity.
  - apply drops_wf, ND.
  - intros w n ls' D. destruct (drops_survive ops T w n ls' D) as (ls & D0 & ->). exists ls. split; [exact D0|]. intros s m. rewrite filter_In, negb_true_iff. cbn [snd]. split; intros [I X]; (split; [exact I|]).
    + intros W. apply (HIT w n ls s m D0 I) in W. congruence.
    + destruct (hit ops w m) eqn:E; [|reflexivity]. exfalso. apply X, (HIT w n ls s m D0 I), E.
  - intros w n ls D N. rewrite (drops_distinct ops T w n ls D (proj2 (H w n ls D)) N (ops_once (p_nouns c) T ND NL w n ls D N)).
    + destruct (filter (fun se : str * str => negb (hit ops w (snd se))) ls) as [|[s m] l] eqn:E.
      * split; [congruence|]. intros (s & m & I & X). exfalso. assert (Y : In (s, m) (filter (fun se : str * str => negb (hit ops w (snd se))) ls)); [|rewrite E in Y; exact Y].
        apply filter_In. split; [exact I|]. cbn [snd]. destruct (hit ops w m) eqn:EH; [|reflexivity]. exfalso. apply X, (HIT w n ls s m D I), EH.
      * split; [intros _|discriminate]. assert (Y : In (s, m) (filter (fun se : str * str => negb (hit ops w (snd se))) ls)) by (rewrite E; left; reflexivity). apply filter_In in Y as [I X]. cbn [snd] in X. apply negb_true_iff in X. exists s, m. split; [exact I|]. intros W. apply (HIT w n ls s m D I) in W. congruence.
    + intros m I. apply OI in I as ((s & I) & _). apply (uses_list_ok T m ND NL) in I as (n' & ls' & D' & I). rewrite D in D'. injection D' as <- <-. apply (in_map snd) in I. exact I.
  - intros w n ls D X. apply drops_all; [exact D|]. intros m I. apply OI in I as ((s & I) & W). apply (uses_list_ok T m ND NL) in I as (n' & ls' & D' & I). rewrite D in D'. injection D' as <- <-. exact (X s m I W).
Qed.
(** extract, on candidates of Hangul syllables: the table, its clean-up and the separation *)
Theorem C71_extract : forall c counter cands mf, NoDup (dkeys counter) -> NoDup (dkeys cands) -> (forall w n, In (w, n) cands -> Forall syllable w) ->
  exists used T c' T' A V, used = (match cands with [] => default_candidates counter mf | _ => cands end) /\
  table_of c used T /\ cleaned c T c' T' /\ separated c' T' A V /\ pred_extract c counter cands mf = Ok (c', (A, V), (Z.of_nat (length T), Zsum (fun p => fst (snd p)) T)).
Proof.
  intros c counter cands mf NC ND F. set (used := match cands with [] => default_candidates counter mf | _ => cands end).
  assert (NU : NoDup (dkeys used)). { unfold used. destruct cands; [apply (NoDup_filter_map (K:=str)); exact NC|exact ND]. }
  assert (FU : forall w n, In (w, n) used -> Forall syllable w).
  { unfold used. destruct cands; [|exact F]. intros w n I. assert (NF : NoDup (dkeys (default_candidates counter mf))) by (apply (NoDup_filter_map (K:=str)); exact NC). apply (In_dget (V:=Z)) in I; [|exact NF]. apply (C71_candidates counter mf w n NC) in I. apply I. }
  destruct (lemma_table_ok c used NU FU) as (st & E & TO & TW & TN & TC & TG). set (T := t_lemmas st) in *.
  pose proof TO as (NT & TI & TV).
  assert (H : forall w n ls, dget T w = Some (n, ls) -> NoDup ls /\ ls <> []).
  { intros w n ls D. split; [apply (TV w n ls D)|]. rewrite Forall_forall in TG. apply dget_In in D. apply (TG _ D). }
  pose proof (clean_ok c T NT H) as CL. destruct (remove_wrong c T (words_of T)) as [c' T'] eqn:RW. cbn [fst snd] in CL.
  destruct (C58_separation c' T') as (A & V & SE & SS).
  - apply CL.
  - intros w n ls s m D I. destruct CL as (_ & _ & _ & SV & _). destruct (SV w n ls D) as (ls0 & D0 & X). destruct (proj1 (X s m) I) as [I0 _]. rewrite Forall_forall in TG. pose proof (dget_In _ _ _ D0) as D1. destruct (TG _ D1) as [_ G]. cbn [snd] in G. rewrite Forall_forall in G. exact (G _ I0).
  - exists used, T, c', T', A, V. split; [reflexivity|]. split; [exact TO|]. split; [exact CL|]. split; [exact SS|]. unfold pred_extract, as_lemma_candidates. fold used. rewrite E. cbn [bind]. fold T. rewrite TW, RW. cbn [bind]. rewrite SE. cbn [bind]. rewrite TN, TC. reflexivity.
Qed.
Print Assumptions C71_extract.
(** so every returned analysis conjugates back to its word and has a stem and an ending that were known *)
Theorem C71_sound : forall c counter mf c' A V cov, NoDup (dkeys counter) -> pred_extract c counter [] mf = Ok (c', (A, V), cov) ->
  forall w n ls s m, dget A w = Some (n, ls) \/ dget V w = Some (n, ls) -> In (s, m) ls ->
  dget counter w = Some n /\ mf < n /\ ~ noun_josa c w /\ In s (p_stems c) /\ In m (p_eomis c) /\ surface_of s m w.
Proof.
  intros c counter mf c' A V cov NC E w n ls s m D I. destruct (C71_extract c counter [] mf NC (NoDup_nil _)) as (used & T & c1 & T' & A1 & V1 & EU & (NT & TI & TV) & CL & (_ & _ & SN & SS) & E1); [intros ? ? []|]. rewrite E in E1. injection E1 as <- <- <- _.
  destruct (dget T' w) as [[n0 l0]|] eqn:DT; [|destruct (SN w DT) as [X Y]; destruct D; congruence]. destruct (SS w n0 l0 DT) as (la & lv & _ & SA & SV & DA & DV).
  assert (X : n0 = n /\ In (s, m) l0).
  { destruct D as [D|D]; [rewrite DA in D; destruct la; [discriminate|]; injection D as <- <-; split; [reflexivity|]; apply SA, I|rewrite DV in D; destruct lv; [discriminate|]; injection D as <- <-; split; [reflexivity|]; apply SV, I]. }
  destruct X as [-> J]. destruct CL as (_ & _ & _ & CS & _). destruct (CS w n l0 DT) as (ls0 & D0 & X). destruct (proj1 (X s m) J) as [J0 _]. destruct (TV w n ls0 D0) as (DU & _ & K). apply K in J0 as (S1 & S2 & l & r & -> & NL & L).
  rewrite EU in DU. apply (C71_candidates counter mf _ n NC) in DU as (DC & MF & _). split; [exact DC|]. split; [exact MF|]. assert (TI' : dget T (l ++ r) <> None) by congruence. apply TI in TI' as (_ & NJ & _). split; [exact NJ|]. split; [exact S1|]. split; [exact S2|]. apply L.
Qed.
Print Assumptions C71_sound.

(** ** what one would expect, and does not hold *)
(** a word of two stems with the same wrong ending loses its right analysis as well: 간다 = 간 + 다 although 다 is not wrong *)
Definition wx : pconf := mkPconf [u "은"] [u "먹"] [u "가"; u "갈"; u "간"; u "잡"] [u "먹"; u "가"; u "갈"; u "간"; u "잡"] [u "ㄴ다"; u "다"] [u "간다"].
Definition wx_counter : dict str Z := [(u "간다", 5); (u "먹다", 3); (u "잡다", 2)].
Theorem C71_right_analysis_refuted : exists c cands T w n ls s m, lemma_table c cands = Ok T /\ dget (t_lemmas T) w = Some (n, ls) /\ In (s, m) ls /\ ~ wrong_in (t_lemmas T) (p_nouns c) m w /\
  dget (snd (remove_wrong c (t_lemmas T) (t_words T))) w = None.
Proof.
  exists wx, wx_counter. eexists. exists (u "간다"), 5, [(u "간", u "다"); (u "가", u "ㄴ다"); (u "갈", u "ㄴ다")], (u "간"), (u "다"). split; [vm_compute; reflexivity|]. split; [vm_compute; reflexivity|]. split; [left; reflexivity|]. split; [|vm_compute; reflexivity].
  intros [S _]. match type of S with suspicious ?T _ _ => set (TT := T) in S end.
  assert (ND : NoDup (dkeys TT)) by (vm_compute; repeat constructor; cbn; intuition discriminate).
  assert (NL : forall w n ls, dget TT w = Some (n, ls) -> NoDup ls).
  { intros w n ls D. apply dget_In in D. vm_compute in D. destruct D as [D|[D|[D|[]]]]; injection D as <- <- <-; repeat constructor; cbn; intuition discriminate. }
  apply (susp_spec (p_nouns wx) TT ND NL) in S. vm_compute in S. discriminate S.
Qed.
(** a word may remain in the table without any analysis (it is then in neither result) *)
Theorem C71_empty_analysis_refuted : exists c cands T w n, lemma_table c cands = Ok T /\ dget (snd (remove_wrong c (t_lemmas T) (t_words T))) w = Some (n, []).
Proof. exists (mkPconf [] [] [u "가"; u "갈"] [u "가"; u "갈"] [u "ㄴ다"] [u "간다"]), [(u "간다", 5)]. eexists. exists (u "간다"), 5. split; vm_compute; reflexivity. Qed.
(** whether a word survives depends on the order in which Python enumerates the set of its analyses *)
Theorem C71_order_refuted : exists c (T1 T2 : dict str (Z * list (str * str))) w, dkeys T1 = dkeys T2 /\
  (forall k n ls, dget T1 k = Some (n, ls) -> exists ls', dget T2 k = Some (n, ls') /\ Permutation ls ls') /\
  dget (snd (remove_wrong c T1 (words_of T1))) w = None /\ dget (snd (remove_wrong c T2 (words_of T2))) w <> None.
Proof.
  exists (mkPconf [] [] [] [] [] [u "간다"]).
  exists [(u "간다", (5, [(u "간", u "다"); (u "가", u "ㄴ다"); (u "갈", u "ㄴ다"); (u "그", u "안다")])); (u "끈다", (1, [(u "크", u "안다")])); (u "쓴다", (1, [(u "쓰", u "안다")]))].
  exists [(u "간다", (5, [(u "가", u "ㄴ다"); (u "갈", u "ㄴ다"); (u "간", u "다"); (u "그", u "안다")])); (u "끈다", (1, [(u "크", u "안다")])); (u "쓴다", (1, [(u "쓰", u "안다")]))].
  exists (u "간다"). split; [reflexivity|]. split.
  - intros k n ls D. apply dget_In in D. destruct D as [D|[D|[D|[]]]]; injection D as <- <- <-.
    + eexists. split; [vm_compute; reflexivity|]. apply perm_trans with [(u "가", u "ㄴ다"); (u "간", u "다"); (u "갈", u "ㄴ다"); (u "그", u "안다")]; [apply perm_swap|]. apply perm_skip, perm_swap.
    + eexists. split; [vm_compute; reflexivity|apply Permutation_refl].
    + eexists. split; [vm_compute; reflexivity|apply Permutation_refl].
  - split; vm_compute; [reflexivity|discriminate].
Qed.
(** an eojeol that occurs exactly min_predicator_frequency times is left out *)
Theorem C71_minimum_refuted : exists c counter, dget counter (u "먹다") = Some 1 /\ is_predicate c (u "먹다") /\ pred_extract c counter [] 1 = Ok (c, ([], []), (0, 0)).
Proof.
  exists wx, [(u "먹다", 1)]. split; [vm_compute; reflexivity|]. split; [|vm_compute; reflexivity].
  assert (F : Forall syllable (u "먹다")) by (repeat constructor; vm_compute; discriminate). destruct (lemmas_of_word wx (u "먹다") F) as (ls & E & _ & S & _).
  split; [intros H; apply is_noun_josa_spec in H; vm_compute in H; discriminate H|]. exists (u "먹"), (u "다"). apply S. assert (X : ls = [(u "먹", u "다")]) by (vm_compute in E; injection E as <-; reflexivity). rewrite X. left. reflexivity.
Qed.
(** candidates given by the caller must consist of Hangul syllables *)
Theorem C71_given_candidates_refuted : exists c cands, pred_extract c [] cands 1 = Err TypeError.
Proof. exists wx, [(u "abc", 3)]. vm_compute. reflexivity. Qed.
Example C71_ex : exists c' A V, pred_extract wx wx_counter [] 1 = Ok (c', (A, V), (3, 10)) /\ p_eomis c' = [u "다"] /\ A = [(u "먹다", (3, [(u "먹", u "다")]))] /\ V = [(u "잡다", (2, [(u "잡", u "다")]))] /\
  NoDup (dkeys wx_counter) /\ forall w n, In (w, n) wx_counter -> Forall syllable w.
Proof.
  eexists. eexists. eexists. split; [vm_compute; reflexivity|]. split; [vm_compute; reflexivity|]. split; [vm_compute; reflexivity|]. split; [vm_compute; reflexivity|]. split; [vm_compute; repeat constructor; cbn; intuition discriminate|].
  intros w n I. vm_compute in I. destruct I as [I|[I|[I|[]]]]; injection I as <- _; repeat constructor; vm_compute; discriminate.
Qed.
(** a stem of no dictionary and no suffix rule: 뛰 is a verb because 뛴다 and 뛰자 occur; 굵 is an adjective *)
Definition vx : dict str (Z * list (str * str)) := [(u "뛴다", (3, [(u "뛰", u "ㄴ다")])); (u "뛰자", (1, [(u "뛰", u "자")])); (u "굵다", (4, [(u "굵", u "다")]))].
Example C58_ex : exists A V, separate wx vx = Ok (A, V) /\ dkeys A = [u "굵다"] /\ dkeys V = [u "뛴다"; u "뛰자"] /\
  NoDup (dkeys vx) /\ (forall w n ls s m, dget vx w = Some (n, ls) -> In (s, m) ls -> good_stem s).
Proof.
  eexists. eexists. split; [vm_compute; reflexivity|]. split; [vm_compute; reflexivity|]. split; [vm_compute; reflexivity|]. split; [vm_compute; repeat constructor; cbn; intuition discriminate|].
  intros w n ls s m D I. apply dget_In in D. vm_compute in D. destruct D as [D|[D|[D|[]]]]; injection D as <- <- <-; destruct I as [I|[]]; injection I as <- <-;
    (eexists; eexists; split; [apply (app_removelast_last 0%N); discriminate|]); (split; [vm_compute; split; discriminate|]); vm_compute; discriminate.
Qed.
