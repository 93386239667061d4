(** * C81-C83: EojeolPatternTrainer and POSExtractor *)
From Coq Require Import QArith Reals Permutation Lqa.
From Verif Require Import PyBase PyDict PySort CountLemmas PyText PyFile UtilsModel UtilsSpec UtilsProofs NounModel NounSpec NounV1Model NounV1Spec NounV1Proofs NounV1Proofs2 BuilderModel BuilderSpec BuilderProofs BuilderProofs2 BuilderProofs3.
Open Scope Z_scope.

Lemma nil_dec (ws : list str) : ws = [] \/ ws <> []. Proof. destruct ws; [left; reflexivity|right; discriminate]. Qed.
Lemma train_cases c sents wl wr : (wl <> [] /\ wr <> [] /\ b_train c sents wl wr = b_build c sents wl wr) \/ ((wl = [] \/ wr = []) /\ b_train c sents wl wr = do ws <- b_scan c sents; b_build c sents (fst ws) (snd ws)).
Proof. unfold b_train. destruct wl as [|l wl]; [right; auto|]. destruct wr as [|r wr]; [right; auto|]. left. split; [discriminate|]. split; [discriminate|reflexivity]. Qed.
(** Training fails exactly when the progress report of a verbose trainer does: with fewer than forty sentences, or, when the vocabulary is scanned, at an empty sentence. *)
Theorem C81_fails : forall c sents wl wr e, b_train c sents wl wr = Err e <-> e = ZeroDivisionError /\ report_fails c sents wl wr.
Proof.
  intros c sents wl wr e. unfold report_fails. destruct (train_cases c sents wl wr) as [(Nl & Nr & ->)|(N & ->)].
  - rewrite b_build_err. assert (L : Z.of_nat (length sents) < 40 <-> (length sents < 40)%nat) by lia. rewrite L. intuition.
  - rewrite b_scan_eq. pose proof (scan_fine_false c (Z.of_nat (length sents)) sents 0 ltac:(lia)) as F. destruct (scan_fine c (Z.of_nat (length sents)) 0 sents); cbn [bind fst snd].
    + rewrite b_build_err. assert (L : Z.of_nat (length sents) < 40 <-> (length sents < 40)%nat) by lia. rewrite L. split; [tauto|]. intros (-> & V & NE & [S|(_ & k & H1 & H2)]); [tauto|]. exfalso. assert (true = false) by (apply F; split; [exact V|]; split; [exact NE|]; right; exists k; rewrite Z.add_0_l; auto). discriminate.
    + destruct (proj1 F eq_refl) as (V & NE & H). split; [intros E; split; [congruence|]|intros (-> & _); reflexivity]. split; [exact V|]. split; [exact NE|]. destruct H as [H|(k & H1 & H2)]; [left; lia|]. right. split; [exact N|]. exists k. rewrite Z.add_0_l in H2. auto.
Qed.
Print Assumptions C81_fails.
(** With its default settings the trainer cannot be trained on a small corpus, and is silent about the reason. *)
Theorem C81_default_refuted : exists sents, sents <> [] /\ b_train b_default sents [] [] = Err ZeroDivisionError /\ exists st, b_train (mkB 10 6 10 false) sents [] [] = Ok st.
Proof. exists [u "아이 가"]. split; [discriminate|]. split; [vm_compute; reflexivity|]. eexists. vm_compute. reflexivity. Qed.
Lemma add_word_In w x ws : In w (add_word x ws) <-> w = x \/ In w ws.
Proof. rewrite <- !mem_In, mem_add, orb_true_iff, eqb_eq. reflexivity. Qed.
Lemma train_ok c sents wl wr st : b_train c sents wl wr = Ok st -> exists wl' wr', b_build c sents wl' wr' = Ok st /\ (forall l, In l wl' <-> left_word c sents wl wr l) /\ (forall r, In r wr' <-> right_word c sents wl wr r).
Proof.
  unfold left_word, right_word. destruct (train_cases c sents wl wr) as [(Nl & Nr & ->)|(N & ->)]; intros H.
  - exists wl, wr. split; [exact H|]. split; intros x; tauto.
  - rewrite b_scan_eq in H. destruct (scan_fine c (Z.of_nat (length sents)) 0 sents); [|discriminate]. cbn [bind fst snd] in H. eexists _, _. split; [exact H|].
    destruct (scan_spec (mkV1 [] (b_lm c) (b_rm c) 0) (fun s => s) sents (b_mf c)) as (ND & SL & SR). cbn [v_lm v_rm] in SL, SR. split.
    + intros l. split.
      * intros I. right. split; [exact N|]. apply in_map_iff in I as ([l' n] & <- & I). apply In_dget in I; [|exact ND]. exists n. apply SL, I.
      * intros [(A & B & _)|(_ & n & F)]; [destruct N; contradiction|]. apply SL, dget_In in F. apply in_map_iff. exists (l, n). auto.
    + intros r. rewrite SR. split; [intros F; right; auto|]. intros [(A & B & _)|(_ & F)]; [destruct N; contradiction|exact F].
Qed.
(** The vocabulary left in the trainer. *)
Theorem C81_vocabulary : forall c sents wl wr st, b_train c sents wl wr = Ok st -> (forall l, In l (s_wl st) <-> left_word c sents wl wr l) /\ (forall r, In r (s_wr st) <-> r = [] \/ right_word c sents wl wr r).
Proof.
  intros c sents wl wr st H. destruct (train_ok c sents wl wr st H) as (wl' & wr' & B & L & R). destruct (b_build_ok c sents wl' wr' st B) as (-> & -> & _). split; [exact L|]. intros r. rewrite add_word_In, R. reflexivity.
Qed.
Print Assumptions C81_vocabulary.
(** The graphs are dictionaries of dictionaries; both hold exactly the patterns of the corpus with their counts. *)
Theorem C81_graph : forall c sents wl wr st, b_train c sents wl wr = Ok st -> is_graph (s_lr st) /\ is_graph (s_rl st) /\
  (forall k row, In (k, row) (s_lr st) \/ In (k, row) (s_rl st) -> row <> []) /\
  forall l r n, (holds_pair (s_lr st) l r n <-> pattern c sents wl wr l r n) /\ (holds_pair (s_rl st) r l n <-> pattern c sents wl wr l r n).
Proof.
  intros c sents wl wr st H. destruct (train_ok c sents wl wr st H) as (wl' & wr' & B & L & R). destruct (b_build_ok c sents wl' wr' st B) as (_ & _ & G1 & G2 & NE & SW & PG). split; [exact G1|]. split; [exact G2|]. split; [exact NE|].
  intros l r n. rewrite <- !pget_holds, SW by assumption. rewrite PG. unfold pattern. rewrite <- L, <- R. assert (OKB : okb wl' wr' l r = true <-> In l wl' /\ (r = [] \/ In r wr')) by (unfold okb; rewrite andb_true_iff, orb_true_iff, eqb_eq, !mem_In; reflexivity).
  assert (E : (if (1 <=? length l)%nat && (Z.of_nat (length l) <=? b_lm c) && okb wl' wr' l r && (0 <? occurrences (l ++ r) sents) then Some (occurrences (l ++ r) sents) else None) = Some n <-> In l wl' /\ (r = [] \/ In r wr') /\ (1 <= length l)%nat /\ Z.of_nat (length l) <= b_lm c /\ n = occurrences (l ++ r) sents /\ 0 < n).
  { destruct ((1 <=? length l)%nat && (Z.of_nat (length l) <=? b_lm c) && okb wl' wr' l r && (0 <? occurrences (l ++ r) sents)) eqn:X.
    - rewrite !andb_true_iff, OKB, Nat.leb_le, Z.leb_le, Z.ltb_lt in X. split; [intros [= <-]; tauto|]. intros (_ & _ & _ & _ & -> & _). reflexivity.
    - split; [discriminate|]. intros (A1 & A2 & A3 & A4 & -> & A6). exfalso. apply not_true_iff_false in X. apply X. rewrite !andb_true_iff, OKB, Nat.leb_le, Z.leb_le, Z.ltb_lt. tauto. }
  split; exact E.
Qed.
Print Assumptions C81_graph.
Definition bx_sents : list str := [u "나라에서 나라에"; u "나라에서 아이"; u "아이가"].
Definition bx_st : bstate := match b_train (mkB 3 4 2 false) bx_sents [] [] with Ok st => st | Err _ => mkBS [] [] [] [] end.
Example C81_example : b_train (mkB 3 4 2 false) bx_sents [] [] = Ok bx_st /\ s_wl bx_st = [u "나"; u "나라"; u "나라에"; u "아"; u "아이"] /\
  s_wr bx_st = [u "서"; u "에서"; u "라에서"; []] /\ s_lr bx_st = [(u "나", [(u "라에서", 2)]); (u "나라", [(u "에서", 2)]); (u "나라에", [(u "서", 2); ([], 1)]); (u "아이", [([], 1)])].
Proof. vm_compute. repeat split; reflexivity. Qed.

(** ** C82: save and load *)
Lemma occurs_clean sents w : 0 < occurrences w sents -> nospace w.
Proof.
  unfold occurrences. intros P. destruct (filter (eqb w) (concat (map split sents))) as [|x L] eqn:E; [cbn in P; lia|]. assert (I : In x (filter (eqb w) (concat (map split sents)))) by (rewrite E; left; reflexivity).
  apply filter_In in I as [I EQ]. apply eqb_eq in EQ. subst x. apply in_concat in I as (ws & I & J). apply in_map_iff in I as (s & <- & _). pose proof (split_words s) as F. rewrite Forall_forall in F. destruct (F w J) as [_ W]. unfold nospace. eapply Forall_impl; [|exact W]. intros c. unfold nonspace. apply negb_true_iff.
Qed.
Lemma trained_clean c sents wl wr st : b_train c sents wl wr = Ok st -> clean (s_lr st) /\ clean (s_rl st).
Proof.
  intros H. destruct (C81_graph c sents wl wr st H) as (G1 & G2 & NE & HP).
  assert (W : forall l r n, pattern c sents wl wr l r n -> nospace l /\ nospace r) by (intros l r n (_ & _ & _ & _ & -> & P); apply occurs_clean in P; apply Forall_app in P; exact P).
  split; (split; [assumption|]); intros k row I.
  - assert (X : forall k' n, In (k', n) row -> nospace k /\ nospace k') by (intros k' n J; apply (W k k' n), (proj1 (proj1 (HP k k' n))); exists row; auto). split; [|intros k' n J; apply (X k' n J)]. destruct row as [|[k' n] row]; [destruct (NE k [] (or_introl I) eq_refl)|]. apply (X k' n). left. reflexivity.
  - assert (X : forall k' n, In (k', n) row -> nospace k' /\ nospace k) by (intros k' n J; apply (W k' k n), (proj1 (proj2 (HP k' k n))); exists row; auto). split; [|intros k' n J; apply (X k' n J)]. destruct row as [|[k' n] row]; [destruct (NE k [] (or_intror I) eq_refl)|]. apply (X k' n). left. reflexivity.
Qed.
Lemma saved_holds (g : graph) k k' n : kholds (saved g) k k' n <-> exists l, k = Some l /\ holds_pair g l k' n.
Proof.
  unfold kholds, saved, holds_pair. split.
  - intros (row & I & J). apply in_map_iff in I as ([l row0] & E & I). cbn [fst snd] in E. apply filter_In in I as [I _]. assert (k = Some l /\ row = sort b_le row0) as [-> ->] by (split; congruence). apply sort_In in J. exists l. split; [reflexivity|]. exists row0. auto.
  - intros (l & -> & row & I & J). exists (sort b_le row). split; [|apply sort_In, J]. apply in_map_iff. exists (l, row). split; [reflexivity|]. apply filter_In. split; [exact I|]. unfold nonempty_row. cbn [snd]. destruct row; [destruct J|reflexivity].
Qed.
(** What a trained trainer saves, any trainer loads: the parameters but verbose, and both graphs. The vocabulary becomes the words of the graphs. *)
Theorem C82_save_load : forall c sents wl wr st c', b_train c sents wl wr = Ok st -> exists ld, b_load c' (b_save c st) = Some (Ok ld) /\
  b_lm (l_conf ld) = b_lm c /\ b_rm (l_conf ld) = b_rm c /\ b_mf (l_conf ld) = b_mf c /\ b_verbose (l_conf ld) = b_verbose c' /\
  (forall k r n, kholds (l_lr ld) k r n <-> exists l, k = Some l /\ pattern c sents wl wr l r n) /\ NoDup (dkeys (l_lr ld)) /\
  (forall k l n, kholds (l_rl ld) k l n <-> exists r, k = Some r /\ pattern c sents wl wr l r n) /\ NoDup (dkeys (l_rl ld)) /\
  (forall k, In k (l_wl ld) <-> exists l r n, k = Some l /\ pattern c sents wl wr l r n) /\ (forall k, In k (l_wr ld) <-> exists l r n, k = Some r /\ pattern c sents wl wr l r n).
Proof.
  intros c sents wl wr st c' H. destruct (trained_clean _ _ _ _ _ H) as [CL CR]. destruct (C81_graph c sents wl wr st H) as (G1 & G2 & NE & HP). pose proof (fun l r n => proj1 (HP l r n)) as HP1. pose proof (fun l r n => proj2 (HP l r n)) as HP2. clear HP. eexists. split; [apply load_save; assumption|]. cbn [l_conf l_lr l_rl l_wl l_wr b_lm b_rm b_mf b_verbose].
  assert (ND : forall g : graph, is_graph g -> NoDup (dkeys (saved g))).
  { intros g [W _]. unfold saved, dkeys. rewrite map_map. cbn [fst]. rewrite <- map_map with (f := fst) (g := Some). apply FinFun.Injective_map_NoDup; [intros x y E; congruence|]. apply (NoDup_filter_map (K:=str)), W. }
  assert (KS : forall (g : graph) k, (forall k row, In (k, row) g -> row <> []) -> (In k (dkeys (saved g)) <-> exists k' n, kholds (saved g) k k' n)).
  { intros g k NEg. split.
    - intros I. apply in_map_iff in I as ([k0 row] & <- & I). cbn [fst]. unfold saved in I. assert (J := I). apply in_map_iff in J as ([l row0] & E & J). apply filter_In in J as [J _]. cbn [fst snd] in E. pose proof (NEg l row0 J) as NE0. destruct row0 as [|[k' n] row0]; [congruence|]. exists k', n. exists row. split; [exact I|]. assert (row = sort b_le ((k', n) :: row0)) as -> by congruence. apply sort_In. left. reflexivity.
    - intros (k' & n & row & I & _). apply in_map_iff. exists (k, row). auto. }
  do 4 (split; [reflexivity|]). split; [intros k r n; rewrite saved_holds; split; intros (l & -> & P); exists l; (split; [reflexivity|]); apply HP1, P|]. split; [apply ND, G1|]. split; [intros k l n; rewrite saved_holds; split; intros (r & -> & P); exists r; (split; [reflexivity|]); apply HP2, P|]. split; [apply ND, G2|]. split.
  - intros k. rewrite KS by (intros k0 row I; apply (NE k0 row); auto). split.
    + intros (r & n & X). apply saved_holds in X as (l & -> & P). exists l, r, n. split; [reflexivity|apply HP1, P].
    + intros (l & r & n & -> & P). exists r, n. apply saved_holds. exists l. split; [reflexivity|apply HP1, P].
  - intros k. rewrite KS by (intros k0 row I; apply (NE k0 row); auto). split.
    + intros (l & n & X). apply saved_holds in X as (r & -> & P). exists l, r, n. split; [reflexivity|apply HP2, P].
    + intros (l & r & n & -> & P). exists l, n. apply saved_holds. exists r. split; [reflexivity|apply HP2, P].
Qed.
Print Assumptions C82_save_load.
(** The vocabulary of the trained trainer is lost, and verbose is not restored. *)
Theorem C82_vocabulary_refuted : exists c sents st ld w, b_train c sents [] [] = Ok st /\ b_load c (b_save c st) = Some (Ok ld) /\ In w (s_wl st) /\ ~ In (Some w) (l_wl ld).
Proof.
  exists (mkB 3 4 2 false), bx_sents, bx_st. eexists. exists (u "아"). split; [vm_compute; reflexivity|]. split; [vm_compute; reflexivity|]. split; [vm_compute; auto 10|].
  cbn [l_wl]. intros I. revert I. cbv. intuition discriminate.
Qed.
Theorem C82_verbose_refuted : exists c c' sents st ld, b_train c sents [] [] = Ok st /\ b_load c' (b_save c st) = Some (Ok ld) /\ b_verbose (l_conf ld) <> b_verbose c.
Proof. exists (mkB 3 4 2 false), b_default, bx_sents, bx_st. eexists. split; [vm_compute; reflexivity|]. split; [vm_compute; reflexivity|]. discriminate. Qed.
Lemma split_snoc s c : is_space c = true -> split (s ++ [c]) = split s.
Proof.
  intros C. unfold split. assert (KC : nonspace c = false) by (unfold nonspace; rewrite C; reflexivity). induction s as [|x s IH]; [cbn [app runs]; rewrite KC; reflexivity|]. cbn [app]. cbn [runs]. destruct (nonspace x); [|exact IH].
  destruct s as [|y s]; [cbn [app runs]; rewrite KC; reflexivity|]. cbn [app] in *. destruct (nonspace y); rewrite IH; reflexivity.
Qed.
Lemma split_strip s : split (strip s) = split s.
Proof.
  assert (L : forall s, split (dropwhile is_space s) = split s) by (clear s; induction s as [|x s0 IH]; [reflexivity|]; cbn [dropwhile]; destruct (is_space x) eqn:E; [rewrite split_sp by exact E; exact IH|reflexivity]).
  assert (R : forall s, split (rev (dropwhile is_space s)) = split (rev s)) by (clear s; induction s as [|x s0 IH]; [reflexivity|]; cbn [dropwhile]; destruct (is_space x) eqn:E; [cbn [rev]; rewrite split_snoc by exact E; exact IH|reflexivity]).
  unfold strip, rstrip, lstrip. rewrite R, rev_involutive. apply L.
Qed.
(** Other files: an empty one ends the iteration, a header without four whole numbers or another second line is a ValueError. *)
Theorem C82_header : forall c first rest, no_nl first -> (b_load c [] = None) /\
  (forall ns, mapM parse_int (split first) = Ok ns -> length ns <> 4%nat -> b_load c (first ++ 10%N :: rest) = Some (Err ValueError)) /\
  ((exists e, mapM parse_int (split first) = Err e) -> b_load c (first ++ 10%N :: rest) = Some (Err ValueError)).
Proof.
  intros c first rest NL. split; [reflexivity|]. assert (F : exists rs, file_lines (first ++ 10%N :: rest) = (first ++ [10%N]) :: rs).
  { unfold file_lines. assert (U : univ_nl (first ++ 10%N :: rest) = first ++ 10%N :: univ_nl rest).
    { unfold no_nl in NL. induction first as [|x s IH]; [reflexivity|]. inversion NL as [|? ? [X1 X2] NL']; subst. cbn [app]. specialize (IH NL'). assert (E : univ_nl (x :: s ++ 10%N :: rest) = x :: univ_nl (s ++ 10%N :: rest)) by (cbn [univ_nl]; destruct x as [|p]; [reflexivity|]; repeat (destruct p as [p|p|]; try reflexivity); congruence). rewrite E, IH. reflexivity. }
    rewrite U, lines_of_line; [eauto|]. eapply Forall_impl; [|exact NL]. intros x [H _]. exact H. }
  destruct F as [rs F]. assert (SS : split (strip (first ++ [10%N])) = split first).
  { rewrite split_strip. apply split_snoc. reflexivity. }
  unfold b_load. rewrite F, SS. split.
  - intros ns -> L. destruct ns as [|a [|b [|d [|e [|f ns]]]]]; try reflexivity. cbn in L. congruence.
  - intros [e ->]. reflexivity.
Qed.
Print Assumptions C82_header.

(** ** C83: methods that never return *)
(** train_hits has no parameter for the trainer. It never returns a ranking: called on a trainer it is a TypeError, called on graphs it fails at the first use of the trainer, or before. *)
Theorem C83_hits : forall a b sum_of_rank df max_iter tolerance, (exists e, train_hits a b sum_of_rank df max_iter tolerance = Err e) /\
  train_hits HTrainer b sum_of_rank df max_iter tolerance = Err TypeError /\ train_hits HNone b sum_of_rank df max_iter tolerance = Err NameError.
Proof.
  intros a b sr df mi tol. split; [|split; reflexivity]. destruct a as [lr| |]; [|eexists; reflexivity|eexists; reflexivity]. unfold train_hits. cbn [h_len bind]. destruct lr as [|p lr]; cbn [bind]; [eexists; reflexivity|].
  destruct (h_len b) as [rl|e]; cbn [bind]; [|eexists; reflexivity]. destruct rl as [|q rl]; cbn [bind]; [eexists; reflexivity|]. destruct mi as [|mi]; [eexists; reflexivity|]. match goal with |- context [h_round ?x ?y ?z ?w ?v ?u] => destruct (h_round x y z w v u) end; eexists; reflexivity.
Qed.
Print Assumptions C83_hits.
(** On the graphs of a trained trainer, with a positive rank and some right part, the failure is the missing name. *)
Theorem C83_hits_trained : forall c sents wl wr st l r n sum_of_rank df max_iter tolerance, b_train c sents wl wr = Ok st -> pattern c sents wl wr l r n -> r <> [] -> (0 < sum_of_rank)%Q ->
  train_hits (HGraph (s_lr st)) (HGraph (s_rl st)) sum_of_rank df max_iter tolerance = Err NameError.
Proof.
  intros c sents wl wr st l r n sr df mi tol H P NR SR. destruct (C81_graph c sents wl wr st H) as (G1 & G2 & NE & HP).
  assert (P1 := proj2 (proj1 (HP l r n)) P). assert (P2 := proj2 (proj2 (HP l r n)) P). destruct P1 as (row1 & I1 & J1). destruct P2 as (row2 & I2 & J2).
  set (lr := s_lr st) in *. set (rl := s_rl st) in *.
  assert (POS : forall (g : graph) k row, In (k, row) g -> (0 < sr / inject_Z (Z.of_nat (length g)))%Q).
  { intros g k row I. destruct g as [|p g]; [destruct I|]. apply Qlt_shift_div_l; [|lra]. change 0%Q with (inject_Z 0). rewrite <- Zlt_Qlt. cbn [length]. lia. }
  assert (RG : forall (g : graph) (q : Q) k q', dget (map (fun kr : str * dict str Z => (fst kr, q)) g) k = Some q' -> q' = q) by (intros g q k q' D; apply dget_In in D; apply in_map_iff in D as (kr & E & _); congruence).
  assert (RH : forall (g : graph) (q : Q) k row, In (k, row) g -> exists q', dget (map (fun kr : str * dict str Z => (fst kr, q)) g) k = Some q').
  { intros g q k row I. destruct (dget (map (fun kr : str * dict str Z => (fst kr, q)) g) k) eqn:D; [eauto|]. exfalso. apply (proj1 (dget_None _ _) D). unfold dkeys. rewrite map_map. cbn [fst]. apply in_map_iff. exists (k, row). auto. }
  unfold train_hits. cbn [h_len bind]. destruct lr as [|p lr'] eqn:EL; [destruct I1|]. rewrite <- EL in *. cbn [bind]. destruct rl as [|p' rl'] eqn:ER; [destruct I2|]. rewrite <- ER in *. cbn [bind].
  destruct mi as [|mi]; [reflexivity|]. set (rank_l := map _ lr). set (rank_r := map _ (filter _ rl)).
  destruct (half_round lr rank_r true sr df l row1 r n) as [nl EN].
  { intros k row k' m I J. assert (PT : pattern c sents wl wr k k' m) by (apply (proj1 (proj1 (HP k k' m))); exists row; auto). split; [apply PT|]. split; [|discriminate]. intros _ NK. destruct (proj2 (proj2 (HP k k' m)) PT) as (row' & I' & _). apply (RH (filter (fun kr => negb (eqb (fst kr) [])) rl) _ k' row'). apply filter_In. split; [exact I'|]. cbn [fst]. apply negb_true_iff, eqb_neq, NK. }
  { intros k q D. apply RG in D. rewrite D. apply (POS rl r row2 I2). }
  { exact I1. } { exact J1. } { intros _. exact NR. }
  destruct (half_round (filter (fun kr => negb (eqb (fst kr) [])) rl) rank_l false sr df r row2 l n) as [nr EM].
  { intros k row k' m I J. apply filter_In in I as [I _]. assert (PT : pattern c sents wl wr k' k m) by (apply (proj1 (proj2 (HP k' k m))); exists row; auto). split; [apply PT|]. split; [discriminate|]. intros _. destruct (proj2 (proj1 (HP k' k m)) PT) as (row' & I' & _). apply (RH lr _ k' row' I'). }
  { intros k q D. apply RG in D. rewrite D. apply (POS lr l row1 I1). }
  { apply filter_In. split; [exact I2|]. cbn [fst]. apply negb_true_iff, eqb_neq, NR. } { exact J2. } { discriminate. }
  unfold h_round. destruct (mapM (fun kr : str * dict str Z => do q <- h_rank rank_r true (snd kr); Ok (fst kr, q)) lr) as [ng|]; [|discriminate EN]. cbn [bind] in EN |- *. rewrite EN. cbn [bind].
  destruct (mapM (fun kr : str * dict str Z => do q <- h_rank rank_l false (snd kr); Ok (fst kr, q)) (filter (fun kr => negb (eqb (fst kr) [])) rl)) as [mg|]; [|discriminate EM]. cbn [bind] in EM |- *. rewrite EM. reflexivity.
Qed.
Print Assumptions C83_hits_trained.
Example C83_hits_example : pattern (mkB 3 4 2 false) bx_sents [] [] (u "나라") (u "에서") 2 /\ train_hits (HGraph (s_lr bx_st)) (HGraph (s_rl bx_st)) 10000 (9 # 10) 10 (1 # 10000) = Err NameError.
Proof.
  assert (P : pattern (mkB 3 4 2 false) bx_sents [] [] (u "나라") (u "에서") 2).
  { apply (proj1 (proj1 (proj2 (proj2 (proj2 (C81_graph (mkB 3 4 2 false) bx_sents [] [] bx_st ltac:(vm_compute; reflexivity)))) (u "나라") (u "에서") 2))). exists [(u "에서", 2)]. split; [vm_compute; auto|left; reflexivity]. }
  split; [exact P|]. apply (C83_hits_trained (mkB 3 4 2 false) bx_sents [] [] bx_st _ _ _ _ _ _ _ ltac:(vm_compute; reflexivity) P); [discriminate|reflexivity].
Qed.
(** POSExtractor.extract always raises TypeError: it names parameters that the noun extractor does not have. *)
Theorem C83_pos_extractor : forall (A : Type) (rest : res A), pos_extractor_extract rest = Err TypeError /\ exists k, In k pos_keywords /\ ~ In k noun_v2_params.
Proof.
  intros A rest. split; [vm_compute; reflexivity|]. exists (u "l_max_length"). split; [left; reflexivity|]. intros I. apply mem_In in I. revert I. vm_compute. discriminate.
Qed.
Print Assumptions C83_pos_extractor.
