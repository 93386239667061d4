(** * C102: an LRNounExtractor (version 1) used again and again *)
From Coq Require Import QArith Reals Permutation Lia Lra Lqa Sorted.
From Verif Require Import PyBase PyDict PySort SortLemmas CountLemmas QLemmas PyText UtilsModel UtilsSpec UtilsProofs UtilsProofs6 NounModel NounSpec NounProofs VectorizerSpec NounV1Model NounV1Spec NounV1Proofs NounV1Proofs2 NounV1Proofs3 NounV1Proofs4 NounV1Proofs5 NounV1Props NounV1LifeModel NounV1LifeSpec NounV1LifeProofs.
Open Scope Z_scope.

(** The object depends on two trainings only: the last one whose corpus could be read twice and the last one whose corpus could be read once. *)
Theorem C102_forgets : forall c pre ks ks', last_with read_twice ks = last_with read_twice ks' -> last_with read_once ks = last_with read_once ks' ->
  forall k, vrun c pre (fst (vrun_all c pre new_object ks)) k = vrun c pre (fst (vrun_all c pre new_object ks')) k.
Proof. intros c pre ks ks' A B k. rewrite !history_object, A, B. reflexivity. Qed.
Print Assumptions C102_forgets.
(** In particular questions, corpora without length or sentences, and corpora whose first iteration raises leave no trace. *)
Theorem C102_no_trace : forall c pre ks k, match trains k with Some (q, _) => read_once q = false | None => True end ->
  fst (vrun_all c pre new_object (ks ++ [k])) = fst (vrun_all c pre new_object ks).
Proof.
  intros c pre ks k H. rewrite !history_object, !last_with_snoc. destruct (trains k) as [[q mf]|]; [|reflexivity]. unfold read_twice. rewrite H. reflexivity.
Qed.
Print Assumptions C102_no_trace.
(** How a training ends: exactly a corpus that can be read twice is accepted. *)
Theorem C102_trains : forall c pre ks q mf, let a := snd (vrun c pre (fst (vrun_all c pre new_object ks)) (VTrain q mf)) in
  (a = VTrained <-> read_twice q = true) /\
  (accepted q = false -> a = VRaised ValueError) /\
  (forall e, accepted q = true -> p_fails (k_first q) = Some e -> a = VRaised e) /\
  (forall e, read_once q = true -> p_fails (k_second q) = Some e -> a = VRaised e).
Proof.
  intros c pre ks q mf a. unfold a. cbn [vrun]. generalize (fst (vrun_all c pre new_object ks)) as x. intros x. clear a. split; [|split; [|split]].
  - split; [|intros R; rewrite fit_reads, R; reflexivity]. destruct (read_twice q) eqn:R; [reflexivity|]. destruct (fit_fails c pre q mf x R) as [e ->]. discriminate.
  - unfold v1_fit, accepted. destruct (k_len q) as [n|]; [|reflexivity]. rewrite (Z.leb_antisym 0 n). destruct (0 <? n); [discriminate|reflexivity].
  - intros e. unfold v1_fit, accepted. destruct (k_len q) as [n|]; [|discriminate]. rewrite (Z.leb_antisym 0 n). destruct (0 <? n); [|discriminate]. intros _ ->. reflexivity.
  - intros e. unfold v1_fit, read_once, accepted, whole. destruct (k_len q) as [n|]; [|discriminate]. rewrite (Z.leb_antisym 0 n). destruct (0 <? n); [|discriminate].
    destruct (p_fails (k_first q)); [discriminate|]. intros _ ->. cbn [negb]. destruct (scan_vocabulary c pre (p_yields (k_first q)) mf). reflexivity.
Qed.
Print Assumptions C102_trains.
(** train_extract is the training followed by the extraction, unless the training raises. *)
Theorem C102_train_extract : forall c pre ks q ms mf cands, let x := fst (vrun_all c pre new_object ks) in
  snd (vrun c pre x (VTrainExtract q ms mf cands)) = last (snd (vrun_all c pre x (VTrain q mf :: (if read_twice q then [VExtract ms mf cands] else [])))) VTrained.
Proof.
  intros c pre ks q ms mf cands x. clearbody x. cbn [vrun_all vrun]. destruct (read_twice q) eqn:R.
  - rewrite fit_reads, R. cbn [vrun_all vrun]. destruct (v1_ask c ms mf cands (fst (v1_fit c pre q mf new_object))) as [y a]. reflexivity.
  - destruct (fit_fails c pre q mf x R) as [e F]. destruct (v1_fit c pre q mf x) as [y a]. cbn [snd] in F. subst a. reflexivity.
Qed.
Print Assumptions C102_train_extract.
(** Before the first training that succeeds every question raises. *)
Theorem C102_untrained : forall c pre ks, last_with read_twice ks = None -> let x := fst (vrun_all c pre new_object ks) in
  (forall w ms nouns, snd (vrun c pre x (VPredict w ms nouns)) = VRaised AttributeError) /\ (forall w ms, snd (vrun c pre x (VIsNoun w ms)) = VRaised AttributeError) /\
  forall ms mf cands, snd (vrun c pre x (VExtract ms mf cands)) = VRaised (match cands with [] => TypeError | _ => AttributeError end).
Proof.
  intros c pre ks L x. unfold x. rewrite history_object, L. cbn [vrun object_of fitted o_graph o_words]. split; [reflexivity|]. split; [reflexivity|]. intros ms mf [|w cands]; reflexivity.
Qed.
Print Assumptions C102_untrained.
(** Afterwards none raises. The graph, the words and the scores come from the last training [q] that succeeded: its vocabulary from the first iteration, its counts from
    the second. The counts by which extract decides what holds together come from the last training [q'] whose corpus could be read once. *)
Theorem C102_answers : forall c pre ks q mf q' mf', last_with read_twice ks = Some (q, mf) -> last_with read_once ks = Some (q', mf') ->
  let x := fst (vrun_all c pre new_object ks) in let G := learnt_pair c pre q mf in
  (exists g ws, o_graph x = Some g /\ o_words x = Some ws /\ (forall l r n, seen_from_l g l r = Some n <-> G l r n) /\
     forall w, In w ws <-> exists n, frequent_left (v_lm c) mf (space_words pre (p_yields (k_first q))) w n) /\
  (forall w ms nouns, exists v, snd (vrun c pre x (VPredict w ms nouns)) = VScore v /\ scored c G nouns ms w v) /\
  (forall w ms, exists b, snd (vrun c pre x (VIsNoun w ms)) = VBool b /\ (b = true <-> exists v, scored c G [] (1 # 2) w v /\ (ms <= fst v)%Q)) /\
  forall ms mf2 cands, exists D count, snd (vrun c pre x (VExtract ms mf2 cands)) = VNouns D /\ (forall l, learnt_count c pre q' mf' l (count l)) /\
    extracted_table c G count ms (fun w => match cands with [] => exists n, frequent_left (v_lm c) mf (space_words pre (p_yields (k_first q))) w n | _ => In w cands end) D.
Proof.
  intros c pre ks q mf q' mf' L L' x G. unfold x. rewrite history_object, L, L'. unfold object_of. cbn [fitted]. rewrite (fit_sub c pre q' mf' (last_reads _ _ _ _ L')).
  destruct (fit_learnt c pre q mf (last_reads _ _ _ _ L)) as (g & ws & sub0 & -> & GD & N & WS & W & f & U & HP). cbn [o_graph o_words o_sub]. fold G in HP.
  destruct (sub_counts c pre (p_yields (k_first q')) mf') as [PS CT]. set (sub := fst (scan_vocabulary c pre (p_yields (k_first q')) mf')) in *. split; [|split; [|split]].
  - exists g, ws. split; [reflexivity|]. split; [reflexivity|]. split; [|exact WS]. intros l r n. rewrite (seen_l g l r (proj1 U)). rewrite <- HP. destruct U as (_ & _ & U). rewrite U.
    destruct (W l r); [split; [auto|intros [_ Y]; exact Y]|split; [discriminate|intros [Y _]; discriminate]].
  - intros w ms nouns. eexists. split; [reflexivity|]. exact (scored_predict c W f g G U HP w ms nouns).
  - intros w ms. eexists. split; [reflexivity|]. unfold v1_is_noun. rewrite Qle_bool_iff. pose proof (scored_predict c W f g G U HP w (1 # 2) []) as R.
    split; [intros E; eexists; split; [exact R|exact E]|]. intros (v & R' & E). destruct (scored_fun c G (1 # 2) w _ _ R R') as [Y _]. rewrite Y. exact E.
  - intros ms mf2 cands. exists (snd (v1_extract c (mkV1S g ws sub) ms mf2 cands)), (fun l => dgetd sub l 0). split; [|split; [exact CT|]].
    + cbn [vrun]. unfold v1_ask. cbn [o_graph o_words o_sub]. destruct cands as [|w0 cands]; destruct (v1_extract _ _ _ _ _); reflexivity.
    + pose proof (extract_table c W f g G U HP sub ws ms mf2 cands PS) as T. cbv zeta in T. destruct cands as [|w0 cands]; [|exact T].
      assert (NOUN : forall P P' w, (forall u, P u <-> P' u) -> scored_noun c G ms P w <-> scored_noun c G ms P' w).
      { intros P P' w H. unfold scored_noun. rewrite H. reflexivity. }
      destruct T as (T1 & T2 & T3). split; [exact T1|].
      assert (FIN : forall w, (scored_noun c G ms (fun w => In w ws) w /\ ~ v1_removal (v_coef c) (fun l => dgetd sub l 0) ms (scored_noun c G ms (fun w => In w ws)) w) <->
        (scored_noun c G ms (fun w => exists n, frequent_left (v_lm c) mf (space_words pre (p_yields (k_first q))) w n) w /\
         ~ v1_removal (v_coef c) (fun l => dgetd sub l 0) ms (scored_noun c G ms (fun w => exists n, frequent_left (v_lm c) mf (space_words pre (p_yields (k_first q))) w n)) w)).
      { intros w. rewrite (NOUN _ _ w WS). rewrite (v1_removal_ext (v_coef c) (fun l => dgetd sub l 0) ms _ _ w (fun y => NOUN _ _ y WS)). reflexivity. }
      cbv zeta. split; [intros w; rewrite <- FIN; apply T2|]. intros w n s k D. destruct (T3 w n s k D) as [A B]. split; [exact A|]. eapply unclaimed_ext; [|exact B]. exact FIN.
Qed.
Print Assumptions C102_answers.
(** A corpus that yields its sentences only once is accepted, and then no word is scored by what follows it. *)
Theorem C102_one_shot : forall c pre ks q mf w ms nouns, read_twice q = true -> p_yields (k_second q) = [] -> 0 <= v_minf c ->
  exists v, snd (vrun c pre (fst (vrun_all c pre new_object (ks ++ [VTrain q mf]))) (VPredict w ms nouns)) = VScore v /\ best_split (v_coef c) nouns ms w v.
Proof.
  intros c pre ks q mf w ms nouns R E M. assert (L : last_with read_twice (ks ++ [VTrain q mf]) = Some (q, mf)) by (rewrite last_with_snoc; cbn [trains]; rewrite R; reflexivity).
  assert (L' : last_with read_once (ks ++ [VTrain q mf]) = Some (q, mf)) by (rewrite last_with_snoc; cbn [trains]; rewrite (once_twice q R); reflexivity).
  destruct (C102_answers c pre _ q mf q mf L L') as (_ & P & _). destruct (P w ms nouns) as (v & A & fs & [N F] & B). exists v. split; [exact A|].
  assert (Z0 : fs = []). { destruct fs as [|[r n] fs]; [reflexivity|]. exfalso. destruct (proj1 (F r n) (or_introl eq_refl)) as [_ (_ & C & D)]. rewrite E in C. change (map pre []) with (@nil str) in C. unfold occurrences in C. cbn in C. lia. }
  subst fs. destruct B as [[B _]|[_ B]]; [cbn in B; lia|exact B].
Qed.
Print Assumptions C102_one_shot.
(** The descriptions are definite. *)
Theorem C102_determined : forall c G ms w v v', scored c G [] ms w v -> scored c G [] ms w v' -> (fst v == fst v' /\ snd v == snd v')%Q.
Proof. exact scored_fun. Qed.
Print Assumptions C102_determined.

(** "A training that raises changes nothing" is false: when the second iteration raises, the next extraction mixes two corpora. *)
Definition vl_sents : list str := [u "나라은 나라이 나라은이 나라은은 나라이 나라이"].
Definition vl_good : corpus2 := mkCorpus2 (Some 1) (mkPass vl_sents None) (mkPass vl_sents None).
Definition vl_bad : corpus2 := mkCorpus2 (Some 1) (mkPass [u "바다은"] None) (mkPass [] (Some KeyError)).
Definition vl_id : str -> str := fun s => s.
Lemma vl_eq ks ms cands : forallb (fun p => 0 <? snd p) (o_sub (fst (vrun_all vx_conf vl_id new_object ks))) = true ->
  snd (vrun vx_conf vl_id (fst (vrun_all vx_conf vl_id new_object ks)) (VExtract ms 1 cands)) =
  match cands, o_words (fst (vrun_all vx_conf vl_id new_object ks)) with [], None => VRaised TypeError | _, _ =>
    match o_graph (fst (vrun_all vx_conf vl_id new_object ks)) with None => VRaised AttributeError
    | Some g => VNouns (snd (v1_extract_z vx_conf (mkV1S g (match o_words (fst (vrun_all vx_conf vl_id new_object ks)) with Some ws => ws | None => [] end) (o_sub (fst (vrun_all vx_conf vl_id new_object ks)))) ms cands)) end end.
Proof.
  intros H. cbn [vrun]. unfold v1_ask. destruct (o_graph (fst (vrun_all vx_conf vl_id new_object ks))) as [g|]; [|destruct cands, (o_words (fst (vrun_all vx_conf vl_id new_object ks))); reflexivity].
  rewrite extract_z_eq by exact H. destruct cands, (o_words (fst (vrun_all vx_conf vl_id new_object ks))) as [ws|]; try reflexivity; destruct (v1_extract_z _ _ _ _); reflexivity.
Qed.
Theorem C102_failed_training_refuted : exists c pre ks k e w a b D D', snd (vrun c pre (fst (vrun_all c pre new_object ks)) k) = VRaised e /\
  snd (vrun c pre (fst (vrun_all c pre new_object ks)) (VExtract (1 # 2) 1 [])) = VNouns D /\
  snd (vrun c pre (fst (vrun_all c pre new_object (ks ++ [k]))) (VExtract (1 # 2) 1 [])) = VNouns D' /\ w = a ++ b /\ dget D w = None /\ dget D' w <> None.
Proof.
  exists vx_conf, vl_id, [VTrain vl_good 1], (VTrain vl_bad 1), KeyError, (u "나라은"), (u "나라"), (u "은").
  rewrite !vl_eq by (vm_compute; reflexivity). eexists. eexists. split; [vm_compute; reflexivity|]. split; [vm_compute; reflexivity|]. split; [vm_compute; reflexivity|]. split; [reflexivity|].
  split; [vm_compute; reflexivity|vm_compute; discriminate].
Qed.
Print Assumptions C102_failed_training_refuted.
(** "Trainings add up" is false: the second training forgets the first one. *)
Definition vl_other : corpus2 := mkCorpus2 (Some 1) (mkPass [u "바다은 바다이"] None) (mkPass [u "바다은 바다이"] None).
Theorem C102_add_up_refuted : exists c pre k1 k2 w v v', snd (vrun_all c pre new_object [k1; k2]) = [VTrained; VTrained] /\
  snd (vrun c pre (fst (vrun_all c pre new_object [k1])) (VPredict w (1 # 2) [])) = VScore v /\ (0 < fst v)%Q /\
  snd (vrun c pre (fst (vrun_all c pre new_object [k1; k2])) (VPredict w (1 # 2) [])) = VScore v' /\ (fst v' == 0)%Q.
Proof.
  exists vx_conf, vl_id, (VTrain vl_good 1), (VTrain vl_other 1), (u "나라"). eexists. eexists. split; [vm_compute; reflexivity|]. split; [vm_compute; reflexivity|]. split; [vm_compute; reflexivity|].
  split; [vm_compute; reflexivity|vm_compute; reflexivity].
Qed.
Print Assumptions C102_add_up_refuted.
(** the hypotheses are met: a history with failures, whose two last trainings differ *)
Example C102_ex : let ks := [VPredict (u "나라") 0%Q []; VTrain vl_other 1; VTrain vl_good 1; VExtract (1 # 2) 1 []; VTrain vl_bad 1; VTrain (mkCorpus2 None (mkPass [] None) (mkPass [] None)) 1] in
  last_with read_twice ks = Some (vl_good, 1) /\ last_with read_once ks = Some (vl_bad, 1).
Proof. split; reflexivity. Qed.
Example C102_one_shot_ex : let q := mkCorpus2 (Some 1) (mkPass vl_sents None) (mkPass [] None) in read_twice q = true /\ p_yields (k_second q) = [] /\ 0 <= v_minf vx_conf.
Proof. split; [reflexivity|]. split; [reflexivity|]. vm_compute. discriminate. Qed.
