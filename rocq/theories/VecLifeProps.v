(** * C103: vectorizers used again and again, sharing files *)
From Coq Require Import QArith Qround Lqa.
From Verif Require Import PyBase PyDict PySort PyText PyFile CountLemmas SortLemmas QLemmas UtilsSpec UtilsProofs UtilsProofs3 UtilsProofs5 VectorizerModel VectorizerSpec VectorizerProofs VectorizerProofs2 VectorizerProofs3 VectorizerProofs4 VectorizerProps VecLifeModel VecLifeSpec VecLifeProofs.
Open Scope Z_scope.

(** What a call does to the vocabularies, in whatever state the vectorizers are: only that of its own vectorizer can change, by a reading that ends well and has a document, or by a file
    that exists. *)
Theorem C103_vocabulary : forall D (conf : nat -> vconf D) w i o, let w' := fst (vrun conf w (i, o)) in
  (forall j, j <> i -> w_voc w' j = w_voc w j) /\
  (forall docs, learns_from o = Some docs -> fit (conf i) docs = Ok (w_voc w' i)) /\
  (learns_from o = None -> (forall f, o <> Load f) -> w_voc w' i = w_voc w i) /\
  (forall f, o = Load f -> match dget (w_files w) (vname f) with
                           | Some s => snd (vrun conf w (i, o)) = Done /\ idx2vocab (w_voc w' i) = map strip (file_lines s)
                           | None => snd (vrun conf w (i, o)) = NoFile /\ w' = w
                           end).
Proof.
  intros D conf w i o w'. unfold w'. split; [|split; [|split]].
  - intros j NE. rewrite step_voc. destruct (Nat.eqb_spec j i); [congruence|reflexivity].
  - intros docs L. rewrite step_voc, Nat.eqb_refl, L. apply fit_nonempty, (learns_nonempty o), L.
  - intros L NL. rewrite step_voc, Nat.eqb_refl, L. destruct o; try reflexivity. exfalso. exact (NL _ eq_refl).
  - intros f ->. cbn [vrun]. destruct (dget (w_files w) (vname f)) as [s|]; [|split; reflexivity]. split; [reflexivity|]. cbn [fst set_voc w_voc]. rewrite Nat.eqb_refl. reflexivity.
Qed.
Print Assumptions C103_vocabulary.
(** How a call ends: fit, fit_transform, fit_to_file and to_file go well exactly if all their readings do (to_file may read nothing the second time). *)
Theorem C103_ends : forall D (conf : nat -> vconf D) w i, let end_ o := snd (vrun conf w (i, o)) in
  (forall d, end_ (Fit d) = if good d then Done else Raised (match fails d with Some e => e | None => UnboundLocalError end)) /\
  (forall d, (exists m, end_ (Transform d) = AMatrix m) <-> good d = true) /\
  (forall d1 d2, (exists m, end_ (FitTransform d1 d2) = AMatrix m) <-> good d1 = true /\ good d2 = true) /\
  (forall d1 d2 p, end_ (ToFile d1 d2 p) = Done <-> good d1 = true /\ fails d2 = None) /\
  (forall d1 d2 d3 p, end_ (FitToFile d1 d2 d3 p) = Done <-> good d1 = true /\ good d2 = true /\ fails d3 = None).
Proof.
  intros D conf w i end_. unfold end_. clear end_.
  assert (T : forall (c : vconf D) v d, (exists m, ans AMatrix (transform_r c v d) = AMatrix m) <-> good d = true).
  { intros c v d. rewrite transform_good. destruct (good d) eqn:G; [|split; [intros [m H]; discriminate|discriminate]]. split; [reflexivity|intros _].
    unfold good in G. destruct (fails d); [discriminate|]. destruct (yields d); [discriminate|]. eexists. reflexivity. }
  split; [|split; [|split; [|split]]].
  - intros d. cbn [vrun]. rewrite fit_good. destruct (good d); reflexivity.
  - intros d. apply T.
  - intros d1 d2. cbn [vrun]. rewrite fit_good. destruct (good d1); [|split; [intros [m H]; discriminate|intros [H _]; discriminate]]. cbn [snd]. rewrite T. tauto.
  - intros d1 d2 p. cbn [vrun]. rewrite write_good. destruct (good d1); [|split; [discriminate|intros [H _]; discriminate]]. cbn [snd]. destruct (fails d2); split; try tauto; try discriminate. intros [_ H]. discriminate.
  - intros d1 d2 d3 p. cbn [vrun]. rewrite fit_good. destruct (good d1); [|split; [discriminate|intros [H _]; discriminate]]. rewrite write_good. destruct (good d2); [|split; [discriminate|intros (_ & H & _); discriminate]].
    cbn [snd]. destruct (fails d3); split; try tauto; try discriminate. intros (_ & _ & H). discriminate.
Qed.
Print Assumptions C103_ends.
(** What a call does to the files: at most one is written. A vocabulary file holds a term per line; the header of a matrix file comes from the first reading of to_file, the rows from the second. *)
Theorem C103_files : forall D (conf : nat -> vconf D) w i o, let w' := fst (vrun conf w (i, o)) in
  (forall p, may_write o <> Some p -> dget (w_files w') p = dget (w_files w) p) /\
  (forall f, o = Save f -> dget (w_files w') (vname f) = Some (concat (map (fun t => t ++ [10%N]) (idx2vocab (w_voc w i))))) /\
  (forall d1 d2 p, o = ToFile d1 d2 p -> good d1 = false -> w' = w) /\
  (forall d1 d2 p m1, o = ToFile d1 d2 p -> coherent (w_voc w i) -> transform_r (conf i) (w_voc w i) d1 = Ok m1 ->
     exists l2, dget (w_files w') p = Some (mm_head (nrows m1) (ncols m1) (Z.of_nat (length (triplets m1))) ++ mm_rows l2) /\
       match yields d2 with [] => l2 = [] | _ => exists m2, transform (conf i) (w_voc w i) (yields d2) = Ok m2 /\ triplets m2 = l2 end).
Proof.
  intros D conf w i o w'. unfold w'. split; [|split; [|split]].
  - intros p NE. rewrite step_files. destruct o as [d|d1 d2|d1 d2 d3 q|d|d1 d2 q|f|f|d|m|d|b| |]; try reflexivity; cbn [may_write] in NE.
    + destruct (good d1 && good d2); [|reflexivity]. rewrite dget_dset. destruct (eqb_spec q p); [congruence|reflexivity].
    + destruct (good d1); [|reflexivity]. rewrite dget_dset. destruct (eqb_spec q p); [congruence|reflexivity].
    + rewrite dget_dset. destruct (eqb_spec (vname f) p); [congruence|reflexivity].
  - intros f ->. rewrite step_files, dget_dset, eqb_refl. reflexivity.
  - intros d1 d2 p -> G. cbn [vrun]. rewrite write_good, G. reflexivity.
  - intros d1 d2 p m1 -> C E. rewrite transform_good in E. rewrite step_files. destruct (good d1); [|discriminate]. rewrite dget_dset, eqb_refl.
    apply transform_eq in E as (_ & R1 & R2 & R3). exists (rows (w_voc w i) (vtok (conf i)) (enumerate (yields d2))). split.
    + rewrite (mm_content_rows _ _ _ _ C). unfold mm_head, mm_rows. rewrite R1, R2, R3. replace (n_vocabs (w_voc w i)) with (Z.of_nat (length (idx2vocab (w_voc w i)))) by (symmetry; apply C). f_equal.
    + destruct (yields d2) as [|d docs] eqn:Y; [reflexivity|]. rewrite <- Y. destruct (transform (conf i) (w_voc w i) (yields d2)) as [m2|e] eqn:T; [|rewrite Y in T; discriminate].
      exists m2. split; [reflexivity|]. apply transform_eq in T as (_ & _ & _ & T). exact T.
Qed.
Print Assumptions C103_files.
(** Only the last learning counts: after a fit, and whatever follows that does not learn or load, a vectorizer is as that fit made it; this depends on nothing that happened before. *)
Theorem C103_last_fit : forall D (conf : nat -> vconf D) files ks i o docs ks', learns_from o = Some docs ->
  (forall j o', In (j, o') ks' -> j = i -> learns_from o' = None /\ forall f, o' <> Load f) ->
  fit (conf i) docs = Ok (w_voc (fst (vrun_all conf (new_world files) (ks ++ (i, o) :: ks'))) i).
Proof.
  intros D conf files ks i o docs ks' L K. change ((i, o) :: ks') with ([(i, o)] ++ ks'). rewrite app_assoc, run_app, (voc_kept conf i ks' _ K), run_snoc.
  apply (proj1 (proj2 (C103_vocabulary D conf (fst (vrun_all conf (new_world files) ks)) i o)) docs L).
Qed.
Print Assumptions C103_last_fit.
(** What is saved can be loaded, later and elsewhere: if no call in between may write the file, the vectorizer that loads it answers every question as the one that saved it did. *)
Theorem C103_save_load : forall D (conf : nat -> vconf D) files ks i f ks' j f', let w := fst (vrun_all conf (new_world files) ks) in
  vname f = vname f' -> (forall k, In k ks' -> may_write (snd k) <> Some (vname f)) -> Forall clean (idx2vocab (w_voc w i)) -> NoDup (idx2vocab (w_voc w i)) ->
  let p := vrun conf (fst (vrun_all conf (new_world files) (ks ++ (i, Save f) :: ks'))) (j, Load f') in
  snd p = Done /\ forall o, asks o = true -> vtok (conf j) = vtok (conf i) -> snd (vrun conf (fst p) (j, o)) = snd (vrun conf w (i, o)).
Proof.
  intros D conf files ks i f ks' j f' w NAME K CL ND p. unfold p. change ((i, Save f) :: ks') with ([(i, @Save D f)] ++ ks'). rewrite app_assoc, run_app, run_snoc. fold w.
  set (w1 := fst (vrun_all conf (fst (vrun conf w (i, Save f))) ks')).
  assert (F : dget (w_files w1) (vname f') = Some (v_save (w_voc w i))).
  { unfold w1. rewrite <- NAME, (files_kept conf (vname f) ks' _ K). cbn [vrun fst set_file w_files]. rewrite dget_dset, eqb_refl. reflexivity. }
  cbn [vrun]. rewrite F. split; [reflexivity|]. cbn [fst].
  assert (V : w_voc w i = set_vocabulary (idx2vocab (w_voc w i))).
  { unfold w. clear. induction ks as [|[q o] ks IH] using rev_ind; [reflexivity|]. rewrite run_snoc, step_voc. destruct (Nat.eqb i q) eqn:E; [|exact IH]. apply Nat.eqb_eq in E. subst q.
    destruct (learns_from o); [reflexivity|]. destruct o; try exact IH. destruct (dget _ _); [reflexivity|exact IH]. }
  assert (VJ : w_voc (set_voc w1 j (v_load (v_save (w_voc w i)))) j = w_voc w i) by (cbn [set_voc w_voc]; rewrite Nat.eqb_refl, (load_save _ CL); symmetry; exact V).
  intros o A T. destruct o as [d|d1 d2|d1 d2 d3 q|d|d1 d2 q|g|g|d|m|d|b| |]; try discriminate A; cbn [vrun snd]; rewrite ?VJ, ?T; try reflexivity.
  unfold transform_r, transform. rewrite T. reflexivity.
Qed.
Print Assumptions C103_save_load.
(** decode never raises, for no history at all; the number of terms is the length of the list. *)
Theorem C103_total : forall D (conf : nat -> vconf D) files ks i, let w := fst (vrun_all conf (new_world files) ks) in
  snd (vrun conf w (i, Len)) = ALen (Z.of_nat (length (idx2vocab (w_voc w i)))) /\
  (forall l, exists ts, snd (vrun conf w (i, DecodeList l)) = AWords ts) /\ forall b, exists ts, snd (vrun conf w (i, DecodeBow b)) = ACounts ts.
Proof.
  intros D conf files ks i w.
  assert (V : n_vocabs (w_voc w i) = Z.of_nat (length (idx2vocab (w_voc w i)))).
  { unfold w. clear. induction ks as [|[q o] ks IH] using rev_ind; [reflexivity|]. rewrite run_snoc, step_voc. destruct (Nat.eqb i q) eqn:E; [|exact IH]. apply Nat.eqb_eq in E. subst q.
    destruct (learns_from o); [reflexivity|]. destruct o; try exact IH. destruct (dget _ _); [reflexivity|exact IH]. }
  assert (N : forall z, (0 <=? z) && (z <? n_vocabs (w_voc w i)) = true -> exists t, nth_error (idx2vocab (w_voc w i)) (Z.to_nat z) = Some t).
  { intros z H. apply andb_true_iff in H as [H1 H2]. apply Z.leb_le in H1. apply Z.ltb_lt in H2. destruct (nth_error (idx2vocab (w_voc w i)) (Z.to_nat z)) as [t|] eqn:E; [exists t; reflexivity|]. apply nth_error_None in E. lia. }
  split; [cbn [vrun snd]; rewrite V; reflexivity|]. split.
  - intros l. cbn [vrun snd]. unfold decode_list. induction l as [|z l IH]; [exists []; reflexivity|]. cbn [filter]. destruct ((0 <=? z) && (z <? n_vocabs (w_voc w i))) eqn:B; [|exact IH].
    destruct (N z B) as [t Et]. cbn [mapM]. rewrite Et. cbn [bind]. destruct IH as [ts IH]. destruct (mapM _ _) as [ts'|e]; [|discriminate IH]. eexists. reflexivity.
  - intros b. cbn [vrun snd]. unfold decode_bow. set (h := fun ic : Z * Z => match nth_error (idx2vocab (w_voc w i)) (Z.to_nat (fst ic)) with Some t => Ok (t, snd ic) | None => Err IndexError end).
    assert (X : exists l, mapM h (filter (fun ic : Z * Z => (0 <=? fst ic) && (fst ic <? n_vocabs (w_voc w i))) b) = Ok l).
    { induction b as [|ic b IH]; [exists []; reflexivity|]. cbn [filter]. destruct ((0 <=? fst ic) && (fst ic <? n_vocabs (w_voc w i))) eqn:B; [|exact IH].
      destruct (N (fst ic) B) as [t Et]. destruct IH as [l IH]. cbn [mapM]. rewrite IH. unfold h at 1. rewrite Et. cbn [bind]. eexists. reflexivity. }
    destruct X as [l ->]. eexists. reflexivity.
Qed.
Print Assumptions C103_total.
(** If the tokens are clean (no blanks around them, no line breaks), and no other file is there or written under a vocabulary name, every vocabulary of every history is the empty one or one
    that some vectorizer learnt: terms and indices are in bijection, and decoding what encoding gave returns the known tokens. *)
Theorem C103_coherent : forall D (conf : nat -> vconf D) (files : dict str str) ks, (forall i d, Forall clean (vtok (conf i) d)) -> (forall p s, dget files p = Some s -> ~ vocab_name p) ->
  (forall i o p, In (i, o) ks -> may_write o = Some p -> match o with Save _ => True | _ => ~ vocab_name p end) ->
  let w := fst (vrun_all conf (new_world files) ks) in forall i,
  was_learnt conf ks (w_voc w i) /\ coherent (w_voc w i) /\ snd (vrun conf w (i, Vocabs)) = AWords (idx2vocab (w_voc w i)) /\
  forall d, exists l, snd (vrun conf w (i, EncodeList d)) = AInts l /\ snd (vrun conf w (i, DecodeList l)) = AWords (filter (fun t => mem t (idx2vocab (w_voc w i))) (vtok (conf i) d)).
Proof.
  intros D conf files ks CL NF NW w i. destruct (reach_learnt conf files ks CL NF NW) as [W _]. fold w in W. specialize (W i). destruct (learnt_form conf ks _ W) as [V N].
  assert (C : coherent (w_voc w i)) by (rewrite V; apply set_vocab_coherent, N). split; [exact W|]. split; [exact C|]. split.
  - cbn [vrun snd]. f_equal. rewrite V. unfold vocabs. rewrite (set_vocab_keys _ N). apply map_fst_sort_enum.
  - intros d. eexists. split; [reflexivity|]. cbn [vrun snd]. rewrite (decode_encode_list _ C). reflexivity.
Qed.
Print Assumptions C103_coherent.

(** What the questions answer, whenever terms and indices are in bijection: bags of words count the known tokens, and a matrix holds at (i, j) how often term j is in document i. *)
Theorem C103_answers : forall D (conf : nat -> vconf D) w i, coherent (w_voc w i) -> let terms := idx2vocab (w_voc w i) in let tok := vtok (conf i) in
  (forall d, exists b, snd (vrun conf w (i, EncodeBow d)) = ABow b /\
     (forall k, dget b k = if (0 <=? k) && (k <? Z.of_nat (length terms)) then (let n := occ (nth (Z.to_nat k) terms []) (tok d) in if 0 <? n then Some n else None) else None) /\
     exists x, snd (vrun conf w (i, DecodeBow b)) = ACounts x /\ forall t, dget x t = if mem t terms && mem t (tok d) then Some (occ t (tok d)) else None) /\
  (forall l, exists ts, snd (vrun conf w (i, DecodeList l)) = AWords ts /\ encode_list (w_voc w i) ts = filter (fun k => (0 <=? k) && (k <? Z.of_nat (length terms))) l) /\
  (forall d, good d = true -> exists m, snd (vrun conf w (i, Transform d)) = AMatrix m /\ nrows m = Z.of_nat (length (yields d)) /\ ncols m = Z.of_nat (length terms) /\
     forall a b doc t, nth_error (yields d) a = Some doc -> nth_error terms b = Some t -> entryZ m (Z.of_nat a) (Z.of_nat b) = occ t (tok doc)) /\
  forall d1 d2 m, snd (vrun conf w (i, FitTransform d1 d2)) = AMatrix m -> snd (vrun conf (fst (vrun conf w (i, Fit d1))) (i, Transform d2)) = AMatrix m.
Proof.
  intros D conf w i C terms tok. assert (NV : n_vocabs (w_voc w i) = Z.of_nat (length terms)) by apply C. split; [|split; [|split]].
  - intros d. exists (encode_bow (w_voc w i) (tok d)). split; [reflexivity|]. split.
    + intros k. rewrite (C43_bow _ (tok d) k C), NV. reflexivity.
    + destruct (C43_decode_bow _ (tok d) C) as (x & E & _ & G). exists x. cbn [vrun snd]. rewrite E. split; [reflexivity|exact G].
  - intros l. destruct (C43_encode_decode _ l C) as (ts & E & G). exists ts. cbn [vrun snd]. rewrite E. split; [reflexivity|]. rewrite <- NV. exact G.
  - intros d Gd. assert (NE : yields d <> []). { unfold good in Gd. destruct (fails d); [discriminate|]. destruct (yields d); discriminate. }
    destruct (C43_transform (conf i) _ (yields d) C NE) as (m & E & R1 & R2 & _ & _ & R3). exists m. cbn [vrun snd]. rewrite transform_good, Gd, E. split; [reflexivity|]. split; [exact R1|]. split; [exact R2|exact R3].
  - intros d1 d2 m. cbn [vrun]. rewrite fit_good. destruct (good d1); [|discriminate]. cbn [fst snd set_voc w_voc]. rewrite Nat.eqb_refl. auto.
Qed.
Print Assumptions C103_answers.
(** fit_transform and fit_to_file are the two calls one after the other, in whatever state the vectorizer is. *)
Theorem C103_composite : forall D (conf : nat -> vconf D) w i d1, let w1 := fst (vrun conf w (i, Fit d1)) in
  (forall d2, vrun conf w (i, FitTransform d1 d2) = if good d1 then vrun conf w1 (i, Transform d2) else vrun conf w (i, Fit d1)) /\
  (forall d2 d3 p, vrun conf w (i, FitToFile d1 d2 d3 p) = if good d1 then vrun conf w1 (i, ToFile d2 d3 p) else vrun conf w (i, Fit d1)).
Proof.
  intros D conf w i d1 w1. unfold w1. cbn [vrun]. rewrite fit_good. destruct (good d1); [|split; reflexivity]. cbn [fst set_voc w_voc]. rewrite Nat.eqb_refl. split; reflexivity.
Qed.
Print Assumptions C103_composite.
(** ** what does not hold *)
Definition cf (tok : str -> list str) : nat -> vconf str := fun _ => mkVconf tok 0 99999999 0 1 [] true.
Definition rd (l : list str) : reading str := mkReading l None.
(** "fit_transform either works or changes nothing": with an iterator the vocabulary is learnt, then UnboundLocalError *)
Theorem C103_fit_transform_refuted : exists (conf : nat -> vconf str) k w', snd (vrun conf (new_world []) (0%nat, k)) = Raised UnboundLocalError /\ fst (vrun conf (new_world []) (0%nat, k)) = w' /\ w_voc w' 0%nat <> w_voc (new_world []) 0%nat.
Proof. exists (cf split), (FitTransform (rd [u "a b"]) (rd [])). eexists. split; [vm_compute; reflexivity|]. split; [reflexivity|]. vm_compute. discriminate. Qed.
Print Assumptions C103_fit_transform_refuted.
(** "to_file writes as many rows as its header says": with an iterator there are none *)
Theorem C103_iterator_refuted : exists (conf : nat -> vconf str) ks p, snd (vrun_all conf (new_world []) ks) = [Done; Done] /\
  dget (w_files (fst (vrun_all conf (new_world []) ks))) p = Some (mm_head 1 2 2).
Proof. exists (cf split), [(0%nat, Fit (rd [u "a b"])); (0%nat, ToFile (rd [u "a b"]) (rd []) (u "m"))], (u "m"). split; vm_compute; reflexivity. Qed.
Print Assumptions C103_iterator_refuted.
(** "a to_file that raises keeps the old file": one that raises in the second reading has replaced it *)
Theorem C103_atomic_refuted : exists (conf : nat -> vconf str) ks k p s s', snd (vrun conf (fst (vrun_all conf (new_world []) ks)) k) = Raised ValueError /\
  dget (w_files (fst (vrun_all conf (new_world []) ks))) p = Some s /\ dget (w_files (fst (vrun_all conf (new_world []) (ks ++ [k])))) p = Some s' /\ (length s' < length s)%nat.
Proof.
  exists (cf split), [(0%nat, Fit (rd [u "a b"])); (0%nat, ToFile (rd [u "a b"]) (rd [u "a b"]) (u "m"))], (0%nat, ToFile (rd [u "a b"]) (mkReading [] (Some ValueError)) (u "m")), (u "m").
  eexists. eexists. split; [vm_compute; reflexivity|]. split; [vm_compute; reflexivity|]. split; [vm_compute; reflexivity|]. vm_compute. lia.
Qed.
Print Assumptions C103_atomic_refuted.
(** "a vectorizer that loads what it saved answers as before": not if a token ends with a blank *)
Theorem C103_blank_refuted : exists (conf : nat -> vconf str) d x l l', let w := fst (vrun_all conf (new_world []) [(0%nat, Fit d)]) in let w' := fst (vrun_all conf w [(0%nat, @Save str (u "v")); (0%nat, @Load str (u "v.vocab"))]) in
  snd (vrun conf w (0%nat, EncodeList x)) = AInts l /\ snd (vrun conf w' (0%nat, EncodeList x)) = AInts l' /\ l <> l'.
Proof. exists (cf (fun s => [s])), (rd [u "a "]), (u "a "). eexists. eexists. cbv zeta. split; [vm_compute; reflexivity|]. split; [vm_compute; reflexivity|]. discriminate. Qed.
Print Assumptions C103_blank_refuted.
(** the hypotheses are met: two vectorizers, a fit, a save, a failed fit, a load *)
Example C103_ex : let ks := [(0%nat, Fit (rd [u "a b a"; u "b c"])); (0%nat, Save (u "v")); (0%nat, Fit (mkReading [u "x"] (Some KeyError))); (1%nat, Load (u "v.vocab")); (1%nat, EncodeList (u "c z b"))] in
  snd (vrun_all (cf split) (new_world []) ks) = [Done; Done; Raised KeyError; Done; AInts [2; 0]] /\
  (forall i d, Forall clean (vtok (cf split i) d)) /\ (forall i o p, In (i, o) ks -> may_write o = Some p -> match o with Save _ => True | _ => ~ vocab_name p end).
Proof.
  cbv zeta. split; [vm_compute; reflexivity|]. split.
  - intros i d. apply Forall_forall. intros t I. exact (split_tokens_ok d t I).
  - intros i o p I M. repeat (destruct I as [I|I]; [assert (X : snd (i, o) = o) by reflexivity; rewrite <- I in X; cbn [snd] in X; rewrite <- X in *; first [exact Logic.I | discriminate M]|]). destruct I.
Qed.
