(** * LRNounExtractor_v2 used again and again: what a graph can become *)
From Coq Require Import Reals QArith Lqa Permutation Bool.
From Verif Require Import PyBase PyDict PyText PySort SortLemmas CountLemmas QLemmas UtilsModel UtilsSpec UtilsProofs UtilsProofs2 UtilsProofs4 UtilsProofs6 WordModel
  NounModel NounSpec NounSpec2 NounProofs NounProofs2 NounProofs3 NounProofs5 NounProofs6 NounProps JosaModel JosaProofs NounLifeModel.
Open Scope Z_scope.

(** graphs made from [g] by taking counts away *)
Definition part (g g' : lrg) : Prop := Inv g' /\ reach g g' /\
  forall l r n, pget (lr g') l r = Some n -> 0 < n /\ exists m, pget (lr g) l r = Some m /\ n <= m.
Lemma part_refl g : Inv g -> (forall l r n, pget (lr g) l r = Some n -> 0 < n) -> part g g.
Proof. intros IV P. split; [exact IV|]. split; [apply reach_refl|]. intros l r n E. split; [exact (P l r n E)|]. exists n. split; [exact E|lia]. Qed.
Lemma remove_pairs_part (g0 : lrg) (e : str) (c : Z) : 0 <= c -> forall (is : list nat) (g : lrg),
  (Inv g /\ forall l r n, pget (lr g) l r = Some n -> 0 < n /\ exists m, pget (lr g0) l r = Some m /\ n <= m) ->
  let g' := fold_left (fun g i => remove_lr_pair g (firstn i e) (skipn i e) c) is g in
  Inv g' /\ forall l r n, pget (lr g') l r = Some n -> 0 < n /\ exists m, pget (lr g0) l r = Some m /\ n <= m.
Proof.
  intros C. induction is as [|i is IH]; intros g H; [exact H|]. cbn [fold_left]. apply IH. destruct H as [IV H].
  pose proof (remove_pair_spec g (firstn i e) (skipn i e) c IV) as X. cbv zeta in X. destruct X as (I' & _ & _ & P). split; [exact I'|]. intros l r n E. rewrite P in E.
  destruct (eqb (firstn i e) l && eqb (skipn i e) r) eqn:Q; [|exact (H l r n E)].
  apply andb_true_iff in Q as [Q1 Q2]. apply eqb_eq in Q1, Q2. rewrite Q1, Q2 in E. destruct (pget (lr g) l r) as [v|] eqn:V; [|discriminate].
  cbn [dec] in E. destruct (Z.leb_spec (v - c) 0) as [Y|Y]; [discriminate|]. assert (n = v - c) by congruence. subst n.
  destruct (H l r v V) as (_ & m & M & L). split; [lia|]. exists m. split; [exact M|lia].
Qed.
Lemma part_remove g g' e c : 0 <= c -> part g g' -> part g (remove_eojeol g' e c).
Proof.
  intros C (IV & R & P). pose proof (remove_pairs_part g e c C (seq 1 (length e)) g' (conj IV P)) as X. cbv zeta in X. fold (remove_eojeol g' e c) in X.
  destruct X as [I' P']. split; [exact I'|]. split; [apply reach_remove, R|exact P'].
Qed.
Lemma part_rows_pos g g' w : part g g' -> forall r n, In (r, n) (get_r g' w (-1)) -> 0 < n.
Proof.
  intros (IV & _ & P) r n J. unfold get_r in J. rewrite get_all in J. rewrite top_all_In in J by apply (inv_lr g' IV). apply (P _ _ _ J).
Qed.
Lemma part_remove_rows g w (rows : list (str * Z)) : Forall (fun p : str * Z => 0 < snd p) rows -> forall g', part g g' -> part g (remove_rows g' w rows).
Proof.
  induction 1 as [|[r n] rows H F IH]; intros g' P; [exact P|]. unfold remove_rows. cbn [fold_left]. apply IH. cbn [snd] in *. apply part_remove; [lia|exact P].
Qed.
Lemma part_batch c ms g (cands : list str) g' : part g g' -> let st := batch_predict c g' cands ms in
  part g (fst st) /\ NoDup (dkeys (snd st)) /\ Forall (fun p : str * (Z * Q) => (snd (snd p) <= 1)%Q) (snd st).
Proof.
  intros P. unfold batch_predict. generalize (sort_len cands) as todo. intros todo. cbv zeta.
  assert (H : forall (st : lrg * dict str (Z * Q)), part g (fst st) -> NoDup (dkeys (snd st)) -> Forall (fun p : str * (Z * Q) => (snd (snd p) <= 1)%Q) (snd st) ->
    let st' := fold_left (batch_step c ms) todo st in part g (fst st') /\ NoDup (dkeys (snd st')) /\ Forall (fun p : str * (Z * Q) => (snd (snd p) <= 1)%Q) (snd st')).
  { induction todo as [|w todo IH]; intros st Ps N F; [cbv zeta; auto|]. cbn [fold_left]. apply IH.
    - unfold batch_step. cbn [fst]. destruct (Qle_bool _ _); [|exact Ps]. apply part_remove_rows; [|exact Ps]. apply Forall_forall. intros [r n] J. cbn [snd]. exact (part_rows_pos g (fst st) w Ps r n J).
    - unfold batch_step. cbn [snd]. apply (dwf_dset (K:=str)). exact N.
    - unfold batch_step. cbn [snd]. apply Forall_forall. intros p J. apply (dset_keys_In (K:=str)) in J. destruct J as [->|J].
      + cbn [snd]. unfold noun_predict. pose proof (predict_bounds c w (get_r (fst st) w (-1)) ms) as B. cbv zeta in B. apply B.
        intros r n J. pose proof (part_rows_pos g (fst st) w Ps r n J). lia.
      + rewrite Forall_forall in F. exact (F p J). }
  apply H; [exact P|constructor|constructor].
Qed.
Lemma part_cover {S} c (nouns : dict str S) g (ws : list str) : forall (st : lrg * Z), part g (fst st) -> part g (fst (fold_left (cover_step c nouns) ws st)).
Proof.
  induction ws as [|w ws IH]; intros [g' k] P; [exact P|]. cbn [fold_left]. apply IH. unfold cover_step. destruct (dmem nouns w); [|exact P]. rewrite cover_rows. cbn [fst].
  cbn [fst] in P. apply part_remove_rows; [|exact P]. apply Forall_forall. intros [r n] J. apply filter_In in J as [J _]. cbn [snd]. exact (part_rows_pos g g' w P r n J).
Qed.

(** ** the graph of a counter *)
Definition good_counter (blanks_too : bool) (ec : ecounter) : Prop :=
  NoDup (map fst (ec_counter ec)) /\ (forall e n, dget (ec_counter ec) e = Some n -> 0 < n) /\ (blanks_too = false -> Forall (fun p => Forall (fun c => nonspace c = true) (fst p)) (ec_counter ec)).
Lemma trained_part b ec lm rm g : good_counter b ec -> 1 < lm -> 0 < rm -> train_counter ec lm rm = Ok g -> part g g.
Proof.
  intros (N & POS & _) A B TR. destruct (trained_uni ec lm rm N A B) as (g0 & E0 & [IV U] & _). rewrite TR in E0. assert (g0 = g) by congruence. subst g0.
  apply part_refl; [exact IV|]. intros l r n E. rewrite U in E. destruct (in_window lm rm l r); [exact (POS _ _ E)|discriminate].
Qed.
Lemma part_trained_reset b ec lm rm g g' : good_counter b ec -> 1 < lm -> 0 < rm -> train_counter ec lm rm = Ok g -> part g g' -> reset_lrgraph g' = g.
Proof. intros _ A B TR (_ & R & _). exact (trained_reset ec lm rm g g' A B TR R). Qed.
Lemma domain_scores_small (S : dict str (Z * Q)) th : (1 < j_noun_freq th)%Q -> Forall (fun p : str * (Z * Q) => (snd (snd p) <= 1)%Q) S ->
  Forall (fun p : str * (Q * Q) => (snd (snd p) < j_noun_freq th)%Q) (map (fun p : str * (Z * Q) => (fst p, (inject_Z (fst (snd p)), snd (snd p)))) S).
Proof. intros H F. apply Forall_map. eapply Forall_impl; [|exact F]. intros [w [n q]] Q. cbn [fst snd] in *. lra. Qed.
Lemma extend_nothing b ec lm rm c g g' (cands : list str) : good_counter b ec -> 1 < lm -> 0 < rm -> train_counter ec lm rm = Ok g -> part g g' ->
  extend_pos_features josa_dom c g' cands = (c, g).
Proof.
  intros G A B TR P. unfold extend_pos_features. pose proof (part_batch c (3 # 10) g cands g' P) as X. cbv zeta in X.
  destruct (batch_predict c g' cands (3 # 10)) as [g1 S]. cbn [fst snd] in X. destruct X as (P1 & _ & F). rewrite (part_trained_reset b ec lm rm g g1 G A B TR P1).
  unfold josa_dom. rewrite no_domain_features; [cbn [dkeys map]; rewrite no_new_features; reflexivity|]. apply domain_scores_small; [reflexivity|exact F].
Qed.
Lemma compounds_part features S (ms : Q) ec lm rm b g g' : good_counter b ec -> b = false -> NoDup (dkeys S) -> 1 < lm -> 0 < rm -> train_counter ec lm rm = Ok g -> part g g' ->
  exists st comps, extract_compounds features g' S ms = Ok (st, comps) /\ part g (c_graph st).
Proof.
  intros (N & POS & NSP) -> NS A B TR P. pose proof P as (_ & RE & _).
  destruct (compounds_all features S ms lm rm ec g g' N NS A B (NSP eq_refl) TR RE) as (st & comps & E & _). exists st, comps. split; [exact E|].
  unfold extract_compounds in E. destruct (origin g') as [o|]; [|discriminate]. cbv zeta in E.
  set (D := decomposer_scores S ms) in *. set (cand := compound_candidates o D) in *.
  revert E. generalize (sort (fun x y : str * Z => longer_first (fst x) (fst y)) cand) as cs. intros cs E.
  assert (H : forall (l : list (str * Z)) s0 s1, part g (c_graph s0) -> foldM (compound_step features S D) l s0 = Ok s1 -> part g (c_graph s1)).
  { induction l as [|[w n] l IH]; intros s0 s1 P0 F; [cbn [foldM] in F; congruence|]. cbn [foldM] in F. destruct (compound_step features S D s0 (w, n)) as [s'|] eqn:C; [|discriminate]. cbn [bind] in F. apply (IH s' s1); [|exact F].
    unfold compound_step in C. cbn [fst snd] in C. destruct (decompose_tokens D w) as [ts|]; [|discriminate]. cbn [bind] in C.
    destruct (parse_compound features ts) as [[|p0 ps]|]; [congruence| |congruence]. injection C as <-. cbn [c_graph]. apply part_remove; [lia|exact P0]. }
  destruct (foldM (compound_step features S D) cs (mkC g' cand [] [] [])) as [s1|] eqn:F; [|discriminate]. cbn [bind] in E. assert (s1 = st) by congruence. subst s1.
  exact (H cs (mkC g' cand [] [] []) st P F).
Qed.
(** an extraction from any such graph *)
Lemma extract_part josa suffix comp posf c ec lm rm b g g' (ms mf : Q) (reset : bool) : good_counter b ec -> (comp = true -> b = false) -> 1 < lm -> 0 < rm -> train_counter ec lm rm = Ok g -> part g g' ->
  exists st nouns, noun_extract josa suffix josa_dom default_postprocessing comp posf c g' ms mf reset = Ok (st, nouns) /\ n_conf st = c /\ part g (n_graph st) /\ (reset = true -> n_graph st = g).
Proof.
  intros G CB A B TR P. pose proof (trained_part b ec lm rm g G A B TR) as PG. unfold noun_extract. set (cands := dkeys (noun_candidates c g' None)).
  assert (X : exists g1, (if posf then extend_pos_features josa_dom c g' cands else (c, g')) = (c, g1) /\ part g g1).
  { destruct posf; [|exists g'; auto]. exists g. split; [exact (extend_nothing b ec lm rm c g g' cands G A B TR P)|exact PG]. }
  destruct X as (g1 & -> & P1). pose proof (part_batch c ms g cands g1 P1) as X. cbv zeta in X.
  destruct (batch_predict c g1 cands ms) as [g2 S]. cbn [fst snd] in X. destruct X as (P2 & NS & _).
  assert (X : exists g3 comps, (if comp then do r <- extract_compounds (pos_f c) g2 S ms; Ok (c_graph (fst r), snd r) else Ok (g2, [])) = Ok (g3, comps) /\ part g g3).
  { destruct comp; [|exists g2, []; auto]. destruct (compounds_part (pos_f c) S ms ec lm rm b g g2 G (CB eq_refl) NS A B TR P2) as (st & comps & E & P3). rewrite E. exists (c_graph st), comps. cbn [bind fst snd]. auto. }
  destruct X as (g3 & comps & -> & P3). cbn [bind]. set (nouns := post_processing _ _ _ _ _ _).
  rewrite (surjective_pairing (check_covered c g3 nouns 0)).
  assert (P4 : part g (fst (check_covered c g3 nouns 0))).
  { unfold check_covered. apply part_cover. cbn [fst]. rewrite (part_trained_reset b ec lm rm g g3 G A B TR P3). exact PG. }
  eexists _, nouns. split; [reflexivity|]. cbn [n_conf n_graph]. split; [reflexivity|].
  pose proof (part_trained_reset b ec lm rm g _ G A B TR P4) as RS. destruct reset; [rewrite RS; auto|split; [exact P4|discriminate]].
Qed.

(** ** the counter of a corpus *)
Lemma count_words (ml : Z) (ws : list str) : forall (d : dict str Z), Forall (fun w => Forall (fun c => nonspace c = true) w) ws -> Forall (fun p : str * Z => Forall (fun c => nonspace c = true) (fst p)) d ->
  Forall (fun p : str * Z => Forall (fun c => nonspace c = true) (fst p))
    (fold_left (fun d (e : str) => match e with [] => d | _ => if Z.of_nat (length e) >? ml then d else dset d e (dgetd d e 0 + 1) end) ws d).
Proof.
  induction ws as [|w ws IH]; intros d W D; [exact D|]. cbn [fold_left]. inversion W as [|? ? W1 W2]; subst. apply IH; [exact W2|]. destruct w as [|x w]; [exact D|].
  destruct (_ >? ml); [exact D|]. apply Forall_forall. intros p J. apply (dset_keys_In (K:=str)) in J. destruct J as [->|J]; [exact W1|]. rewrite Forall_forall in D. exact (D p J).
Qed.
Lemma loop_words pre mc ml cp (sents : list str) : forall i (d : dict str Z), Forall (fun p : str * Z => Forall (fun c => nonspace c = true) (fst p)) d ->
  Forall (fun p : str * Z => Forall (fun c => nonspace c = true) (fst p)) (counting_loop pre mc ml cp i sents d).
Proof.
  induction sents as [|s sents IH]; intros i d D; [exact D|]. cbn [counting_loop]. apply IH. unfold count_eojeols. apply count_words.
  - eapply Forall_impl; [|exact (split_words (pre s))]. intros w [_ W]. exact W.
  - destruct (_ && _); [|exact D]. apply Forall_forall. intros p J. apply filter_In in J as [J _]. rewrite Forall_forall in D. exact (D p J).
Qed.
Lemma count_corpus_good s c me ec : count_corpus s c me = Ok ec -> good_counter false ec.
Proof.
  unfold count_corpus. destruct (_ <=? 0); [discriminate|]. destruct (c_fails c); [discriminate|]. intros E. injection E as <-. cbn [mkCounter ec_counter].
  set (pre := if s_normalized s then s_normalize s else fun x => x).
  assert (C : cnt_ok (counting_loop pre me (s_left s + s_right s) (s_checkpoint s) 0 (c_yields c) [])) by (apply loop_ok; split; constructor).
  pose proof (loop_words pre me (s_left s + s_right s) (s_checkpoint s) (c_yields c) 0 [] (Forall_nil _)) as W.
  set (d := counting_loop pre me (s_left s + s_right s) (s_checkpoint s) 0 (c_yields c) []) in *. clearbody d.
  pose proof (cnt_ok_filter (fun _ v => v >=? me) d C) as C'. split; [apply C'|]. split; [intros e n E; exact (cnt_get_pos _ e n C' E)|]. intros _.
  apply Forall_forall. intros p J. apply filter_In in J as [J _]. rewrite Forall_forall in W. exact (W p J).
Qed.
