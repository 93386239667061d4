(** * Proofs about the life of an LRNounExtractor (version 1) *)
From Coq Require Import QArith Reals Permutation Lra Lqa Sorted.
From Verif Require Import PyBase PyDict PySort SortLemmas CountLemmas QLemmas PyText PyFile UtilsModel UtilsSpec UtilsProofs UtilsProofs2 UtilsProofs3 UtilsProofs6 NounModel NounSpec NounProofs NounProofs2 NounProofs3 VectorizerSpec VectorizerProofs3 NounV1Model NounV1Spec JosaProofs NounV1Proofs NounV1Proofs2 NounV1Proofs3 NounV1Proofs4 NounV1Proofs5 NounV1LifeModel NounV1LifeSpec.
Open Scope Z_scope.

Lemma freq_reset d (g0 : lrg) (nouns : dict str (Q * Q)) : is_graph d -> lrg_new d [] 10 9 = Ok g0 -> reset_lrgraph (fst (v1_frequencies g0 nouns)) = g0.
Proof.
  intros GD ND.
  unfold v1_frequencies.
    assert (X : forall ws g f, exists ops, Forall (fun o => o <> OpFreeze) ops /\ fst (fold_left freq_step ws (g, f)) = history g ops).
    { induction ws as [|w ws IH]; intros g f; [exists []; split; [constructor|reflexivity]|]. cbn [fold_left].
      destruct (IH (fst (freq_step (g, f) w)) (snd (freq_step (g, f) w))) as (ops & F & E). exists (map (fun rc => OpRemoveEojeol (w ++ fst rc) (snd rc)) (get_r g w (-1)) ++ ops). split.
      - apply Forall_app. split; [|exact F]. apply Forall_forall. intros o I. apply in_map_iff in I as (rc & <- & _). discriminate.
      - rewrite <- surjective_pairing in E. rewrite E. unfold history. rewrite fold_left_app. f_equal. cbn [freq_step fst snd]. generalize (get_r g w (-1)) as rows. intros rows. clear. revert g. induction rows as [|rc rows IH]; intros g; [reflexivity|]. cbn [map fold_left]. apply IH. }
    destruct (X (sort_len (dkeys nouns)) g0 []) as (ops & F & EQ). eapply eq_trans; [apply f_equal; exact EQ|]. eapply reset_history; eassumption.
Qed.

Section Asked.
Variable c : v1conf.
Variable W : str -> str -> bool.
Variable f : str -> option Z.
Variable g : lrg.
Variable G : str -> str -> Z -> Prop.
Hypothesis U : uniW W f g.
Hypothesis HP : forall (l r : str) (n : Z), (W l r = true /\ f (l ++ r) = Some n) <-> G l r n.

Lemma unclaimed_spec (nouns : dict str (Q * Q)) : NoDup (dkeys nouns) -> let p := v1_frequencies g nouns in
  forall w, In w (dkeys nouns) -> exists n, dget (snd p) w = Some n /\ unclaimed G (fun x => In x (dkeys nouns)) w n.
Proof.
  intros N p. 
  assert (NS : NoDup ([] ++ sort_len (dkeys nouns))) by (cbn [app]; eapply Permutation_NoDup; [apply Permutation_sym, sort_perm|exact N]).
  destruct (freq_loop W f (sort_len (dkeys nouns)) [] g [] NS U ltac:(intros ? ? E; discriminate E)) as (O & I & _ & Q). fold (v1_frequencies g nouns) in O, I, Q. fold p in O, I, Q.
  intros w IW. assert (IS : In w (sort_len (dkeys nouns))) by (apply sort_In, IW). apply in_split in IS as (a & b & E). destruct (Q a w b E) as (rows & R1 & R2 & R3). exists (Zsum snd rows). split; [exact R3|].
    exists rows. split; [exact R1|]. split; [|symmetry; apply fold_right_Zsum]. intros r k. rewrite R2. cbn [app].
    pose proof (sort_len_sorted (dkeys nouns)) as SS. rewrite E in SS.
    assert (TK : takenW W a (w ++ r) = true <-> exists w' r', In w' a /\ w' ++ r' = w ++ r /\ W w' r' = true).
    { unfold takenW. rewrite existsb_exists. split.
      - intros (w' & I1 & B). apply beginsW_spec in B as (r' & E' & X). exists w', r'. auto.
      - intros (w' & r' & I1 & E' & X). exists w'. split; [exact I1|]. apply beginsW_spec. exists r'. auto. }
    assert (LONG : forall w' r', w' ++ r' = w ++ r -> (In w' a <-> In w' (dkeys nouns) /\ (length w < length w')%nat)).
    { intros w' r' EQ. split.
      - intros Ia. split; [apply (sort_In longer_first); fold (sort_len (dkeys nouns)); rewrite E; apply in_app_iff; left; exact Ia|].
        pose proof (sorted_before longer a w b SS w' Ia) as LE. unfold longer in LE. destruct (Nat.eq_dec (length w) (length w')) as [EL|NL]; [|lia]. exfalso.
        assert (w' = w). { apply (f_equal (firstn (length w))) in EQ. rewrite firstn_pre in EQ. rewrite EL, firstn_pre in EQ. exact EQ. } subst w'.
        cbn [app] in NS. rewrite E in NS. apply NoDup_remove_2 in NS. apply NS, in_app_iff. left. exact Ia.
      - intros [I1 L]. apply (proj2 (sort_In longer_first w' (dkeys nouns))) in I1. fold (sort_len (dkeys nouns)) in I1. rewrite E in I1. apply in_app_iff in I1 as [I1|[<-|I1]]; [exact I1|lia|].
        pose proof (sorted_after longer a w b SS w' I1) as LE. unfold longer in LE. lia. }
    split.
    + intros (A & B & T). split; [apply HP; split; assumption|]. intros (w' & r' & k' & I1 & L1 & EQ & Gh). apply HP in Gh as [G1 G2]. apply not_true_iff_false in T. apply T, TK. exists w', r'. split; [apply (LONG w' r' EQ); auto|]. split; assumption.
    + intros (Gh & NT). pose proof Gh as G0. apply HP in Gh as [A B]. split; [exact A|]. split; [exact B|]. apply not_true_iff_false. intros T. apply TK in T as (w' & r' & Ia & EQ & X). apply NT.
      apply (LONG w' r' EQ) in Ia as [I1 L1]. exists w', r', k. split; [exact I1|]. split; [exact L1|]. split; [exact EQ|]. apply HP. split; [exact X|]. rewrite EQ. exact B.
Qed.
Lemma known_features w : known G w (r_features g w).
Proof.
  destruct (uniW_rows _ _ _ w U) as [N R]. split.
  - unfold r_features. apply (NoDup_filter_map (K:=str)). exact N.
  - intros r n. unfold r_features. rewrite filter_In, R, HP. cbn [fst]. destruct r as [|x r]; split; [intros [_ E]; discriminate|intros [E _]; congruence|intros [E _]; split; [discriminate|exact E]|intros [_ E]; auto].
Qed.
Lemma scored_predict w ms nouns : scored c G nouns ms w (v1_predict c g w ms nouns).
Proof.
  pose proof (known_features w) as F. exists (r_features g w). split; [exact F|]. unfold v1_predict.
  destruct (Z.ltb_spec (v_minf c) (Z.of_nat (length (r_features g w)))) as [L|L].
  - left. split; [exact L|]. apply v1_predict_score. eapply NoDup_map_inv. apply F.
  - right. split; [exact L|]. apply subword_best.
Qed.
Lemma best_nil coef ms w v : best_split coef [] ms w v -> v = (0, 0)%Q.
Proof. intros [[E _]|(e & (l & r & a & _ & _ & _ & _ & X & _) & _)]; [exact E|discriminate X]. Qed.
Lemma scored_fun ms w v v' : scored c G [] ms w v -> scored c G [] ms w v' -> (fst v == fst v' /\ snd v == snd v')%Q.
Proof.
  clear U HP W f g. intros (fs & [N F] & H) (fs' & [N' F'] & H'). assert (P : Permutation fs fs').
  { apply NoDup_perm; [eapply NoDup_map_inv; exact N|eapply NoDup_map_inv; exact N'|]. intros [r n]. rewrite F, F'. reflexivity. }
  pose proof (Permutation_length P) as PL. destruct H as [[A B]|[A B]], H' as [[A' B']|[A' B']]; try lia.
  - eapply v1_score_fun; [|exact B|exact B']. intros x. split; apply Permutation_in; [exact P|apply Permutation_sym, P].
  - apply best_nil in B, B'. subst. split; reflexivity.
Qed.
Lemma unclaimed_ext P P' w n : (forall x, P x <-> P' x) -> unclaimed G P w n -> unclaimed G P' w n.
Proof.
  clear U HP W f g.
  intros H (rows & A & B & C). exists rows. split; [exact A|]. split; [|exact C]. intros r k. rewrite B. split; intros (K & NE); (split; [exact K|]); intros (w' & r' & k' & I & J); apply NE; exists w', r', k'; (split; [apply H, I|exact J]).
Qed.
Lemma extract_table sub ws ms mf cands : (forall x n, dget sub x = Some n -> 0 < n) ->
  let D := snd (v1_extract c (mkV1S g ws sub) ms mf cands) in let C := fun w => In w (match cands with [] => ws | _ => cands end) in
  extracted_table c G (fun x => dgetd sub x 0) ms C D.
Proof.
  intros PS D C. 
  set (cs := match cands with [] => ws | _ => cands end) in *.
  set (h := fun w => v1_predict c g w 0%Q []).
  set (N0 := fold_left (fun (d : dict str (Q * Q)) word => if (length word <=? 1)%nat then d else if Qle_bool ms (fst (h word)) then dset d word (h word) else d) (sort (fun x y : str => (length x <=? length y)%nat) cs) []).
  set (N1 := v1_postprocess c sub ms N0).
  assert (E : v1_extract c (mkV1S g ws sub) ms mf cands = (let (g1, freq) := v1_frequencies g N1 in (mkV1S (reset_lrgraph g1) ws sub, map (fun p => (fst p, (dgetd freq (fst p) 0, fst (snd p), snd (snd p)))) N1))) by reflexivity.
  destruct (score_loop h ms (sort (fun x y : str => (length x <=? length y)%nat) cs) [] (NoDup_nil _)) as [W0 G0]. fold N0 in W0, G0.
  assert (G0' : forall w v, dget N0 w = Some v <-> (C w /\ (2 <= length w)%nat /\ (ms <= fst (h w))%Q) /\ v = h w).
  { intros w v. rewrite (G0 w v) by (intros ? ? X; discriminate X). rewrite sort_In. split; [intros [[A|A] B]; [auto|destruct A; reflexivity]|intros [A B]; auto]. }
  assert (NOUN : forall w, dget N0 w <> None <-> scored_noun c G ms C w).
  { intros w. pose proof (scored_predict w 0%Q []) as R. fold (h w) in R. split.
    - destruct (dget N0 w) as [v|] eqn:X; [intros _|congruence]. apply G0' in X as [(A & B & Q) _]. split; [exact A|]. split; [exact B|]. exists (h w). auto.
    - intros (A & B & v & R' & Q). destruct (scored_fun _ w _ _ R R') as [X _]. rewrite (proj2 (G0' w (h w))); [discriminate|]. split; [|reflexivity]. split; [exact A|]. split; [exact B|]. rewrite X. exact Q. }
  assert (W1 : NoDup (dkeys N1)) by (unfold N1, v1_postprocess, dfilter, dkeys; apply (NoDup_filter_map (K:=str)); exact W0).
  set (final := fun w => scored_noun c G ms C w /\ ~ v1_removal (v_coef c) (fun x => dgetd sub x 0) ms (scored_noun c G ms C) w).
  assert (FIN : forall w v, dget N1 w = Some v <-> final w /\ v = h w).
  { intros w v. unfold N1, v1_postprocess. rewrite dget_dfilter by exact W0. pose proof (v1_removed_spec c sub ms N0 w PS) as RS. rewrite (v1_removal_ext _ _ _ _ _ w NOUN) in RS. unfold final. rewrite <- NOUN.
    destruct (dget N0 w) as [v0|] eqn:X; [|split; [discriminate|intros [[Y _] _]; congruence]]. pose proof X as X0. apply G0' in X0 as [_ ->].
    destruct (v1_removed c sub ms N0 w); cbn [negb].
    - split; [discriminate|]. intros [[_ Y] _]. exfalso. apply Y, RS. reflexivity.
    - split; [intros Y; injection Y as <-; split; [split; [discriminate|intros Y; apply RS in Y; discriminate]|reflexivity]|]. intros [_ ->]. reflexivity. }
  assert (KF : forall w, In w (dkeys N1) <-> final w).
  { intros w. rewrite <- dget_keys. split; [destruct (dget N1 w) as [v|] eqn:X; [intros _; apply FIN in X; apply X|congruence]|]. intros F. rewrite (proj2 (FIN w (h w)) (conj F eq_refl)). discriminate. }
  pose proof (unclaimed_spec N1 W1) as FR. unfold D, extracted_table. rewrite E. destruct (v1_frequencies g N1) as [g1 freq]. cbn [fst snd] in *.
  split; [rewrite (keys_map_snd N1 (fun p => (dgetd freq (fst p) 0, fst (snd p), snd (snd p)))); exact W1|].
  cbv zeta. fold final. split.
  - intros w. rewrite dget_keys, (keys_map_snd N1 (fun p => (dgetd freq (fst p) 0, fst (snd p), snd (snd p)))). apply KF.
  - intros w n s k. rewrite (dget_map_snd N1 (fun p => (dgetd freq (fst p) 0, fst (snd p), snd (snd p)))) by exact W1. destruct (dget N1 w) as [v|] eqn:X; [|discriminate]. cbn [fst snd]. intros Y. injection Y as <- <- <-.
    rewrite <- surjective_pairing. pose proof X as X0. apply FIN in X0 as [F ->]. split; [apply (scored_predict w 0%Q [])|].
    assert (IW : In w (dkeys N1)) by (apply KF, F). destruct (FR w IW) as (n & DN & FN). unfold dgetd. rewrite DN. eapply unclaimed_ext; [|exact FN]. exact KF.
Qed.
End Asked.

(** ** one training *)
Lemma fit_reads c pre k mf x : v1_fit c pre k mf x =
  if read_twice k then (fst (v1_fit c pre k mf new_object), VTrained)
  else if read_once k then (mkO (o_graph x) (o_words x) (fst (scan_vocabulary c pre (p_yields (k_first k)) mf)), snd (v1_fit c pre k mf new_object))
  else (x, snd (v1_fit c pre k mf new_object)).
Proof.
  unfold v1_fit, read_twice, read_once, accepted, whole. destruct (k_len k) as [n|]; [|reflexivity]. rewrite (Z.leb_antisym 0 n). destruct (0 <? n); [|reflexivity]. cbn [negb andb].
  destruct (p_fails (k_first k)) as [e|]; [reflexivity|]. cbn [andb]. destruct (scan_vocabulary c pre (p_yields (k_first k)) mf) as [sub wr]. cbn [fst].
  destruct (p_fails (k_second k)) as [e|]; [reflexivity|]. unfold lrg_new. cbn [Z.gtb Z.compare negb bind].
  destruct (build_lrgraph (v_lm c) pre (p_yields (k_second k)) (dkeys sub) wr); reflexivity.
Qed.
Lemma fit_fails c pre k mf x : read_twice k = false -> exists e, snd (v1_fit c pre k mf x) = VRaised e.
Proof.
  unfold v1_fit, read_twice, read_once, accepted, whole. destruct (k_len k) as [n|]; [|intros; eexists; reflexivity]. rewrite (Z.leb_antisym 0 n). destruct (0 <? n); [|intros; eexists; reflexivity]. cbn [negb andb].
  destruct (p_fails (k_first k)) as [e|]; [intros; eexists; reflexivity|]. cbn [andb]. destruct (scan_vocabulary c pre (p_yields (k_first k)) mf) as [sub wr].
  destruct (p_fails (k_second k)) as [e|]; [intros; eexists; reflexivity|discriminate].
Qed.
Lemma fit_sub c pre k mf : read_once k = true -> o_sub (fst (v1_fit c pre k mf new_object)) = fst (scan_vocabulary c pre (p_yields (k_first k)) mf).
Proof.
  unfold v1_fit, read_once, accepted, whole. destruct (k_len k) as [n|]; [|discriminate]. rewrite (Z.leb_antisym 0 n). destruct (0 <? n); [|discriminate]. cbn [negb andb].
  destruct (p_fails (k_first k)) as [e|]; [discriminate|]. intros _. destruct (scan_vocabulary c pre (p_yields (k_first k)) mf) as [sub wr]. cbn [fst].
  destruct (p_fails (k_second k)) as [e|]; [reflexivity|]. destruct (lrg_new _ _ _ _); reflexivity.
Qed.
Lemma fit_learnt c pre k mf : read_twice k = true -> exists g ws sub, fst (v1_fit c pre k mf new_object) = mkO (Some g) (Some ws) sub /\
  (exists d, is_graph d /\ lrg_new d [] 10 9 = Ok g) /\ NoDup ws /\ (forall l, In l ws <-> exists n, frequent_left (v_lm c) mf (space_words pre (p_yields (k_first k))) l n) /\
  exists W f, uniW W f g /\ forall l r n, (W l r = true /\ f (l ++ r) = Some n) <-> learnt_pair c pre k mf l r n.
Proof.
  unfold v1_fit, read_twice, read_once, accepted, whole. destruct (k_len k) as [n|]; [|discriminate]. rewrite (Z.leb_antisym 0 n). destruct (0 <? n); [|discriminate]. cbn [negb andb]. clear n.
  destruct (p_fails (k_first k)) as [e|]; [discriminate|]. cbn [andb]. destruct (p_fails (k_second k)) as [e|]; [discriminate|]. intros _. unfold learnt_pair.
  generalize (p_yields (k_first k)) as ss1, (p_yields (k_second k)) as sents. intros ss1 sents.
  destruct (scan_spec c pre ss1 mf) as (N & L & R). set (T := space_words pre ss1) in *. destruct (scan_vocabulary c pre ss1 mf) as [sub wr]. cbn [fst snd] in N, L, R.
  destruct (build_pget (v_lm c) pre sents (dkeys sub) wr [] []) as [G _].
  destruct (lrg_new (build_lrgraph (v_lm c) pre sents (dkeys sub) wr) [] 10 9) as [g|e] eqn:E.
  2:{ exfalso. unfold lrg_new in E. cbn [Z.gtb Z.compare negb bind] in E. destruct (build_lrgraph (v_lm c) pre sents (dkeys sub) wr); cbn [check_lrgraph bind] in E; discriminate. }
  exists g, (dkeys sub), sub. split; [reflexivity|]. split; [exists (build_lrgraph (v_lm c) pre sents (dkeys sub) wr); auto|]. split; [exact N|]. split.
  { intros l. rewrite <- dget_keys. split; [destruct (dget sub l) as [n|] eqn:D; [intros _; exists n; apply L, D|congruence]|intros (n & F); apply L in F; congruence]. }
  exists (fun l r => (1 <=? length l)%nat && (Z.of_nat (length l) <=? v_lm c) && okb (dkeys sub) wr l r), (fun e => if 0 <? occurrences e (map pre sents) then Some (occurrences e (map pre sents)) else None). split.
  - destruct (new_Inv _ _ _ _ _ G E) as (I & _). split; [exact I|]. split.
    + intros l r W. apply andb_true_iff in W as [W _]. apply andb_true_iff in W as [W _]. apply Nat.leb_le in W. destruct l; [cbn in W; lia|discriminate].
    + intros l r. assert (LR : lr g = build_lrgraph (v_lm c) pre sents (dkeys sub) wr).
      { unfold lrg_new in E. cbn [Z.gtb Z.compare negb bind] in E. destruct (build_lrgraph (v_lm c) pre sents (dkeys sub) wr) as [|p x]; [injection E as <-; reflexivity|]. cbn [check_lrgraph bind] in E. injection E as <-. reflexivity. }
      rewrite LR. destruct (build_pget (v_lm c) pre sents (dkeys sub) wr l r) as [_ ->].
      destruct ((1 <=? length l)%nat && (Z.of_nat (length l) <=? v_lm c) && okb (dkeys sub) wr l r); reflexivity.
  - intros l r n. rewrite occ_some. assert (X : (1 <=? length l)%nat && (Z.of_nat (length l) <=? v_lm c) && okb (dkeys sub) wr l r = true <-> in_graph (v_lm c) (v_rm c) mf T l r); [|rewrite X; reflexivity].
    unfold okb, in_graph. rewrite !andb_true_iff, Nat.leb_le, Z.leb_le, orb_true_iff, eqb_eq, !mem_In, R. split.
    + intros ((_ & _) & K & D). apply dget_keys in K. destruct (dget sub l) as [m|] eqn:DL; [|congruence]. apply L in DL. split; [exists m; exact DL|exact D].
    + intros ((m & F) & D). pose proof F as (NE & LE & _). apply L in F. split; [split; [pose proof (nonempty_length l NE); lia|exact LE]|]. split; [|exact D]. apply dget_keys. congruence.
Qed.
Lemma sub_counts c pre ss mf : let sub := fst (scan_vocabulary c pre ss mf) in
  (forall x n, dget sub x = Some n -> 0 < n) /\ forall l, left_count (v_lm c) mf (space_words pre ss) l (dgetd sub l 0).
Proof.
  intros sub. destruct (scan_spec c pre ss mf) as (_ & L & _). fold sub in L. split; [intros x n D; apply L in D; apply D|].
  intros l. unfold left_count, dgetd. destruct (dget sub l) as [n|] eqn:E; [left; apply L, E|right]. split; [reflexivity|]. intros m F. apply L in F. congruence.
Qed.
(** ** questions leave the object as it is *)
Lemma ask_same c ms mf cands x : (forall g, o_graph x = Some g -> exists d, is_graph d /\ lrg_new d [] 10 9 = Ok g) -> fst (v1_ask c ms mf cands x) = x.
Proof.
  intros H. destruct x as [og ow sub]. unfold v1_ask. cbn [o_graph o_words o_sub] in *.
  assert (X : fst (match og with None => (mkO og ow sub, VRaised AttributeError) | Some g => let (st, d) := v1_extract c (mkV1S g (match ow with Some ws => ws | None => [] end) sub) ms mf cands in (mkO (Some (v_graph st)) ow sub, VNouns d) end) = mkO og ow sub).
  { destruct og as [g|]; [|reflexivity]. destruct (H g eq_refl) as (d & A & B). unfold v1_extract. cbv zeta. cbn [v_graph v_words v_sub].
    match goal with |- context [v1_frequencies g ?n] => pose proof (freq_reset d g n A B) as R; destruct (v1_frequencies g n) as [g1 fr] end. cbn [fst v_graph] in *. rewrite R. reflexivity. }
  destruct cands as [|w cands]; [|exact X]. destruct ow as [ws|]; [exact X|reflexivity].
Qed.
(** ** histories *)
Lemma vrun_all_app c pre ks : forall x ks', vrun_all c pre x (ks ++ ks') = let (x1, l1) := vrun_all c pre x ks in let (x2, l2) := vrun_all c pre x1 ks' in (x2, l1 ++ l2).
Proof.
  induction ks as [|k ks IH]; intros x ks'; [cbn [app vrun_all]; destruct (vrun_all c pre x ks'); reflexivity|]. cbn [app vrun_all]. destruct (vrun c pre x k) as [x1 a]. rewrite IH.
  destruct (vrun_all c pre x1 ks) as [x2 l]. destruct (vrun_all c pre x2 ks') as [x3 l']. reflexivity.
Qed.
Lemma last_with_snoc P ks k : last_with P (ks ++ [k]) = match trains k with Some (q, mf) => if P q then Some (q, mf) else last_with P ks | None => last_with P ks end.
Proof. unfold last_with. rewrite fold_left_app. reflexivity. Qed.
(** what the object is: the graph and the words of one training, the counts of another one *)
Definition fitted (c : v1conf) (pre : str -> str) (o : option (corpus2 * Z)) : v1object := match o with Some (k, mf) => fst (v1_fit c pre k mf new_object) | None => new_object end.
Definition object_of (c : v1conf) (pre : str -> str) (twice once : option (corpus2 * Z)) : v1object :=
  mkO (o_graph (fitted c pre twice)) (o_words (fitted c pre twice)) (o_sub (fitted c pre once)).
Lemma last_reads P ks k mf : last_with P ks = Some (k, mf) -> P k = true.
Proof.
  induction ks as [|q ks IH] using rev_ind; [discriminate|]. rewrite last_with_snoc. destruct (trains q) as [[k' mf']|]; [|exact IH]. destruct (P k') eqn:E; [|exact IH]. intros H. assert (k' = k) by congruence. subst. exact E.
Qed.
Lemma fitted_good c pre ks g : o_graph (fitted c pre (last_with read_twice ks)) = Some g -> exists d, is_graph d /\ lrg_new d [] 10 9 = Ok g.
Proof.
  destruct (last_with read_twice ks) as [[k mf]|] eqn:L; [|discriminate]. apply last_reads in L. cbn [fitted]. destruct (fit_learnt c pre k mf L) as (g' & ws & sub & -> & D & _). cbn [o_graph]. intros E. injection E as <-. exact D.
Qed.
Lemma once_twice k : read_twice k = true -> read_once k = true.
Proof. unfold read_twice. intros H. apply andb_true_iff in H. apply H. Qed.
Lemma history_object c pre ks : fst (vrun_all c pre new_object ks) = object_of c pre (last_with read_twice ks) (last_with read_once ks).
Proof.
  induction ks as [|k ks IH] using rev_ind; [reflexivity|]. rewrite vrun_all_app. destruct (vrun_all c pre new_object ks) as [x l]. cbn [fst] in IH. cbn [vrun_all].
  assert (GOOD : forall g, o_graph x = Some g -> exists d, is_graph d /\ lrg_new d [] 10 9 = Ok g) by (subst x; cbn [object_of o_graph]; intros g E; exact (fitted_good c pre ks g E)).
  assert (FIT : forall q mf, fst (v1_fit c pre q mf x) = object_of c pre (if read_twice q then Some (q, mf) else last_with read_twice ks) (if read_once q then Some (q, mf) else last_with read_once ks)).
  { intros q mf. rewrite fit_reads. destruct (read_twice q) eqn:R2.
    - rewrite (once_twice q R2). cbn [fst]. unfold object_of. cbn [fitted]. destruct (fst (v1_fit c pre q mf new_object)); reflexivity.
    - destruct (read_once q) eqn:R1; cbn [fst]; [|exact IH]. subst x. unfold object_of. cbn [fitted o_graph o_words]. f_equal. symmetry. apply fit_sub, R1. }
  rewrite !last_with_snoc. destruct k as [q mf|q ms mf cands|ms mf cands|w ms nouns|w ms]; cbn [trains vrun].
  - specialize (FIT q mf). destruct (v1_fit c pre q mf x) as [y a]. cbn [fst] in *. exact FIT.
  - specialize (FIT q mf). destruct (read_twice q) eqn:R2.
    + rewrite fit_reads, R2 in *. cbn [fst] in FIT. rewrite FIT. rewrite (once_twice q R2).
      pose proof (ask_same c ms mf cands (object_of c pre (Some (q, mf)) (Some (q, mf)))) as A. destruct (v1_ask c ms mf cands (object_of c pre (Some (q, mf)) (Some (q, mf)))) as [y a]. cbn [fst] in *. apply A.
      cbn [object_of o_graph fitted]. intros g E. destruct (fit_learnt c pre q mf R2) as (g' & ws & sub & Y & D & _). rewrite Y in E. cbn [o_graph] in E. injection E as <-. exact D.
    + destruct (fit_fails c pre q mf x R2) as [e F]. destruct (v1_fit c pre q mf x) as [y a]. cbn [fst snd] in *. subst a. exact FIT.
  - pose proof (ask_same c ms mf cands x GOOD) as A. destruct (v1_ask c ms mf cands x) as [y a]. cbn [fst] in *. congruence.
  - exact IH.
  - exact IH.
Qed.
