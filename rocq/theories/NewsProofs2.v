(** * Proofs about NewsNounExtractor: prediction and the single filters *)
From Coq Require Import QArith Permutation Lqa.
From Verif Require Import PyBase PyDict CountLemmas QLemmas PyText HangleModel HangleProofs UtilsModel UtilsSpec UtilsProofs UtilsProofs2 NounModel NounSpec NounProofs NounProofs2 VectorizerSpec VectorizerProofs3 JosaProofs NounV1Model NounV1Proofs NounV1Proofs3 NewsModel NewsSpec NewsProofs.
Open Scope Z_scope.

(** ** shares *)
Lemma gtb_iff x y : negb (Qle_bool x y) = true <-> (y < x)%Q.
Proof. rewrite negb_true_iff. apply qleb_false. Qed.
Lemma zq_pos n : 0 < n -> (0 < zq n)%Q.
Proof. intros H. unfold zq. change 0%Q with (inject_Z 0). rewrite <- Zlt_Qlt. exact H. Qed.
Lemma ratio_gt q a b : 0 < b -> ((q < zq a / zq b)%Q <-> (q * zq b < zq a)%Q).
Proof.
  intros H. pose proof (zq_pos b H) as P. split; intros X.
  - apply (Qmult_lt_r _ _ (zq b)) in X; [|exact P]. setoid_replace (zq a / zq b * zq b)%Q with (zq a) in X; [exact X|]. field. intros E. rewrite E in P. lra.
  - apply (Qmult_lt_r _ _ (zq b)); [exact P|]. setoid_replace (zq a / zq b * zq b)%Q with (zq a); [exact X|]. field. intros E. rewrite E in P. lra.
Qed.
Lemma ratio_ge q a b : 0 < b -> ((q <= zq a / zq b)%Q <-> (q * zq b <= zq a)%Q).
Proof.
  intros H. pose proof (zq_pos b H) as P. split; intros X.
  - apply (Qmult_le_r _ _ (zq b)) in X; [|exact P]. setoid_replace (zq a / zq b * zq b)%Q with (zq a) in X; [exact X|]. field. intros E. rewrite E in P. lra.
  - apply (Qmult_le_r _ _ (zq b)); [exact P|]. setoid_replace (zq a / zq b * zq b)%Q with (zq a); [exact X|]. field. intros E. rewrite E in P. lra.
Qed.
Lemma more_than_b q P (b : str -> bool) L : (forall x, In x L -> (b x = true <-> P x)) -> (more_than q P L <-> (q * zq (len L) < zq (len (filter b L)))%Q).
Proof.
  intros H. assert (HM : how_many P L (length (filter b L))).
  { induction L as [|x L IH]; [constructor|]. cbn [filter]. destruct (b x) eqn:E; cbn [length]; constructor; try (apply IH; intros; apply H; right; assumption); [apply H; [left; reflexivity|exact E]|].
    intros K. apply (H x (or_introl eq_refl)) in K. congruence. }
  unfold more_than. split.
  - intros (n & HN & X). rewrite (how_many_fun _ _ _ _ HN HM) in X. exact X.
  - intros X. exists (length (filter b L)). split; [exact HM|exact X].
Qed.
Lemma at_least_b q P (b : str -> bool) L : (forall x, In x L -> (b x = true <-> P x)) -> (at_least q P L <-> (q * zq (len L) <= zq (len (filter b L)))%Q).
Proof.
  intros H. assert (HM : how_many P L (length (filter b L))).
  { induction L as [|x L IH]; [constructor|]. cbn [filter]. destruct (b x) eqn:E; cbn [length]; constructor; try (apply IH; intros; apply H; right; assumption); [apply H; [left; reflexivity|exact E]|].
    intros K. apply (H x (or_introl eq_refl)) in K. congruence. }
  unfold at_least. split.
  - intros (n & HN & X). rewrite (how_many_fun _ _ _ _ HN HM) in X. exact X.
  - intros X. exists (length (filter b L)). split; [exact HM|exact X].
Qed.
Lemma share_gt q a (L : list str) : (0 <= q)%Q -> (a <= len L) -> ((q < zq a / zq (len L))%Q <-> (q * zq (len L) < zq a)%Q).
Proof.
  intros Q0 A. destruct (Z.eq_dec (len L) 0) as [E|E].
  - rewrite E in *. unfold zq. change (inject_Z 0) with 0%Q. assert (X : (inject_Z a <= 0)%Q) by (change 0%Q with (inject_Z 0); rewrite <- Zle_Qle; exact A). unfold Qdiv. change (/ 0)%Q with 0%Q. split; intros H; lra.
  - apply ratio_gt. unfold len in *. lia.
Qed.
Lemma len_filter {A} (p : A -> bool) l : len (filter p l) <= len l.
Proof. unfold len. induction l as [|x l IH]; [cbn; lia|]. cbn [filter]. destruct (p x); cbn [length]; lia. Qed.
Lemma counts_share d B (b : str -> bool) q : (0 <= q)%Q -> counts d B ->
  (negb (Qle_bool (qdiv (Zsum (fun rc => if b (fst rc) then snd rc else 0) d) (Zsum snd d)) q) = true <-> (q * zq (len B) < zq (len (filter b B)))%Q).
Proof.
  intros Q0 C. rewrite gtb_iff, (counts_Zsum d B b C), (counts_total d B C). apply share_gt; [exact Q0|apply len_filter].
Qed.

(** ** prediction *)
Lemma news_fold c d : forall norm s total npos nfeat, exists s', fold_left (news_step c) d (norm, s, total, npos, nfeat) =
    (norm + Zsum (fun rc => if dmem (w_coef c) (fst rc) then snd rc else 0) d, s', total + Zsum snd d,
     npos + len (filter (fun r => dmem (w_coef c) r && negb (Qle_bool (dgetd (w_coef c) r 0%Q) 0)) (dkeys d)), nfeat + len (filter (dmem (w_coef c)) (dkeys d))) /\
  (s' == s + Qsum (map (fun rc => inject_Z (snd rc) * (if dmem (w_coef c) (fst rc) then dgetd (w_coef c) (fst rc) 0 else 0)) d))%Q.
Proof.
  induction d as [|[r n] d IH]; intros norm s total npos nfeat.
  - exists s. split; [cbn; unfold len; cbn [length]; rewrite !Z.add_0_r; reflexivity|]. cbn. ring.
  - cbn [fold_left news_step fst snd Zsum dkeys map filter]. fold (dkeys d). destruct (dget (w_coef c) r) as [q|] eqn:G;
      [assert (DM : dmem (w_coef c) r = true) by (unfold dmem; rewrite G; reflexivity); assert (DG : dgetd (w_coef c) r 0%Q = q) by (unfold dgetd; rewrite G; reflexivity); rewrite DM, DG
      |assert (DM : dmem (w_coef c) r = false) by (unfold dmem; rewrite G; reflexivity); rewrite DM].
    + destruct (IH (norm + n) (s + inject_Z n * q)%Q (total + n) (npos + (if Qle_bool q 0 then 0 else 1)) (nfeat + 1)) as (s' & E & S'). exists s'. split.
      * rewrite E. cbn [andb]. unfold len. destruct (Qle_bool q 0); cbn [negb length]; repeat (match goal with |- (_, _) = (_, _) => f_equal end); try reflexivity; lia.
      * rewrite S', Qsum_cons. ring.
    + destruct (IH norm s (total + n) npos nfeat) as (s' & E & S'). exists s'. split.
      * rewrite E. cbn [andb]. repeat (match goal with |- (_, _) = (_, _) => f_equal end); try reflexivity; lia.
      * rewrite S', Qsum_cons. ring.
Qed.
Lemma Qsum_filter (f : str -> Q) (b : str -> bool) L : (Qsum (map (fun r => if b r then f r else 0) L) == Qsum (map f (filter b L)))%Q.
Proof. induction L as [|x L IH]; [reflexivity|]. cbn [map Qsum fold_right filter]. destruct (b x); cbn [map Qsum fold_right]; unfold Qsum in *; rewrite IH; [reflexivity|ring]. Qed.
Lemma distinct_len d B (p : str -> bool) : counts d B -> len (filter p (dkeys d)) = len (filter p (first_seen B)).
Proof.
  intros C. unfold len. f_equal. apply Permutation_length. apply NoDup_perm; [apply NoDup_filter, C|apply NoDup_filter, fs_NoDup|].
  intros x. rewrite !filter_In, (counts_keys d B x C), fs_In. reflexivity.
Qed.
Lemma fs_filter_perm (p : str -> bool) B : Permutation (first_seen (filter p B)) (filter p (first_seen B)).
Proof. apply NoDup_perm; [apply fs_NoDup|apply NoDup_filter, fs_NoDup|]. intros x. rewrite fs_In, !filter_In, fs_In. reflexivity. Qed.
Lemma filter_len_perm {A} (p : A -> bool) l l' : Permutation l l' -> len (filter p l) = len (filter p l').
Proof. intros H. unfold len. f_equal. induction H as [|x l l' H IH|x y l|l l' l'' H IH H' IH']; [reflexivity| | |congruence]; cbn [filter]; [destruct (p x); cbn [length]; congruence|destruct (p x), (p y); reflexivity]. Qed.
Lemma filter_and {A} (p q : A -> bool) l : filter (fun x => p x && q x) l = filter q (filter p l).
Proof. induction l as [|x l IH]; [reflexivity|]. cbn [filter]. destruct (p x); cbn [andb filter]; [destruct (q x)|]; rewrite IH; reflexivity. Qed.

Section Filters.
  Variables (c : nwconf) (st : nwstate) (W : list str).
  Let coef := w_coef c.
  Let lm := w_lm c.
  Let rm := w_rm c.
  Let josa : str -> Prop := fun x => In x (w_josa c).
  Let verbs : str -> Prop := fun x => In x (w_verbs c).
  Hypothesis T : trained lm rm W st.
  Notation aft := (after lm rm W).
  Notation fr := (freq lm rm W).
  Notation sc := (score coef lm rm W).

  Lemma T_row l : counts (row st l) (aft l). Proof. apply T. Qed.
  Lemma T_freq l : l_frequency st l = fr l. Proof. apply T. Qed.
  Lemma T_eoj l : dgetd (t_eoj st) l 0 = alone lm rm W l. Proof. apply T. Qed.
  Lemma freq_nonneg l : 0 <= fr l. Proof. unfold freq, len. lia. Qed.

  Lemma predict_spec l : predicted coef lm rm W l (news_predict c st l).
  Proof.
    unfold news_predict. destruct (news_fold c (row st l) 0 0%Q 0 0 0) as (s' & E & S'). rewrite E. clear E. cbn [Z.add]. rewrite (counts_Zsum _ _ _ (T_row l)), (counts_total _ _ (T_row l)), T_eoj.
    fold coef. fold (features coef lm rm W l). fold (fr l).
    rewrite (distinct_len _ (aft l) (dmem coef) (T_row l)), (distinct_len _ (aft l) (fun r => dmem coef r && negb (Qle_bool (dgetd coef r 0%Q) 0)) (T_row l)).
    rewrite (filter_and (dmem coef) (fun r => negb (Qle_bool (dgetd coef r 0%Q) 0))). rewrite <- (filter_len_perm (fun r => negb (Qle_bool (dgetd coef r 0%Q) 0)) _ _ (fs_filter_perm (dmem coef) (aft l))).
    fold (features coef lm rm W l). fold (n_positive coef lm rm W l).
    assert (L : len (filter (dmem coef) (first_seen (aft l))) = len (first_seen (features coef lm rm W l))) by (unfold len; f_equal; apply Permutation_length, Permutation_sym, (fs_filter_perm (dmem coef))).
    rewrite L. clear L. unfold predicted. cbn [ns_score ns_freq ns_fprop ns_eprop ns_npos ns_upos]. split; [|split; [reflexivity|split; [|split; [reflexivity|split; [reflexivity|]]]]].
    - unfold score, mean. destruct (features coef lm rm W l) as [|x F] eqn:EF; [reflexivity|]. cbn [map]. rewrite <- EF. replace (len (features coef lm rm W l) =? 0) with false by (symmetry; apply Z.eqb_neq; rewrite EF; unfold len; cbn [length]; lia).
      unfold zq. replace (len (dgetd coef x 0%Q :: map (fun r => dgetd coef r 0%Q) F)) with (len (features coef lm rm W l)) by (rewrite EF; unfold len; cbn [length]; rewrite map_length; reflexivity).
      apply Qdiv_comp; [|reflexivity]. eapply Qeq_trans; [exact S'|]. change (w_coef c) with coef. rewrite (counts_Qsum _ _ (fun r => if dmem coef r then dgetd coef r 0%Q else 0%Q) (T_row l)), Qsum_filter. fold (features coef lm rm W l). rewrite EF. cbn [map]. ring.
    - replace (0 <? fr l - alone lm rm W l) with (alone lm rm W l <? fr l); [reflexivity|]. apply eq_true_iff_eq. rewrite !Z.ltb_lt. lia.
    - destruct (features coef lm rm W l) as [|x F] eqn:EF; [reflexivity|]. rewrite <- EF. assert (P : 0 < len (first_seen (features coef lm rm W l))).
      { assert (I : In x (first_seen (features coef lm rm W l))) by (rewrite fs_In, EF; left; reflexivity). unfold len. destruct (first_seen (features coef lm rm W l)); [destruct I|cbn [length]; lia]. }
      destruct (Z.leb_spec (len (first_seen (features coef lm rm W l))) 0); [lia|reflexivity].
  Qed.
  Lemma score_gt l q : negb (Qle_bool (ns_score (news_predict c st l)) q) = true <-> (q < sc l)%Q.
  Proof. rewrite gtb_iff. destruct (predict_spec l) as [E _]. rewrite E. reflexivity. Qed.
  Lemma score_ge l q : Qle_bool q (ns_score (news_predict c st l)) = true <-> (q <= sc l)%Q.
  Proof. rewrite Qle_bool_iff. destruct (predict_spec l) as [E _]. rewrite E. reflexivity. Qed.

  (** ** cuts *)
  Lemma firstn_cut (l : str) e : (e <= length l)%nat -> length (firstn e l) = e. Proof. intros H. rewrite firstn_length. lia. Qed.
  Lemma list_max_In L : L <> [] -> In (list_max L) L /\ forall x, In x L -> (x <= list_max L)%nat.
  Proof.
    intros NE. split.
    - induction L as [|x L IH]; [congruence|]. cbn [list_max fold_right]. fold (list_max L). destruct L as [|y L]; [left; cbn; lia|]. specialize (IH ltac:(discriminate)).
      destruct (Nat.max_dec x (list_max (y :: L))) as [->| ->]; [left; reflexivity|right; exact IH].
    - intros x I. pose proof (proj1 (list_max_le L (list_max L)) (le_n _)) as F. rewrite Forall_forall in F. apply F, I.
  Qed.

  Section Nouns.
    Variables (nd : dict str nval) (N : str -> Prop).
    Hypothesis HN : forall x, dmem nd x = true <-> N x.

    Lemma shorter_iff l a : In (length a) (filter (fun e => dmem nd (firstn e l) || negb (Qle_bool (ns_score (news_predict c st (firstn e l))) (4 # 10))) (seq 2 (length l - 2))) /\ a = firstn (length a) l <->
      (exists b, l = a ++ b /\ b <> []) /\ (2 <= length a)%nat /\ (N a \/ (4 # 10 < sc a)%Q).
    Proof.
      rewrite filter_In, in_seq, orb_true_iff. split.
      - intros [[R O] E]. split; [exists (skipn (length a) l); split; [rewrite E at 1; symmetry; apply firstn_skipn|]|split; [lia|]].
        + intros X. apply (f_equal (@length _)) in X. rewrite skipn_length in X. cbn [length] in X. lia.
        + rewrite <- E in O. rewrite HN, score_gt in O. exact O.
      - intros ((b & -> & NE) & L & O). rewrite firstn_pre. rewrite HN, score_gt. split; [split; [|exact O]|reflexivity]. rewrite app_length. destruct b; [congruence|]. cbn [length]. lia.
    Qed.
    Lemma is_NJsubJ_spec l : fr l <> 0 -> exists b, is_NJsubJ c st nd l = Ok b /\ (b = true <-> noun_josa_begin coef lm rm josa W N l).
    Proof.
      intros F. unfold is_NJsubJ. set (lens := filter _ (seq 2 (length l - 2))). assert (LS : forall a, In (length a) lens /\ a = firstn (length a) l <-> (exists b, l = a ++ b /\ b <> []) /\ (2 <= length a)%nat /\ (N a \/ (4 # 10 < sc a)%Q)) by (intros a; apply shorter_iff).
      assert (LE : forall e, In e lens -> (e < length l)%nat) by (intros e I; unfold lens in I; apply filter_In in I as [I _]; apply in_seq in I; lia).
      assert (NIL : lens = [] -> ~ noun_josa_begin coef lm rm josa W N l). { intros E (a & SH & _). cbv beta in SH. apply LS in SH as [I _]. rewrite E in I. destruct I. }
      destruct lens as [|e0 lens0] eqn:EL; [exists false; split; [reflexivity|]; split; [discriminate|intros X; exfalso; exact (NIL eq_refl X)]|]. rewrite <- EL in *. clear NIL.
      destruct (list_max_In lens) as [MI MM]; [rewrite EL; discriminate|]. set (m := list_max lens) in *. pose proof (LE m MI) as ML. assert (LM : length (firstn m l) = m) by (apply firstn_cut; lia).
      assert (BEST : forall a, ((exists b, l = a ++ b /\ b <> []) /\ (2 <= length a)%nat /\ (N a \/ (4 # 10 < sc a)%Q)) ->
        (forall a', ((exists b, l = a' ++ b /\ b <> []) /\ (2 <= length a')%nat /\ (N a' \/ (4 # 10 < sc a')%Q)) -> (length a' <= length a)%nat) -> a = firstn m l).
      { intros a SH MX. apply LS in SH as [I E]. assert (X : (length (firstn m l) <= length a)%nat) by (apply MX, LS; rewrite LM; auto). rewrite LM in X. pose proof (MM _ I). replace (length a) with m in E by lia. exact E. }
      assert (SHM : (exists b, l = firstn m l ++ b /\ b <> []) /\ (2 <= length (firstn m l))%nat /\ (N (firstn m l) \/ (4 # 10 < sc (firstn m l))%Q)) by (apply LS; rewrite LM; auto).
      assert (MXM : forall a', ((exists b, l = a' ++ b /\ b <> []) /\ (2 <= length a')%nat /\ (N a' \/ (4 # 10 < sc a')%Q)) -> (length a' <= length (firstn m l))%nat) by (intros a' H; apply LS in H as [I _]; rewrite LM; apply MM, I).
      rewrite !T_freq. destruct (Z.eqb_spec (fr (firstn m l)) 0) as [B0|B0].
      { exists false. split; [reflexivity|]. split; [discriminate|]. intros (a & SH & MX & FP & _). rewrite (BEST a SH MX) in FP. lia. }
      assert (BP : 0 < fr (firstn m l)) by (pose proof (freq_nonneg (firstn m l)); lia).
      destruct (negb (Qle_bool (qdiv (fr l) (fr (firstn m l))) (7 # 10))) eqn:DR.
      { exists false. split; [reflexivity|]. split; [discriminate|]. intros (a & SH & MX & FP & D & _). rewrite (BEST a SH MX) in D. apply gtb_iff in DR. unfold qdiv in DR. unfold zq in D. lra. }
      rewrite (counts_total _ _ (T_row l)). fold (fr l). destruct (Z.eqb_spec (fr l) 0) as [X|_]; [contradiction|].
      eexists. split; [reflexivity|]. rewrite <- (counts_total _ _ (T_row l)) at 1.
      rewrite (counts_share _ _ (fun r => existsb (fun e => mem (skipn e (l ++ r)) (w_josa c)) lens) (8 # 10) ltac:(discriminate) (T_row l)).
      rewrite <- (more_than_b (8 # 10) (fun r => exists a' j, ((exists b, l = a' ++ b /\ b <> []) /\ (2 <= length a')%nat /\ (N a' \/ (4 # 10 < sc a')%Q)) /\ l ++ r = a' ++ j /\ josa j)).
      - split.
        + intros M. exists (firstn m l). split; [exact SHM|]. split; [exact MXM|]. split; [exact BP|]. split; [|exact M]. apply negb_false_iff, Qle_bool_iff in DR. exact DR.
        + intros (a & SH & MX & _ & _ & M). exact M.
      - intros r _. rewrite existsb_exists. split.
        + intros (e & I & MJ). exists (firstn e l), (skipn e (l ++ r)). pose proof (LE e I) as LEe. split; [apply LS; rewrite firstn_cut by lia; auto|]. split; [|apply mem_In, MJ].
          rewrite skipn_app. replace (e - length l)%nat with 0%nat by lia. cbn [skipn]. rewrite app_assoc, firstn_skipn. reflexivity.
        + intros (a' & j & SH & E & J). apply LS in SH as [I E']. exists (length a'). split; [exact I|]. apply mem_In. rewrite E, skipn_pre. exact J.
    Qed.

    Section Scores.
      Variables (ns : dict str nscore) (Sc : str -> Prop).
      Hypothesis HS : forall x, dmem ns x = true <-> Sc x.
      Lemma known_iff x : known ns nd x = true <-> Sc x \/ N x.
      Proof. unfold known. rewrite orb_true_iff, HS, HN. reflexivity. Qed.
      Lemma tail_iff l b : (2 <= length l)%nat -> In b (tail_cuts l) -> tail_cut l (firstn (length l - b) l) (skipn (length l - b) l).
      Proof.
        intros L I. unfold tail_cut. rewrite skipn_length. split; [symmetry; apply firstn_skipn|]. unfold tail_cuts in I. destruct (Nat.leb_spec (length l) 3); cbn [In] in I; lia.
      Qed.
      Lemma tail_cut_b l (a b : str) : tail_cut l a b -> (2 <= length l)%nat -> In (length b) (tail_cuts l) /\ firstn (length l - length b) l = a /\ skipn (length l - length b) l = b.
      Proof.
        intros [-> H] L. rewrite app_length in *. replace (length a + length b - length b)%nat with (length a) by lia. rewrite firstn_pre, skipn_pre. split; [|auto].
        unfold tail_cuts. rewrite app_length. destruct (Nat.leb_spec (length a + length b) 3); cbn [In]; lia.
      Qed.
      Lemma own_word_iff w : eojeol_proportion st w = true <-> own_word lm rm W w.
      Proof.
        unfold eojeol_proportion, own_word. rewrite (counts_total _ _ (T_row w)), T_eoj. fold (fr w). pose proof (freq_nonneg w). destruct (Z.eqb_spec (fr w) 0) as [E|E]; [split; [discriminate|lia]|]. unfold qdiv, zq.
        rewrite gtb_iff. destruct (Qle_bool 1 _) eqn:Q.
        - apply Qle_bool_iff in Q. split; intros _; [split; [lia|]|reflexivity]. eapply Qlt_le_trans; [|exact Q]. reflexivity.
        - split; [intros X; split; [lia|exact X]|intros [_ X]; exact X].
      Qed.
      Lemma is_NVsubE_spec l : (2 <= length l)%nat -> (is_NVsubE st ns nd l = true <-> noun_verb_begin lm rm W Sc N l).
      Proof.
        intros L. unfold is_NVsubE, noun_verb_begin.
        assert (E : match row st l with [] => false | _ => existsb (fun b => let l0 := firstn (length l - b) l in let r0 := skipn (length l - b) l in
             dmem ns l0 && dmem nd l0 && negb (Qle_bool (qdiv (Zsum (fun rc => if eojeol_proportion st (r0 ++ fst rc) then snd rc else 0) (row st l)) (Zsum snd (row st l))) (7 # 10))) (tail_cuts l) end = true <->
          existsb (fun b => let l0 := firstn (length l - b) l in let r0 := skipn (length l - b) l in
             dmem ns l0 && dmem nd l0 && negb (Qle_bool (qdiv (Zsum (fun rc => if eojeol_proportion st (r0 ++ fst rc) then snd rc else 0) (row st l)) (Zsum snd (row st l))) (7 # 10))) (tail_cuts l) = true).
        { destruct (row st l) eqn:R; [|reflexivity]. split; [discriminate|]. intros X. apply existsb_exists in X as (b & _ & X). cbv zeta in X. apply andb_true_iff in X as [_ X]. vm_compute in X. discriminate. }
        rewrite E. clear E. rewrite existsb_exists.
        assert (SH : forall r0, negb (Qle_bool (qdiv (Zsum (fun rc => if eojeol_proportion st (r0 ++ fst rc) then snd rc else 0) (row st l)) (Zsum snd (row st l))) (7 # 10)) = true <-> more_than (7 # 10) (fun r => own_word lm rm W (r0 ++ r)) (aft l)).
        { intros r0. rewrite (counts_share _ _ (fun r => eojeol_proportion st (r0 ++ r)) (7 # 10) ltac:(discriminate) (T_row l)). symmetry. apply more_than_b. intros r _. apply own_word_iff. }
        split.
        - intros (b & I & X). cbv zeta in X. rewrite !andb_true_iff, SH, HS, HN in X. apply (tail_iff l b L) in I as C. exists (firstn (length l - b) l), (skipn (length l - b) l). tauto.
        - intros (a & b & C & A1 & A2 & M). destruct (tail_cut_b l a b C L) as (I & E1 & E2). exists (length b). split; [exact I|]. cbv zeta. rewrite !andb_true_iff, SH, HS, HN, E1, E2. tauto.
      Qed.
      Lemma drop_iff q (a l : str) : (0 < q)%Q -> negb (Qle_bool q (if fr a <=? 0 then 0%Q else qdiv (fr l) (fr a))) = true <-> (fr a = 0 \/ (zq (fr l) / zq (fr a) < q)%Q).
      Proof.
        intros Q0. rewrite gtb_iff. pose proof (freq_nonneg a). destruct (Z.leb_spec (fr a) 0) as [H1|H1].
        - split; [intros _; left; lia|intros _; exact Q0].
        - unfold qdiv, zq. split; [auto|intros [X|X]; [lia|exact X]].
      Qed.
      Lemma is_NWsub_spec l : (2 <= length l)%nat -> (is_NWsub st ns nd l = true <-> rare_extension lm rm W (fun x => Sc x \/ N x) l).
      Proof.
        intros L. unfold is_NWsub, rare_extension. rewrite existsb_exists. split.
        - intros (b & I & X). cbv zeta in X. rewrite andb_true_iff, known_iff, !T_freq, drop_iff in X by reflexivity. apply (tail_iff l b L) in I as C. exists (firstn (length l - b) l), (skipn (length l - b) l). tauto.
        - intros (a & b & C & K & D). destruct (tail_cut_b l a b C L) as (I & E1 & E2). exists (length b). split; [exact I|]. cbv zeta. rewrite andb_true_iff, known_iff, !T_freq, drop_iff, E1 by reflexivity. tauto.
      Qed.
      Lemma is_compound_spec l : is_compound ns nd l = true <-> compound (fun x => Sc x \/ N x) l.
      Proof.
        unfold is_compound, compound. cbv zeta. destruct (Nat.ltb_spec (length l) 4) as [L|L]; [split; [discriminate|lia]|]. rewrite orb_true_iff, andb_true_iff, !existsb_exists, Nat.leb_le. split.
        - intros [(e & I & X)|(L6 & e1 & I1 & X)]; split; try exact L.
          + left. apply in_seq in I. rewrite andb_true_iff, !known_iff in X. exists (firstn e l), (skipn e l). rewrite firstn_skipn, firstn_length. split; [reflexivity|]. split; [lia|]. split; [|tauto].
            intros E. apply (f_equal (@length _)) in E. rewrite skipn_length in E. cbn [length] in E. lia.
          + right. apply existsb_exists in X as (e2 & I2 & X). apply in_seq in I1. apply in_seq in I2. rewrite !andb_true_iff, !known_iff in X. exists (firstn e1 l), (slice e1 e2 l), (skipn e2 l).
            unfold slice in *. rewrite !firstn_length, !skipn_length. split; [|split; [lia|split; [lia|split; [lia|tauto]]]].
            replace (skipn e2 l) with (skipn (e2 - e1) (skipn e1 l)) by (rewrite skipn_skipn; f_equal; lia). rewrite !firstn_skipn. reflexivity.
        - intros [_ [(a & b & -> & A & B & K)|(a & b & d & -> & A & B & D & K)]].
          + left. exists (length a). rewrite firstn_pre, skipn_pre, andb_true_iff, !known_iff. split; [|exact K]. apply in_seq. rewrite app_length in *. destruct b; [congruence|cbn [length]; lia].
          + right. split; [rewrite !app_length; lia|]. exists (length a). split; [apply in_seq; rewrite !app_length; lia|]. apply existsb_exists. exists (length a + length b)%nat. split; [apply in_seq; rewrite !app_length; lia|].
            unfold slice. rewrite skipn_pre. replace (length a + length b - length a)%nat with (length b) by lia. rewrite !firstn_pre.
            replace (skipn (length a + length b) (a ++ b ++ d)) with d by (rewrite app_assoc, <- app_length, skipn_pre; reflexivity). rewrite !andb_true_iff, !known_iff. tauto.
      Qed.
      Lemma is_NJ_spec w : is_NJ c ns nd w = true <-> noun_josa coef (fun x => Sc x \/ N x) w.
      Proof.
        unfold is_NJ, noun_josa. rewrite existsb_exists. fold coef. split.
        - intros (e & I & X). apply in_seq in I. rewrite andb_true_iff, known_iff in X. destruct X as [K X]. exists (firstn e w), (skipn e w). rewrite firstn_skipn, firstn_length. split; [reflexivity|]. split; [lia|]. split; [exact K|].
          destruct (skipn e w) as [|x r]; [left; reflexivity|right; apply gtb_iff in X; exact X].
        - intros (a & b & -> & A & K & X). exists (length a). split; [apply in_seq; rewrite app_length; lia|]. rewrite firstn_pre, skipn_pre, andb_true_iff, known_iff. split; [exact K|]. destruct b as [|x r]; [reflexivity|]. apply gtb_iff. destruct X as [X|X]; [discriminate|exact X].
      Qed.
      Lemma is_NV_spec l : is_NV c ns nd l = true <-> noun_verb verbs (fun x => Sc x \/ N x) l.
      Proof.
        unfold is_NV, noun_verb. rewrite existsb_exists. split.
        - intros (e & I & X). apply in_seq in I. rewrite andb_true_iff, known_iff, mem_In in X. exists (firstn e l), (skipn e l). rewrite firstn_skipn, firstn_length. split; [reflexivity|]. split; [lia|]. split; [|exact X].
          intros E. apply (f_equal (@length _)) in E. rewrite skipn_length in E. cbn [length] in E. lia.
        - intros (a & b & -> & A & B & K & V). exists (length a). split; [apply in_seq; rewrite app_length; destruct b; [congruence|cbn [length]; lia]|]. rewrite firstn_pre, skipn_pre, andb_true_iff, known_iff, mem_In. auto.
      Qed.
    End Scores.
  End Nouns.
End Filters.
