(** * C75, C76: NewsNounExtractor: construction, training, prediction, extraction *)
From Coq Require Import QArith Permutation Lia Lqa.
From Verif Require Import PyBase PyDict CountLemmas QLemmas PyText PyFile HangleModel UtilsModel UtilsSpec UtilsProofs NounModel NounSpec NounProofs VectorizerSpec NounV1Model NounV1Spec NounV1Proofs NounV1Proofs5 NewsModel NewsSpec NewsProofs NewsProofs2 NewsProofs3 NewsProofs4 NewsProofs5 NewsProofs6.
Open Scope Z_scope.

Lemma first_column c s v : hd [] (split_on c s) = v <-> ~ In c v /\ (s = v \/ exists cols, s = v ++ c :: cols).
Proof.
  split.
  - intros <-. destruct (split_on_join c s) as [J F]. destruct (split_on c s) as [|v [|w ws]]; cbn [hd].
    + split; [intros []|left; symmetry; exact J].
    + inversion F as [|? ? X ?]; subst. split; [exact X|left; reflexivity].
    + inversion F as [|? ? X ?]; subst. split; [exact X|right; eexists; reflexivity].
  - intros [N [->|(cols & ->)]]; [rewrite split_on_word by exact N|rewrite split_on_cons by exact N]; reflexivity.
Qed.
(** Construction without a base dictionary: the josas are the right parts with a coefficient over 1/10, and 는; the verbs the first columns of the dictionary files. *)
Theorem C75_init : forall float_of cf vf lm rm, exists c, news_init float_of cf vf lm rm [] = Ok (c, []) /\ w_lm c = lm /\ w_rm c = rm /\
  (forall r, match dget (w_coef c) r with
             | Some q => (exists f, In f cf /\ readable_entry float_of f r q) /\ forall f q', In f cf -> readable_entry float_of f r q' -> (q' <= q)%Q
             | None => forall f q', In f cf -> ~ readable_entry float_of f r q'
             end) /\
  (forall r, In r (w_josa c) <-> r = u "는" \/ exists q, dget (w_coef c) r = Some q /\ (1 # 10 < q)%Q) /\
  (forall v, In v (w_verbs c) <-> exists content line, In content vf /\ In line (file_lines content) /\ ~ In 9%N v /\ (strip line = v \/ exists cols, strip line = v ++ 9%N :: cols)).
Proof.
  intros float_of cf vf lm rm. eexists. split; [reflexivity|]. cbn [w_lm w_rm w_coef w_josa w_verbs]. split; [reflexivity|]. split; [reflexivity|]. destruct (load_spec float_of cf) as [ND L]. split; [exact L|]. split.
  - intros r. rewrite in_app_iff, <- dget_keys, dget_dfilter by exact ND. split.
    + intros [H|[<-|[]]]; [right|left; reflexivity]. destruct (dget (load_coef float_of cf) r) as [q|]; [|congruence]. exists q. split; [reflexivity|]. destruct (negb (Qle_bool q (1 # 10))) eqn:B; [apply gtb_iff, B|congruence].
    + intros [->|(q & D & H)]; [right; left; reflexivity|left]. rewrite D. apply gtb_iff in H. rewrite H. discriminate.
  - intros v. unfold load_verbs. rewrite in_concat. split.
    + intros (vs & I & V). apply in_map_iff in I as (content & <- & I). apply in_map_iff in V as (line & E & V). exists content, line. split; [exact I|]. split; [exact V|]. apply first_column, E.
    + intros (content & line & I & V & SP). eexists. split; [apply in_map_iff; exists content; split; [reflexivity|exact I]|]. apply in_map_iff. exists line. split; [apply first_column, SP|exact V].
Qed.
Print Assumptions C75_init.
(** "A base dictionary extends the nouns" is false: every base dictionary that is not empty makes the construction fail. *)
Theorem C75_base_dictionary_refuted : forall float_of cf vf lm rm base, base <> [] -> news_init float_of cf vf lm rm base = Err NameError.
Proof. intros float_of cf vf lm rm [|p base] H; [congruence|reflexivity]. Qed.
Print Assumptions C75_base_dictionary_refuted.

(** Training fails exactly on the empty corpus; otherwise it leaves the counts of the corpus, whatever was trained before. *)
Theorem C75_train : forall c sents, (sents = [] -> news_train c sents = Err ValueError) /\ (sents <> [] -> exists st, news_train c sents = Ok st /\
  let lm := w_lm c in let rm := w_rm c in let W := words sents in let n := fun w => occurrences w sents in
  (forall l r, pget (t_lr st) l r = if in_window lm rm l r && (0 <? n (l ++ r)) then Some (n (l ++ r)) else None) /\
  (forall l r, pget (t_rl st) r l = match r with [] => None | _ => if in_window lm rm l r && (0 <? n (l ++ r)) then Some (n (l ++ r)) else None end) /\
  (forall w, dget (t_eoj st) w = if (len w <=? lm + rm) && (0 <? n w) then Some (n w) else None) /\
  (forall l, dget (t_lc st) l = if 0 <? freq lm rm W l then Some (freq lm rm W l) else None) /\
  (forall r, dget (t_rc st) r = match r with [] => None | _ => if 0 <? len (ahead lm rm W r) then Some (len (ahead lm rm W r)) else None end) /\
  dkeys (t_lc st) = lefts lm rm W).
Proof.
  intros c sents. split; [intros ->; reflexivity|]. intros NE. destruct (news_train c sents) as [st|e] eqn:T; [|destruct sents; [congruence|discriminate]]. exists st. split; [reflexivity|].
  assert (O : forall w, occ w (words sents) = occurrences w sents) by (intros w; apply occ_len). pose proof (train_exact c sents st T) as H. cbv zeta in *. destruct H as (H1 & H2 & H3 & H4).
  split; [intros l r; rewrite H1, O; reflexivity|]. split; [intros l r; rewrite H2, O; reflexivity|]. split; [intros w; rewrite H3, O; reflexivity|exact H4].
Qed.
Print Assumptions C75_train.

(** predict(l): for any l, from the words of the corpus. *)
Theorem C75_predict : forall c sents st l, news_train c sents = Ok st -> predicted (w_coef c) (w_lm c) (w_rm c) (words sents) l (news_predict c st l).
Proof. intros c sents st l H. exact (predict_spec c st _ (news_trained c sents st H) l). Qed.
Print Assumptions C75_predict.

Lemma mean_bounds (L : list Q) lo hi : (forall q, In q L -> (lo <= q <= hi)%Q) -> (lo <= 0 <= hi)%Q -> (lo <= mean L <= hi)%Q.
Proof.
  intros B Z0. destruct L as [|x L'] eqn:E; [exact Z0|]. rewrite <- E in *. assert (M : mean L = (Qsum L / zq (len L))%Q) by (rewrite E; reflexivity). rewrite M.
  assert (P : (0 < zq (len L))%Q) by (rewrite E; unfold zq, len, Qlt; cbn; lia).
  assert (S : (lo * zq (len L) <= Qsum L /\ Qsum L <= hi * zq (len L))%Q).
  { clear - B. induction L as [|y L IH]; [cbn [Qsum fold_right]; unfold zq, len; cbn [length]; change (inject_Z (Z.of_nat 0)) with 0%Q; lra|].
    cbn [Qsum fold_right]. fold (Qsum L). assert (Q : (zq (len (y :: L)) == zq (len L) + 1)%Q) by (unfold zq, len; cbn [length]; rewrite Nat2Z.inj_succ; unfold Z.succ; rewrite inject_Z_plus; reflexivity).
    rewrite Q. destruct (B y (or_introl eq_refl)). destruct IH as [I1 I2]; [intros; apply B; right; assumption|]. split; lra. }
  split; [apply Qle_shift_div_l; [exact P|apply S]|apply Qle_shift_div_r; [exact P|apply S]].
Qed.
Lemma after_nil lm rm W l : Z.of_nat (length (filter (eqb []) (after lm rm W l))) = if in_window lm rm l [] then len (filter (eqb l) W) else 0.
Proof. pose proof (after_occ lm rm W l []) as H. rewrite app_nil_r, !occ_len in H. exact H. Qed.
Lemma len_filter {A} (p : A -> bool) L : 0 <= len (filter p L) <= len L.
Proof. unfold len. induction L as [|x L IH]; cbn [filter length]; [lia|]. destruct (p x); cbn [length]; lia. Qed.
Lemma ratio_01 a b : 0 <= a <= b -> 0 < b -> (0 <= zq a / zq b <= 1)%Q.
Proof.
  intros H P. assert (PQ : (0 < zq b)%Q) by (unfold zq, Qlt; cbn; lia). assert (Q1 : (0 <= zq a)%Q) by (unfold zq, Qle; cbn; lia). assert (Q2 : (zq a <= zq b)%Q) by (unfold zq; rewrite <- Zle_Qle; lia).
  split; [apply Qle_shift_div_l; [exact PQ|lra]|apply Qle_shift_div_r; [exact PQ|lra]].
Qed.
Lemma alone_le lm rm W l : 0 < freq lm rm W l -> 0 <= alone lm rm W l <= freq lm rm W l /\ alone lm rm W l = len (filter (eqb []) (after lm rm W l)).
Proof.
  intros F. assert (WI : in_window lm rm l [] = true /\ len l <= lm + rm).
  { unfold freq in F. destruct (after lm rm W l) as [|r A] eqn:E; [unfold len in F; cbn [length] in F; lia|]. assert (I : In r (after lm rm W l)) by (rewrite E; left; reflexivity). unfold after in I. apply in_map_iff in I as (w & _ & I). apply filter_In in I as [_ I]. apply andb_true_iff in I as [_ I].
    unfold in_window in *. rewrite !andb_true_iff, !Nat.leb_le, Z.leb_le in *. unfold len. cbn [length]. lia. }
  destruct WI as [WI L]. pose proof (after_nil lm rm W l) as H. rewrite WI in H. fold (len (filter (eqb []) (after lm rm W l))) in H. unfold alone. apply Z.leb_le in L. rewrite L, <- H. split; [|reflexivity]. apply len_filter.
Qed.
Lemma fs_le L : len (first_seen L) <= len L /\ (L <> [] -> 0 < len (first_seen L)).
Proof.
  split.
  - unfold len. apply inj_le. apply NoDup_incl_length; [apply fs_NoDup|]. intros x I. apply fs_In, I.
  - intros NE. destruct L as [|x L]; [congruence|]. assert (I : In x (first_seen (x :: L))) by (apply fs_In; left; reflexivity). unfold len. destruct (first_seen (x :: L)); [destruct I|cbn [length]; lia].
Qed.
(** The scores lie between the extreme coefficients, and the proportions between 0 and 1; for the feature proportion this needs that the empty string has no coefficient. *)
Theorem C75_bounds : forall c sents st l lo hi, news_train c sents = Ok st -> (forall r q, dget (w_coef c) r = Some q -> (lo <= q <= hi)%Q) -> (lo <= 0 <= hi)%Q ->
  let s := news_predict c st l in (lo <= ns_score s <= hi)%Q /\ 0 <= ns_freq s /\ 0 <= ns_npos s /\ (0 <= ns_eprop s <= 1)%Q /\ (0 <= ns_upos s <= 1)%Q /\
    (0 <= ns_fprop s)%Q /\ (dget (w_coef c) [] = None -> (ns_fprop s <= 1)%Q).
Proof.
  intros c sents st l lo hi H B Z0 s. pose proof (C75_predict c sents st l H) as P. fold s in P. destruct P as (P1 & P2 & P3 & P4 & P5 & P6).
  set (lm := w_lm c) in *. set (rm := w_rm c) in *. set (W := words sents) in *. set (coef := w_coef c) in *.
  assert (FN : forall L : list str, 0 <= len L) by (intros L; unfold len; lia).
  split; [rewrite P1; unfold score; apply mean_bounds; [|exact Z0]; intros q I; apply in_map_iff in I as (r & <- & I); unfold features in I; apply filter_In in I as [_ I]; unfold dmem in I; unfold dgetd; destruct (dget coef r) as [q|] eqn:D; [apply (B r q D)|discriminate]|].
  split; [rewrite P2; apply FN|]. split; [rewrite P5; apply FN|].
  split; [rewrite P4; destruct (Z.ltb_spec 0 (freq lm rm W l)) as [F|F]; [destruct (alone_le lm rm W l F) as [A _]; apply ratio_01; assumption|split; lra]|].
  split.
  { rewrite P6. destruct (features coef lm rm W l) as [|r0 R] eqn:E; [split; lra|]. rewrite <- E. apply ratio_01; [apply len_filter|]. apply fs_le. congruence. }
  assert (FP : alone lm rm W l < freq lm rm W l -> 0 < freq lm rm W l) by (intros X; assert (0 <= alone lm rm W l) by (unfold alone; destruct (len l <=? lm + rm); [apply FN|lia]); lia).
  split.
  - rewrite P3. destruct (Z.ltb_spec (alone lm rm W l) (freq lm rm W l)) as [F|F]; [|lra]. apply Qle_shift_div_l; [unfold zq, Qlt; cbn; lia|]. rewrite Qmult_0_l. unfold zq, Qle; cbn. specialize (FN (features coef lm rm W l)). lia.
  - intros NC. rewrite P3. destruct (Z.ltb_spec (alone lm rm W l) (freq lm rm W l)) as [F|F]; [|lra]. apply ratio_01; [|lia]. split; [apply FN|].
    destruct (alone_le lm rm W l (FP F)) as [_ A]. rewrite A. unfold freq, features, len. clear - NC. induction (after lm rm W l) as [|r L IH]; [cbn; lia|]. cbn [filter length]. destruct r as [|x r].
    + unfold dmem at 1. rewrite NC. rewrite eqb_refl. cbn [length]. lia.
    + destruct (eqb_spec (@nil N) (x :: r)) as [X|_]; [discriminate|]. destruct (dmem coef (x :: r)); cbn [length]; lia.
Qed.
Print Assumptions C75_bounds.

(** ** C76 *)
(** extract: the nouns N of the earlier calls and of the eojeol analysis, the candidates P that pass the filters, and the compounds A; each scored as by predict. *)
Theorem C76_extract : forall c sents st ms mf cands mfp nd, news_train c sents = Ok st -> NoDup (dkeys nd) -> 0 < mf \/ cands = [] \/ (0 <= ms)%Q \/ (0 <= mfp)%Q ->
  let W := words sents in let coef := w_coef c in let lm := w_lm c in let rm := w_rm c in
  let josa := fun x => In x (w_josa c) in let verbs := fun x => In x (w_verbs c) in
  let S := good_score coef lm rm W ms mf cands mfp in
  let N := fun l => In l (dkeys nd) \/ split_verb coef lm rm verbs W mf l in
  exists D P A, news_extract c st ms mf cands mfp nd = Ok D /\ NoDup (dkeys D) /\
    kept_nouns coef lm rm josa verbs W (match cands with [] => lefts lm rm W | _ => cands end) S N P /\ added_compounds coef lm rm josa verbs W mf S N P A /\
    (forall l, In l (dkeys D) <-> N l \/ P l \/ A l) /\ forall l v, dget D l = Some v -> exists s, v = Scored s /\ predicted coef lm rm W l s.
Proof.
  intros c sents st ms mf cands mfp nd T ND HP. cbv zeta. destruct (extract_spec c sents st ms mf cands mfp nd T ND HP) as (D & P & A & E & ND' & K & AC & KS & V). cbv zeta in *.
  exists D, P, A. split; [exact E|]. split; [exact ND'|]. split; [exact K|]. split; [exact AC|]. split; [exact KS|]. intros l v G. exists (news_predict c st l). split; [apply V, G|]. apply C75_predict, T.
Qed.
Print Assumptions C76_extract.
(** The descriptions of P and A are definite. *)
Theorem C76_determined : forall coef lm rm josa verbs W order mf S N P P' A A',
  (kept_nouns coef lm rm josa verbs W order S N P -> kept_nouns coef lm rm josa verbs W order S N P' -> forall l, P l <-> P' l) /\
  ((forall l, P l <-> P' l) -> added_compounds coef lm rm josa verbs W mf S N P A -> added_compounds coef lm rm josa verbs W mf S N P' A' -> forall l, A l <-> A' l).
Proof. intros. split; [apply kept_determined|apply added_determined]. Qed.
Print Assumptions C76_determined.
(** Nothing found by an earlier call is ever dropped, whatever the thresholds of the later calls. *)
Theorem C76_accumulates : forall c sents st ms mf cands mfp nd D, news_train c sents = Ok st -> NoDup (dkeys nd) -> 0 < mf \/ cands = [] \/ (0 <= ms)%Q \/ (0 <= mfp)%Q ->
  news_extract c st ms mf cands mfp nd = Ok D -> forall l, In l (dkeys nd) -> In l (dkeys D).
Proof.
  intros c sents st ms mf cands mfp nd D T ND HP E l I. destruct (extract_spec c sents st ms mf cands mfp nd T ND HP) as (D' & P & A & E' & _ & _ & _ & K & _). rewrite E in E'. injection E' as <-. apply K. left. left. exact I.
Qed.
Print Assumptions C76_accumulates.

(** ** concrete cases *)
Definition demo : nwconf := mkNW [(u "는", 5 # 10); (u "를", 9 # 10); (u "했다", - (8 # 10))]%Q 10 7 [u "는"; u "를"] [u "먹었다"].
Definition demo_sents : list str := [u "나라는 나라를 바다는 바다를 나라를"; u "나라는 바다를 나라바다 나라바다 나라바다 나라바다"].
Definition demo_run (ms : Q) (mf : Z) (mfp : Q) (nd : dict str nval) : res (list str) :=
  do st <- news_train demo demo_sents; do D <- news_extract demo st ms mf [] mfp nd; Ok (dkeys D).
Example demo_trains : exists st, news_train demo demo_sents = Ok st.
Proof. eexists. vm_compute. reflexivity. Qed.
Example demo_nouns : demo_run (4 # 10) 3 (6 # 10) [] = Ok [u "나라바다"; u "나라"; u "바다"].
Proof. vm_compute. reflexivity. Qed.
(** the dictionary of an earlier call remains *)
Theorem C76_fresh_refuted : exists nd l, NoDup (dkeys nd) /\ demo_run (9 # 10) 100 0 [] = Ok [] /\ demo_run (4 # 10) 3 (6 # 10) [] = Ok (dkeys nd) /\ exists r, demo_run (9 # 10) 100 0 nd = Ok r /\ In l r.
Proof.
  exists [(u "나라바다", Count 4); (u "나라", Count 4); (u "바다", Count 3)], (u "나라"). split; [|split; [vm_compute; reflexivity|split; [vm_compute; reflexivity|]]].
  - cbn [dkeys map fst]. repeat constructor; cbn [In]; intros X; repeat (destruct X as [X|X]; [discriminate|]); exact X.
  - eexists. split; [vm_compute; reflexivity|]. right. left. reflexivity.
Qed.
Print Assumptions C76_fresh_refuted.
Definition run (sents : list str) (ms : Q) (mf : Z) (cands : list str) (mfp : Q) : res (dict str nval) :=
  do st <- news_train demo sents; news_extract demo st ms mf cands mfp [].
(** "min_feature_proportion bounds the feature proportion" is false: here 0.6 is asked for and 나라, with 1/4, is extracted. *)
Theorem C76_feature_proportion_refuted : exists sents D s, run sents (4 # 10) 3 [] (6 # 10) = Ok D /\ dget D (u "나라") = Some (Scored s) /\ (ns_fprop s < 6 # 10)%Q.
Proof. exists [u "나라는 나라의 나라의 나라의"]. do 2 eexists. split; [vm_compute; reflexivity|]. split; [vm_compute; reflexivity|]. reflexivity. Qed.
Print Assumptions C76_feature_proportion_refuted.
(** "extract never fails" is false with min_frequency 0, negative thresholds and a candidate that does not occur. *)
Theorem C76_total_refuted : exists sents, run sents (- (1)) 0 [u "나라들"] (- (1)) = Err ZeroDivisionError.
Proof. exists [u "나라는"]. vm_compute. reflexivity. Qed.
Print Assumptions C76_total_refuted.
(** A word that is noun + verb is split after exactly two characters: 나라먹었다 gives the noun 나라, but 청소기먹었다 does not give 청소기. *)
Definition verb_sents (n : str) : list str := [n ++ u "는"; n ++ u "먹었다 " ++ n ++ u "먹었다"].
Theorem C76_verb_split_refuted : exists n n', (5 # 10 == score (w_coef demo) 10 7 (words (verb_sents n)) n)%Q /\ (5 # 10 == score (w_coef demo) 10 7 (words (verb_sents n')) n')%Q /\
  (exists D, run (verb_sents n) (9 # 10) 2 [] 0 = Ok D /\ In n (dkeys D)) /\ exists D, run (verb_sents n') (9 # 10) 2 [] 0 = Ok D /\ ~ In n' (dkeys D).
Proof.
  exists (u "나라"), (u "청소기"). split; [vm_compute; reflexivity|]. split; [vm_compute; reflexivity|]. split.
  - eexists. split; [vm_compute; reflexivity|]. left. reflexivity.
  - eexists. split; [vm_compute; reflexivity|]. cbn. intros X. repeat (destruct X as [X|X]; [discriminate|]). exact X.
Qed.
Print Assumptions C76_verb_split_refuted.
(** the filters at work: a noun with a josa begun, a noun followed by ㅎ-endings, a noun ending in 으로 *)
Example demo_filters : match run [u "나라는 나라는 나라는 나라는 나라는 나라들는 나라들는"] (4 # 10) 2 [] 0 with Ok D => dkeys D | Err _ => [] end = [u "나라"; u "나라들"] /\
  match run [u "공부하는 공부하는 공부하는 공부를"] (4 # 10) 1 [] 0 with Ok D => dkeys D | Err _ => [] end = [u "공부하"] /\
  match run [u "바다를 바다를 바다으로를 바다으로를"] (4 # 10) 1 [] 0 with Ok D => dkeys D | Err _ => [] end = [u "바다"].
Proof. vm_compute. repeat split; reflexivity. Qed.
