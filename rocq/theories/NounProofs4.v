(** * LRNounExtractor_v2: compounds *)
From Coq Require Import QArith Permutation Sorting.Sorted Bool.
From Coq Require Import Lqa.
From Verif Require Import PyBase PyDict PySort SortLemmas CountLemmas QLemmas PyText UtilsModel UtilsSpec UtilsProofs UtilsProofs2 TokenizerModel TokenizerSpec MaxScoreProofs MaxScoreProofs2 LRTokProofs NounTokProofs NounModel NounSpec NounSpec2 NounProofs NounProofs2 NounProofs3.
Open Scope Z_scope.

Lemma dscores_get scores ms w q : NoDup (map fst scores) ->
  dget (decomposer_scores scores ms) w = Some q <-> known_part scores ms w /\ q = inject_Z (Z.of_nat (length w)).
Proof.
  intros N. unfold decomposer_scores. set (F := filter _ scores).
  assert (NF : NoDup (map fst F)) by (apply (NoDup_filter_map (K:=str)); exact N).
  assert (NM : NoDup (map fst (map (fun p : str * (Z * Q) => (fst p, inject_Z (Z.of_nat (length (fst p))))) F))) by (rewrite map_map; exact NF).
  rewrite (dget_In_iff _ _ _ NM), in_map_iff. unfold known_part. split.
  - intros ([w' p] & E & I). cbn [fst] in E. injection E as -> <-. apply filter_In in I as [I H]. cbn [fst snd] in H. apply andb_true_iff in H as [H1 H2]. apply qltb_true in H1. apply Nat.ltb_lt in H2.
    split; [|reflexivity]. exists p. split; [apply In_dget; assumption|]. split; [exact H1|lia].
  - intros [(p & D & A & B) ->]. exists (w, p). split; [reflexivity|]. apply filter_In. split; [apply dget_In, D|]. cbn [fst snd]. apply andb_true_iff. split; [apply qltb_true, A|apply Nat.ltb_lt; lia].
Qed.
Lemma dscores_none scores ms w : NoDup (map fst scores) -> dget (decomposer_scores scores ms) w = None <-> ~ known_part scores ms w.
Proof.
  intros N. destruct (dget (decomposer_scores scores ms) w) as [q|] eqn:E.
  - apply dscores_get in E; [|exact N]. split; [discriminate|tauto].
  - split; [|reflexivity]. intros _ K. assert (X : dget (decomposer_scores scores ms) w = Some (inject_Z (Z.of_nat (length w)))) by (apply dscores_get; auto). congruence.
Qed.
Lemma tokens_spec D w : w <> [] -> Forall (fun c => nonspace c = true) w ->
  exists ts, decompose_tokens D w = Ok ts /\ ms_recursive D 0 10 w = Ok ts /\ tiles w 0 ts /\ ts <> [].
Proof.
  intros N F. unfold decompose_tokens, ms_tokenize. rewrite split_nonspace by assumption. destruct (ms_recursive_tiles D 0%Q 10 w N ltac:(lia)) as (ts & E & T).
  exists ts. cbn [mapM]. rewrite E. cbn [bind]. split; [reflexivity|]. split; [reflexivity|]. split; [exact T|]. intros ->. inversion T. destruct w; [congruence|discriminate].
Qed.
(** a token of positive score is a known part *)
Lemma positive_known scores ms w ts t : NoDup (map fst scores) -> w <> [] -> ms_recursive (decomposer_scores scores ms) 0 10 w = Ok ts -> In t ts -> Qle_bool (tsc t) 0 = false ->
  known_part scores ms (tw t).
Proof.
  intros N NW E I P. assert (P' : (0 < tsc t)%Q) by (apply Qnot_le_lt; intros X; apply Qle_bool_iff in X; congruence).
  pose proof (ms_positive _ w ts t NW E I P') as D. apply dscores_get in D; [apply D|exact N].
Qed.
Lemma known_positive scores ms w ts t : NoDup (map fst scores) -> (3 <= length w < 204)%nat -> ms_recursive (decomposer_scores scores ms) 0 10 w = Ok ts -> In t ts ->
  known_part scores ms (tw t) -> Qle_bool (tsc t) 0 = false.
Proof.
  intros N L E I K. pose proof (ms_scores (decomposer_scores scores ms) 0%Q 10 w ts ltac:(lia) L E t I) as S.
  destruct (ms_recursive_tiles (decomposer_scores scores ms) 0%Q 10 w ltac:(intros ->; cbn in L; lia) ltac:(lia)) as (o & E' & T). rewrite E in E'. injection E' as <-.
  destruct (tiles_In _ _ _ _ T I) as (_ & B & W & _).
  assert (LL : (2 <= te t - tb t)%nat). { destruct K as (p & _ & _ & LK). rewrite W in LK. unfold slice in LK. rewrite firstn_length, skipn_length in LK. lia. }
  destruct (Nat.leb_spec 2 (te t - tb t)); [|lia]. cbn [orb] in S. unfold score_of in S. rewrite <- W in S.
  assert (D : dget (decomposer_scores scores ms) (tw t) = Some (inject_Z (Z.of_nat (length (tw t))))) by (apply dscores_get; auto). rewrite D in S. rewrite S.
  rewrite <- not_true_iff_false, Qle_bool_iff. intros X. apply Qle_bool_iff in X. unfold Qle_bool in X. cbn in X. rewrite Z.mul_1_r in X. apply Z.leb_le in X.
  destruct K as (p & _ & _ & LK). lia.
Qed.
Definition goodt (t : tok) : bool := negb (Qle_bool (tsc t) 0).
(** the parser in terms of good tokens *)
Lemma parse_shape features i l : parse_compound features (i ++ [l]) =
  if forallb goodt i then
    if (2 <=? length i)%nat && mem (tw l) features then Some (map tw i) else if goodt l then Some (map tw (i ++ [l])) else None
  else None.
Proof.
  unfold parse_compound. rewrite removelast_last, rev_app_distr. cbn [rev app].
  assert (X : existsb (fun t => Qle_bool (tsc t) 0) i = negb (forallb goodt i)).
  { induction i as [|t i IH]; [reflexivity|]. cbn [existsb forallb]. rewrite IH. unfold goodt at 2. destruct (Qle_bool (tsc t) 0); reflexivity. }
  rewrite X. destruct (forallb goodt i); cbn [negb]; [|reflexivity]. rewrite app_length. cbn [length].
  replace (3 <=? length i + 1)%nat with (2 <=? length i)%nat by (apply eq_true_iff_eq; rewrite !Nat.leb_le; lia).
  replace (qltb 0 (tsc l)) with (goodt l); [reflexivity|]. unfold qltb, goodt. reflexivity.
Qed.
Lemma last_split {A} (l : list A) : l <> [] -> exists i x, l = i ++ [x].
Proof. intros N. destruct l as [|a l] using rev_ind; [congruence|]. eauto. Qed.

(** soundness for every word *)
Lemma decompose_sound features scores ms w : NoDup (map fst scores) -> w <> [] -> Forall (fun c => nonspace c = true) w ->
  exists parts, decompose_compound features (decomposer_scores scores ms) w = Ok parts /\
  (parts = [w] \/ (2 <= length parts)%nat /\ Forall (known_part scores ms) parts /\ (concat parts = w \/ exists j, In j features /\ j <> [] /\ concat parts ++ j = w)).
Proof.
  intros N NW F. destruct (tokens_spec (decomposer_scores scores ms) w NW F) as (ts & E & R & T & NT). destruct (last_split ts NT) as (i & l & ->).
  assert (TX : concat (map tw (i ++ [l])) = w) by (rewrite (tiles_concat w 0) by (auto; lia); reflexivity).
  unfold decompose_compound. rewrite E. cbn [bind]. eexists. split; [reflexivity|]. rewrite parse_shape.
  destruct (forallb goodt i) eqn:G; [|left; reflexivity]. rewrite forallb_forall in G.
  assert (KI : Forall (known_part scores ms) (map tw i)).
  { apply Forall_map, Forall_forall. intros t I. eapply positive_known; [exact N|exact NW|exact R|apply in_or_app; left; exact I|]. specialize (G t I). unfold goodt in G. apply negb_true_iff in G. exact G. }
  destruct ((2 <=? length i)%nat && mem (tw l) features) eqn:C.
  - apply andb_true_iff in C as [C M]. apply Nat.leb_le in C. apply mem_In in M. destruct i as [|t0 i]; [cbn in C; lia|].
    right. cbn [map]. split; [cbn [length] in *; rewrite map_length; exact C|]. split; [exact KI|]. right. exists (tw l). split; [exact M|]. split.
    + destruct (tiles_In _ _ _ l T ltac:(apply in_or_app; right; left; reflexivity)) as (_ & B & W & _). intros Z. rewrite W in Z. apply (f_equal (@length _)) in Z. unfold slice in Z. rewrite firstn_length, skipn_length in Z. cbn in Z. lia.
    + rewrite map_app, concat_app in TX. cbn [map concat] in TX. rewrite app_nil_r in TX. exact TX.
  - destruct (goodt l) eqn:GL; [|left; reflexivity]. destruct i as [|t0 i].
    + left. cbn [app map concat] in *. rewrite app_nil_r in TX. rewrite TX. reflexivity.
    + right. cbn [app map]. split; [cbn [length]; rewrite map_length, app_length; cbn; lia|]. split; [|left; exact TX].
      assert (KL : known_part scores ms (tw l)). { eapply positive_known; [exact N|exact NW|exact R|apply in_or_app; right; left; reflexivity|]. unfold goodt in GL. apply negb_true_iff in GL. exact GL. }
      cbn [map] in KI. inversion KI; subst. constructor; [assumption|]. rewrite map_app. apply Forall_app. split; [assumption|]. constructor; [exact KL|constructor].
Qed.
(** exact for words of ordinary length *)
Lemma decompose_exact features scores ms w : NoDup (map fst scores) -> (3 <= length w < 204)%nat -> Forall (fun c => nonspace c = true) w ->
  exists ts parts, noun_cut scores ms w ts /\ decompose_compound features (decomposer_scores scores ms) w = Ok parts /\
  ((exists j, nouns_and_josa features scores ms ts parts j) \/
   (~ (exists ps j, nouns_and_josa features scores ms ts ps j)) /\ all_nouns scores ms ts /\ parts = map tw ts \/
   (~ (exists ps j, nouns_and_josa features scores ms ts ps j)) /\ ~ all_nouns scores ms ts /\ parts = [w]).
Proof.
  intros N L F. assert (NW : w <> []) by (intros ->; cbn in L; lia).
  destruct (tokens_spec (decomposer_scores scores ms) w NW F) as (ts & E & R & T & NT).
  exists ts. unfold decompose_compound. rewrite E. cbn [bind]. eexists. split; [|split; [reflexivity|]].
  - split; [exact T|]. exists (decomposer_scores scores ms). split; [intros t q; apply dscores_get, N|]. apply ms_greedy; [lia|lia|exact R].
  - assert (GK : forall t, In t ts -> (goodt t = true <-> known_part scores ms (tw t))).
    { intros t I. unfold goodt. rewrite negb_true_iff. split; [eapply positive_known; eassumption|eapply known_positive; eassumption]. }
    destruct (last_split ts NT) as (i & l & ->). rewrite parse_shape.
    assert (GI : forallb goodt i = true <-> Forall (known_part scores ms) (map tw i)).
    { rewrite forallb_forall, Forall_map, Forall_forall. split; intros H t I; apply GK; auto; apply in_or_app; left; exact I. }
    assert (GL : goodt l = true <-> known_part scores ms (tw l)) by (apply GK, in_or_app; right; left; reflexivity).
    assert (NJ : (exists ps j, nouns_and_josa features scores ms (i ++ [l]) ps j) <-> forallb goodt i = true /\ (2 <=? length i)%nat && mem (tw l) features = true).
    { rewrite GI, andb_true_iff, Nat.leb_le, mem_In. split.
      - intros (ps & j & M & A & B & C). rewrite map_app in M. cbn [map] in M. apply app_inj_tail in M as [<- <-]. rewrite map_length in A. auto.
      - intros (A & B & C). exists (map tw i), (tw l). split; [rewrite map_app; reflexivity|]. rewrite map_length. auto. }
    assert (AL : all_nouns scores ms (i ++ [l]) <-> forallb goodt i = true /\ goodt l = true).
    { rewrite GI, GL. unfold all_nouns. rewrite Forall_app, Forall_map. split; [intros [A B]; inversion B; auto|intros [A B]; split; [exact A|constructor; [exact B|constructor]]]. }
    destruct (forallb goodt i) eqn:G.
    + destruct ((2 <=? length i)%nat && mem (tw l) features) eqn:C.
      * left. apply andb_true_iff in C as [C M]. apply Nat.leb_le in C. apply mem_In in M. exists (tw l). destruct i as [|t0 i]; [cbn in C; lia|]. cbn [map].
        split; [rewrite map_app; reflexivity|]. split; [cbn [length] in *; rewrite map_length; exact C|]. split; [apply GI; reflexivity|exact M].
      * right. assert (X : ~ (exists ps j, nouns_and_josa features scores ms (i ++ [l]) ps j)) by (rewrite NJ; intros [_ Q]; discriminate). destruct (goodt l) eqn:Gl.
        -- left. split; [exact X|]. split; [apply AL; auto|]. destruct i; reflexivity.
        -- right. split; [exact X|]. split; [rewrite AL; intros [_ Q]; discriminate|reflexivity].
    + right. right. split; [rewrite NJ; intros [Q _]; discriminate|]. split; [rewrite AL; intros [Q _]; discriminate|reflexivity].
Qed.
