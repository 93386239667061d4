(** * Proofs about the normalisers *)
From Verif Require Import PyBase PyText PyRe PyReProofs HangleModel HangleSpec HangleProofs NormalizerModel NormalizerSpec.
Open Scope N_scope.

Lemma hangle_c_iff c : hangle_c c = true <-> hangul c.
Proof. unfold hangle_c, hangul, syllable, consonant, vowel, between. rewrite !orb_true_iff, !andb_true_iff, !N.leb_le. lia. Qed.
Lemma number_c_iff c : number_c c = true <-> digit c.
Proof. unfold number_c, digit, between. rewrite !andb_true_iff, !N.leb_le. lia. Qed.
Lemma alphabet_c_iff c : alphabet_c c = true <-> letter c.
Proof. unfold alphabet_c, letter, between. rewrite !orb_true_iff, !andb_true_iff, !N.leb_le. lia. Qed.

Ltac memlit := repeat match goal with |- context [mem ?c (u ?s)] => let l := eval vm_compute in (u s) in change (mem c (u s)) with (mem c l) end.
Ltac inlit := repeat match goal with |- context [In ?c (u ?s)] => let l := eval vm_compute in (u s) in change (In c (u s)) with (In c l) end.

Lemma text_c_iff c : text_c c = true <-> text_char c.
Proof.
  unfold text_c, text_char. rewrite !orb_true_iff, hangle_c_iff, number_c_iff, alphabet_c_iff. rewrite !mem_In.
  inlit. unfold between. rewrite andb_true_iff, !N.leb_le, !N.eqb_eq. cbn [In]. unfold hangul, letter, digit, syllable, consonant, vowel. lia.
Qed.

Lemma text_nonspace c : text_char c -> is_space c = false.
Proof.
  intros T. apply not_true_is_false. intros S. unfold is_space in S.
  rewrite !orb_true_iff, !andb_true_iff, !N.leb_le, !N.eqb_eq in S.
  unfold text_char, hangul, letter, digit, syllable, consonant, vowel in T. revert T. inlit. cbn [In]. lia.
Qed.

(** ** only_* *)
Lemma only_gen keep s : (forall c, keep c = true -> text_char c) ->
  strip (collapse (blank_unless keep s)) = join [SP] (runs keep s).
Proof. intros K. apply strip_collapse_blank. intros c H. apply text_nonspace, K, H. Qed.

Lemma runs_iff_ext keep1 keep2 s : (forall c, keep1 c = true <-> keep2 c = true) -> runs keep1 s = runs keep2 s.
Proof. intros E. apply runs_ext. intros c. apply eq_true_iff_eq, E. Qed.

Lemma keep_join_facts keep (f : str -> str) : (forall c, keep c = true -> is_space c = false) ->
  (forall s, f s = join [SP] (runs keep s)) -> forall s,
  Forall (fun c => keep c = true \/ c = SP) (f s) /\ filter keep (f s) = filter keep s /\ f (f s) = f s /\
  MaxRuns keep s (split (f s)).
Proof.
  intros K E s. rewrite !E.
  assert (KS : keep SP = false). { destruct (keep SP) eqn:X; [|reflexivity]. apply K in X. discriminate. }
  assert (R : runs keep (join [SP] (runs keep s)) = runs keep s) by (apply runs_join; [exact KS|apply runs_Forall]).
  repeat split.
  - apply Forall_join; [auto|]. eapply Forall_impl; [|apply runs_Forall]. intros w [_ F]. eapply Forall_impl; [|exact F]. auto.
  - rewrite <- (concat_runs keep s), <- (concat_runs keep (join _ _)), R. reflexivity.
  - rewrite R. reflexivity.
  - apply runs_MaxRuns_iff. apply split_join. eapply Forall_impl; [|apply runs_Forall].
    intros w [N F]. split; [exact N|]. eapply Forall_impl; [|exact F]. intros c H. apply nonspace_true, K, H.
Qed.

Lemma MaxRuns_ext k1 k2 s ws : (forall c, k1 c = true <-> k2 c = true) -> MaxRuns k1 s ws -> MaxRuns k2 s ws.
Proof. intros E M. apply runs_MaxRuns_iff in M. apply runs_MaxRuns_iff. rewrite M. apply runs_iff_ext, E. Qed.

Lemma only_hangle_runs s : only_hangle s = join [SP] (runs hangle_c s).
Proof. apply only_gen. intros c H. apply hangle_c_iff in H. left. exact H. Qed.
Lemma only_hangle_number_runs s : only_hangle_number s = join [SP] (runs (fun c => hangle_c c || number_c c) s).
Proof.
  apply only_gen. intros c H. apply orb_true_iff in H as [H|H]; [apply hangle_c_iff in H; left; exact H|].
  apply number_c_iff in H. right. right. left. exact H.
Qed.
Lemma only_text_runs s : only_text s = join [SP] (runs text_c s).
Proof. apply only_gen. intros c H. apply text_c_iff, H. Qed.

(** ** normalize *)
Definition norm_keep (alphabet number punctuation symbol : bool) (c : N) : bool :=
  text_c c && (alphabet || negb (alphabet_c c)) && (number || negb (number_c c)) &&
  (punctuation || negb (punct_c c)) && (symbol || negb (symbol_c c)).

Lemma norm_keep_iff a n p y c : norm_keep a n p y c = true <->
  (hangul c \/ In c (u """'") \/ (a = true /\ letter c) \/ (n = true /\ digit c) \/
   (p = true /\ In c (u ",.?!")) \/ (y = true /\ In c (u "()[]{}"))).
Proof.
  unfold norm_keep. rewrite !andb_true_iff, !orb_true_iff, !negb_true_iff, text_c_iff, <- !not_true_iff_false.
  rewrite alphabet_c_iff, number_c_iff. unfold punct_c, symbol_c. rewrite !mem_In. unfold text_char, hangul, syllable, consonant, vowel, letter, digit.
  inlit. cbn [In]. split.
  - intros H. destruct H as ((((H & A) & B) & P) & Y). destruct a, n, p, y; lia.
  - intros H. destruct a, n, p, y; lia.
Qed.

Lemma blank_steps a n p y s :
  (let doc := blank_unless text_c s in
   let doc := if negb a then blank alphabet_c doc else doc in
   let doc := if negb n then blank number_c doc else doc in
   let doc := if negb p then blank punct_c doc else doc in
   if negb y then blank symbol_c doc else doc) = blank_unless (norm_keep a n p y) s.
Proof.
  assert (S1 : alphabet_c SP = false) by reflexivity. assert (S2 : number_c SP = false) by reflexivity.
  assert (S3 : punct_c SP = false) by reflexivity. assert (S4 : symbol_c SP = false) by reflexivity.
  cbv zeta. unfold blank_unless, blank.
  destruct a, n, p, y; cbn [negb]; rewrite ?map_map; apply map_ext; intros c; unfold norm_keep;
  destruct (text_c c); cbn [andb orb negb]; rewrite ?S1, ?S2, ?S3, ?S4; cbn [andb orb negb]; try reflexivity;
  repeat match goal with
   | |- context [if alphabet_c ?x then _ else _] => destruct (alphabet_c x) eqn:?
   | |- context [if number_c ?x then _ else _] => destruct (number_c x) eqn:?
   | |- context [if punct_c ?x then _ else _] => destruct (punct_c x) eqn:?
   | |- context [if symbol_c ?x then _ else _] => destruct (symbol_c x) eqn:?
   | |- context [negb (alphabet_c ?x)] => destruct (alphabet_c x) eqn:?
   | |- context [negb (number_c ?x)] => destruct (number_c x) eqn:?
   | |- context [negb (punct_c ?x)] => destruct (punct_c x) eqn:?
   | |- context [negb (symbol_c ?x)] => destruct (symbol_c x) eqn:?
  end; cbn [andb orb negb]; rewrite ?S1, ?S2, ?S3, ?S4 in *; try reflexivity; try discriminate.
Qed.

Lemma norm_keep_nonspace a n p y c : norm_keep a n p y c = true -> is_space c = false.
Proof. intros H. apply text_nonspace, text_c_iff. unfold norm_keep in H. rewrite !andb_true_iff in H. tauto. Qed.

Lemma normalize_runs word a n p y rr s : (rr <= 0)%Z ->
  normalize word s a n p y rr = join [SP] (runs (norm_keep a n p y) s).
Proof.
  intros R. unfold normalize. pose proof (blank_steps a n p y s) as B. cbv zeta in B. cbv zeta. rewrite B.
  replace (0 <? rr)%Z with false by (symmetry; apply Z.ltb_ge; lia). apply strip_collapse_blank, norm_keep_nonspace.
Qed.

(** ** repeats *)
Section Repeat.
  Variable word : N -> bool.
  Hypothesis word_nonspace : forall c, word c = true -> is_space c = false.
  Variable m n : nat.
  Hypothesis n_pos : (0 < n)%nat.
  Notation re := (re_repeat_sub word 1 m n).

  Lemma In_expand x gs : In x (expand gs) <-> exists r, In (x, r) gs /\ (0 < r)%nat.
  Proof.
    unfold expand. rewrite in_concat. split.
    - intros (l & I & J). apply in_map_iff in I as ([c r] & <- & I). simpl in J. assert (c = x) by (symmetry; eapply repeat_spec; exact J).
      subst. exists r. split; [exact I|]. destruct r; [destruct J|lia].
    - intros (r & I & P). exists (repeat x r). split; [apply in_map_iff; exists (x, r); auto|]. destruct r; [lia|]. left; reflexivity.
  Qed.

  Lemma re1_In x s : In x (re s) -> In x s.
  Proof.
    destruct (expand_exists s) as (gs & M & <-). rewrite re1_expand by exact M. rewrite !In_expand.
    intros (r & I & P). apply in_map_iff in I as ([c r'] & E & I). unfold shorten in E. simpl in E.
    destruct (word c && _) eqn:X; injection E as -> <-.
    - exists r'. split; [exact I|]. apply andb_true_iff in X as [_ X]. destruct r'; [discriminate|lia].
    - exists r'. auto.
  Qed.

  Lemma re1_hd s : hd_error (re s) = hd_error s.
  Proof.
    destruct (expand_exists s) as (gs & M & <-). rewrite re1_expand by exact M.
    pose proof (expand_hd gs) as H1. pose proof (expand_hd (map (shorten word m n) gs)) as H2.
    pose proof (maximal_shorten word m n gs n_pos M) as M2.
    destruct gs as [|[c r] t]; [reflexivity|]. rewrite (H1 M). simpl map in *.
    destruct (shorten word m n (c, r)) as [c' r'] eqn:E. rewrite (H2 M2). unfold shorten in E. simpl in E. destruct (word c && _); congruence.
  Qed.

  Lemma re1_nonword s : Forall (fun c => word c = false) s -> re s = s.
  Proof.
    intros F. apply re_repeat_sub_id; [lia|]. intros a b r L W E.
    destruct b as [|c [|]]; try discriminate. inversion W as [|? ? Wc _]; subst.
    rewrite Forall_forall in F. specialize (F c). rewrite F in Wc; [discriminate|].
    apply in_or_app; right. apply in_or_app; left. rewrite times_1. left; reflexivity.
  Qed.

  Lemma re1_app_diff a b : a = [] \/ b = [] \/ (exists a' x y b', a = a' ++ [x] /\ b = y :: b' /\ x <> y) -> re (a ++ b) = re a ++ re b.
  Proof.
    intros [->|[->|(a' & x & y & b' & -> & -> & D)]]; [reflexivity|rewrite !app_nil_r; reflexivity|].
    apply re1_app. rewrite rev_app_distr. simpl. exact D.
  Qed.

  Lemma re1_nil_iff s : re s = [] <-> s = [].
  Proof. pose proof (re1_hd s) as H. destruct (re s), s; simpl in H; split; intros; try congruence. Qed.

  Lemma split_re1 s : split (re s) = map re (split s).
  Proof.
    symmetry. apply runs_MaxRuns_iff. pose proof (split_MaxRuns s) as M.
    induction M as [sep F|sep w rest ws F NE Fw R M IH]; simpl.
    - rewrite re1_nonword; [apply MR_end; exact F|]. eapply Forall_impl; [|exact F]. intros c H. apply nonspace_false in H.
      destruct (word c) eqn:W; [|reflexivity]. apply word_nonspace in W. congruence.
    - assert (Fs : Forall (fun c => word c = false) sep).
      { eapply Forall_impl; [|exact F]. intros c H. apply nonspace_false in H. destruct (word c) eqn:W; [|reflexivity]. apply word_nonspace in W. congruence. }
      rewrite re1_app_diff. 2:{         destruct sep as [|x0 sep0] using rev_ind; [auto|]. right. right. destruct w as [|y w]; [congruence|].
        exists sep0, x0, y, (w ++ rest). repeat split; auto. apply Forall_app in F as [_ F]. inversion F; inversion Fw; congruence. }
      rewrite (re1_nonword sep Fs). rewrite re1_app_diff. 2:{ destruct rest as [|y rest]; [auto|]. right. right.
        destruct w as [|x w _] using rev_ind; [congruence|]. exists w, x, y, rest. repeat split; auto.
        apply Forall_app in Fw as [_ Fw]. inversion Fw; congruence. }
      apply MR_run; auto.
      + rewrite re1_nil_iff. exact NE.
      + apply Forall_forall. intros x I. apply re1_In in I. rewrite Forall_forall in Fw. apply Fw, I.
      + pose proof (re1_hd rest) as H. destruct rest as [|c rest]; [destruct (re []); [exact Logic.I|discriminate]|].
        destruct (re (c :: rest)); [discriminate|]. simpl in H. injection H as ->. exact R.
  Qed.

  Lemma shorten_idem g : shorten word m n (shorten word m n g) = shorten word m n g.
  Proof.
    unfold shorten. destruct g as [c r]. cbn [fst snd]. destruct (word c && (S m <=? r)%nat) eqn:E; cbn [fst snd]; [|rewrite E; reflexivity].
    destruct (word c && (S m <=? n)%nat); reflexivity.
  Qed.
  Lemma re1_idem s : re (re s) = re s.
  Proof.
    destruct (expand_exists s) as (gs & M & <-). rewrite (re1_expand word m n gs M), re1_expand by (apply maximal_shorten; assumption).
    f_equal. rewrite map_map. apply map_ext. intros; apply shorten_idem.
  Qed.
  Lemma re1_words s : Forall (fun w => w <> [] /\ Forall (fun c => nonspace c = true) w) (map re (split s)).
  Proof. rewrite <- split_re1. apply split_words. Qed.
End Repeat.

Lemma repeat_normalize_pos word s n : (forall c, word c = true -> is_space c = false) -> (0 < n)%Z ->
  repeat_normalize word s n = join [SP] (map (re_repeat_sub word 1 2 (Z.to_nat n)) (split s)).
Proof.
  intros W P. unfold repeat_normalize. replace (0 <? n)%Z with true by (symmetry; apply Z.ltb_lt; lia).
  rewrite strip_collapse. unfold repeat_sub. rewrite split_re1 by (auto; lia). reflexivity.
Qed.
Lemma repeat_normalize_neg word s n : (n <= 0)%Z -> repeat_normalize word s n = join [SP] (split s).
Proof.
  intros P. unfold repeat_normalize. replace (0 <? n)%Z with false by (symmetry; apply Z.ltb_ge; lia). apply strip_collapse.
Qed.
Lemma repeat_normalize_idem word s n : (forall c, word c = true -> is_space c = false) ->
  repeat_normalize word (repeat_normalize word s n) n = repeat_normalize word s n.
Proof.
  intros W. destruct (Z_le_gt_dec n 0) as [L|G].
  - rewrite !repeat_normalize_neg by exact L. rewrite split_join by apply split_words. reflexivity.
  - rewrite (repeat_normalize_pos word s n W) by lia. rewrite repeat_normalize_pos by (auto; lia).
    rewrite split_join by (apply re1_words; auto; lia). rewrite map_map. f_equal. apply map_ext. intros w. apply re1_idem. lia.
Qed.

Lemma normalize_repeat_runs word a n p y rr s : (forall c, word c = true -> is_space c = false) -> (0 < rr)%Z ->
  normalize word s a n p y rr = join [SP] (map (re_repeat_sub word 1 2 (Z.to_nat rr)) (runs (norm_keep a n p y) s)).
Proof.
  intros W R. unfold normalize. pose proof (blank_steps a n p y s) as B. cbv zeta in B. cbv zeta. rewrite B.
  replace (0 <? rr)%Z with true by (symmetry; apply Z.ltb_lt; lia). rewrite strip_collapse. unfold repeat_sub.
  rewrite split_re1 by (auto; lia). rewrite split_blank_unless by apply norm_keep_nonspace. reflexivity.
Qed.

(** no word-character run of three remains for n <= 2 *)
Lemma expand_no3 word gs : maximal gs -> Forall (fun g => word (fst g) = true -> (snd g <= 2)%nat) gs ->
  forall a c b, word c = true -> expand gs <> a ++ [c; c; c] ++ b.
Proof.
  intros M F a c b W. revert a. induction gs as [|[d r] t IH]; intros a E.
  - symmetry in E. apply app_eq_nil in E as [_ E]. discriminate.
  - inversion F as [|? ? Fr F']; subst. simpl in Fr. pose proof (expand_cons_hd _ _ _ M) as X. destruct M as (P & D & M).
    rewrite expand_cons in E.
    assert (IH' := fun a => IH M F' a). clear IH.
    assert (G : forall r a, ((word d = true -> (r <= 2)%nat)) -> repeat d r ++ expand t = a ++ [c; c; c] ++ b -> False).
    { clear E a Fr P F r. induction r as [|r IHr]; intros a Fr E; [exact (IH' a E)|].
      simpl in E. destruct a as [|y a].
      - simpl in E. injection E as -> E. specialize (Fr W). destruct r as [|r]; [|destruct r as [|r]; [|lia]].
        + simpl in E. rewrite E in X. congruence.
        + simpl in E. injection E as E. rewrite E in X. congruence.
      - simpl in E. injection E as -> E. apply (IHr a); [intros Wd; specialize (Fr Wd); lia|exact E]. }
    apply (G r a); assumption.
Qed.
Lemma join_triple (c : N) ws a b : c <> SP -> join [SP] ws = a ++ [c; c; c] ++ b ->
  exists w a' b', In w ws /\ w = a' ++ [c; c; c] ++ b'.
Proof.
  intros NS. revert a. induction ws as [|w ws IH]; intros a E.
  - symmetry in E. apply app_eq_nil in E as [_ E]. discriminate.
  - destruct ws as [|w2 ws]; [exists w, a, b; split; [left; reflexivity|exact E]|].
    rewrite join_cons in E by discriminate.
    revert a E. set (J := join [SP] (w2 :: ws)) in *. clearbody J.
    assert (G : forall v a, v ++ [SP] ++ J = a ++ [c; c; c] ++ b -> (exists a' b', v = a' ++ [c; c; c] ++ b') \/ exists a', J = a' ++ [c; c; c] ++ b).
    { induction v as [|x v IHv]; intros a E.
      - simpl in E. destruct a as [|y a]; simpl in E; [injection E as E _; congruence|]. injection E as _ E. right. eauto.
      - destruct a as [|y a].
        + simpl in E. injection E as -> E. destruct v as [|x2 v]; simpl in E; [injection E as E _; congruence|]. injection E as -> E.
          destruct v as [|x3 v]; simpl in E; [injection E as E _; congruence|]. injection E as -> E. left. exists [], v. reflexivity.
        + simpl in E. injection E as -> E. destruct (IHv a E) as [(a' & b' & ->)|R]; [left; exists (y :: a'), b'; reflexivity|right; exact R]. }
    intros a E. destruct (G w a E) as [(a' & b' & ->)|(a' & E')].
    + exists (a' ++ [c; c; c] ++ b'), a', b'. split; [left; reflexivity|reflexivity].
    + destruct (IH a' E') as (w' & x & y & I & Ew). exists w', x, y. split; [right; exact I|exact Ew].
Qed.
Lemma repeat_normalize_no3 word s n c a b : (forall c, word c = true -> is_space c = false) -> (0 < n <= 2)%Z ->
  word c = true -> repeat_normalize word s n <> a ++ [c; c; c] ++ b.
Proof.
  intros W P Wc E. rewrite repeat_normalize_pos in E by (auto; lia).
  apply join_triple in E as (w & a' & b' & I & Ew); [|intros ->; apply W in Wc; discriminate].
  apply in_map_iff in I as (v & <- & _). destruct (expand_exists v) as (gs & M & <-). rewrite re1_expand in Ew by exact M.
  revert Ew. apply (expand_no3 word); [apply maximal_shorten; [lia|exact M]| |exact Wc].
  apply Forall_forall. intros g I Wg. apply in_map_iff in I as ([d r] & <- & _). unfold shorten in *. cbn [fst snd] in *.
  destruct (word d) eqn:Wd; cbn [andb fst snd] in *; [|congruence].
  destruct (3 <=? r)%nat eqn:L; cbn [fst snd]; [lia|]. apply Nat.leb_gt in L. lia.
Qed.
