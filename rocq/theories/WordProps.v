(** * Property theorems for soynlp.word (C38 - C42) *)
From Coq Require Import Reals QArith Qreals Lra.
From Verif Require Import PyBase PyDict PySort PyText CountLemmas WordModel WordSpec WordProofs WordProofs2 WordProofs3 WordProofs4 WordProofs5 WordProofs6.
Open Scope Z_scope.

Definition ex_sents : list str := [u "아이는 아이가 아이를 봤다"; u "아이는 노래를 봤다"; u "아이가 봤다"].
Definition ex_x : wx := match train (wx_new 3 2 2) ex_sents 0 true with Ok y => y | Err _ => wx_new 0 0 0 end.
Example ex_train : train (wx_new 3 2 2) ex_sents 0 true = Ok ex_x. Proof. reflexivity. Qed.
Example ex_trained0 : trained (wx_new 3 2 2). Proof. exists 3, 2, 2, []. reflexivity. Qed.
Example ex_trained : trained ex_x. Proof. exists 3, 2, 2, [mkCall ex_sents 0 true]. reflexivity. Qed.

(** ** C38 *)
Theorem C38_train_exact : forall x sents nfp cumulate y w, trained x -> nfp <= 0 -> train x sents nfp cumulate = Ok y ->
  frequency y w =
  (at_least (min_freq x) ((if cumulate then fst (frequency x w) else 0) + (if len_in w (max_left x + 1) then n_prefix w sents else 0)),
   at_least (min_freq x) ((if cumulate then snd (frequency x w) else 0) + (if len_in w (max_right x) then n_suffix w sents else 0))).
Proof.
  intros x ss nfp cm y w H N T. apply trained_Inv in H. destruct (train_eq _ _ _ _ _ T H) as (IB & PB & _ & _ & A & B & _).
  destruct (loop_plain nfp ss N (base x cm) 0 IB) as [A' B']. injection PB as P1 P2 P3. unfold frequency. cbn [fst snd]. rewrite A, B, A', B', P1, P2.
  unfold base, cL, cR. destruct cm; reflexivity.
Qed.
Print Assumptions C38_train_exact.
Example C38_ex : frequency ex_x (u "아이") = (5, 0) /\ n_prefix (u "아이") ex_sents = 5 /\ frequency ex_x (u "다") = (0, 3) /\ n_suffix (u "다") ex_sents = 3 /\
  frequency ex_x (u "아이는") = (2, 0) /\ frequency ex_x (u "아이를") = (0, 0).
Proof. vm_compute. repeat split. Qed.

Theorem C38_sentence_order_irrelevant : forall x sents sents' nfp nfp' cumulate y y' w, trained x -> nfp <= 0 -> nfp' <= 0 ->
  Permutation sents sents' -> train x sents nfp cumulate = Ok y -> train x sents' nfp' cumulate = Ok y' -> frequency y w = frequency y' w.
Proof.
  intros x ss ss' nfp nfp' cm y y' w H N N' P T T'. rewrite (C38_train_exact _ _ _ _ _ w H N T), (C38_train_exact _ _ _ _ _ w H N' T').
  assert (E : Permutation (eojeols ss) (eojeols ss')).
  { unfold eojeols. clear - P. induction P; cbn [map concat]; [constructor|apply Permutation_app_head; assumption| |eapply Permutation_trans; eauto].
    rewrite !app_assoc. apply Permutation_app_tail, Permutation_app_comm. }
  unfold n_prefix, n_suffix. rewrite (count_perm _ _ _ E), (count_perm _ _ _ E). reflexivity.
Qed.
Print Assumptions C38_sentence_order_irrelevant.

(** with periodic pruning a count is still the exact count of a final segment of the corpus, cut after a pruning point *)
Theorem C38_pruning_forgets_a_prefix : forall x sents nfp cumulate y w, trained x -> 0 < nfp -> train x sents nfp cumulate = Ok y ->
  (fst (frequency y w) = at_least (min_freq x) ((if cumulate then fst (frequency x w) else 0) + (if len_in w (max_left x + 1) then n_prefix w sents else 0)) \/
   exists j, (1 <= j <= length sents)%nat /\ (Z.of_nat j - 1) mod nfp = 0 /\
     fst (frequency y w) = at_least (min_freq x) (if len_in w (max_left x + 1) then n_prefix w (skipn j sents) else 0)) /\
  (snd (frequency y w) = at_least (min_freq x) ((if cumulate then snd (frequency x w) else 0) + (if len_in w (max_right x) then n_suffix w sents else 0)) \/
   exists j, (1 <= j <= length sents)%nat /\ (Z.of_nat j - 1) mod nfp = 0 /\
     snd (frequency y w) = at_least (min_freq x) (if len_in w (max_right x) then n_suffix w (skipn j sents) else 0)).
Proof.
  intros x ss nfp cm y w H N T. apply trained_Inv in H. destruct (train_eq _ _ _ _ _ T H) as (IB & PB & _ & _ & A & B & _).
  destruct (loop_pruned nfp ss (base x cm) 0 IB) as [A' B']. injection PB as P1 P2 P3. unfold frequency. cbn [fst snd]. rewrite A, B. specialize (A' w). specialize (B' w). rewrite P1 in A'. rewrite P2 in B'.
  unfold pruned_at in *. split.
  - destruct A' as [A'|(j & J & P & A')]; rewrite A'; [left; unfold base, cL; destruct cm; reflexivity|right]. exists j. apply andb_prop in P. destruct P as [_ P]. apply Z.eqb_eq in P. rewrite Z.add_0_l in P. repeat split; auto; lia.
  - destruct B' as [B'|(j & J & P & B')]; rewrite B'; [left; unfold base, cR; destruct cm; reflexivity|right]. exists j. apply andb_prop in P. destruct P as [_ P]. apply Z.eqb_eq in P. rewrite Z.add_0_l in P. repeat split; auto; lia.
Qed.
Print Assumptions C38_pruning_forgets_a_prefix.
Example C38_pruning_ex : match train (wx_new 3 2 2) [u "가나 다라"; u "가나 마바"; u "마바 가나"] 1 true with
  | Ok y => frequency y (u "가나") = (0, 0) | Err _ => False end /\ n_prefix (u "가나") [u "가나 다라"; u "가나 마바"; u "마바 가나"] = 3.
Proof. vm_compute. repeat split. Qed.

(** training in two batches is not the same as training on both at once: the minimum frequency is applied after each batch *)
Theorem C38_batches_equal_one_corpus_refuted : exists s1 s2 y1 y2 y w, train (wx_new 10 6 2) s1 0 true = Ok y1 /\ train y1 s2 0 true = Ok y2 /\
  train (wx_new 10 6 2) (s1 ++ s2) 0 true = Ok y /\ frequency y2 w <> frequency y w.
Proof.
  exists [u "가나"], [u "가나"]. do 3 eexists. exists (u "가나"). split; [reflexivity|]. split; [reflexivity|]. split; [reflexivity|]. vm_compute. discriminate.
Qed.
Print Assumptions C38_batches_equal_one_corpus_refuted.
Theorem C38_raises_iff_empty : forall x sents nfp cumulate,
  train x sents nfp cumulate = Err ValueError <-> sents = [].
Proof. intros x [|s ss] nfp cm; cbn [train]; split; intros E; try reflexivity; discriminate. Qed.
Print Assumptions C38_raises_iff_empty.

(** ** C39 *)
Theorem C39_prefix_suffix_monotone : forall x p w, trained x -> p <> [] ->
  ((exists t, w = p ++ t) -> fst (frequency x w) <= fst (frequency x p)) /\
  ((exists t, w = t ++ p) -> snd (frequency x w) <= snd (frequency x p)).
Proof.
  intros x p w H N. apply trained_Inv in H. unfold frequency. cbn [fst snd]. split; intros E.
  - apply (I_monoL x H); [exact N|]. apply starts_with_spec, E.
  - apply (I_monoR x H); [exact N|]. apply ends_with_spec, E.
Qed.
Print Assumptions C39_prefix_suffix_monotone.
Theorem C39_cohesion_in_unit_interval : forall x w, trained x -> exists f b, cohesion_score x w = Ok (f, b) /\ (0 <= f <= 1)%R /\ (0 <= b <= 1)%R.
Proof.
  intros x w H. apply trained_Inv in H. destruct (Nat.lt_ge_cases (length w) 2) as [L|L].
  - exists 0%R, 0%R. unfold cohesion_score. destruct (Nat.leb_spec (length w) 1); [|lia]. repeat split; lra.
  - destruct (cohesion_ok x w H L) as (l & r & E & A & B & _). eauto.
Qed.
Print Assumptions C39_cohesion_in_unit_interval.
(** the value: (count of w / count of its first character) to the power 1/(len w - 1), and 0 for unseen or one character words *)
Theorem C39_cohesion_value : forall x w f b, trained x -> cohesion_score x w = Ok (f, b) ->
  ((length w <= 1)%nat -> f = 0%R /\ b = 0%R) /\
  (f = 0%R <-> (length w <= 1)%nat \/ fst (frequency x w) = 0) /\
  (b = 0%R <-> (length w <= 1)%nat \/ snd (frequency x w) = 0) /\
  ((2 <= length w)%nat -> 0 < fst (frequency x w) ->
     f = Rpower (IZR (fst (frequency x w)) / IZR (fst (frequency x [hd 0%N w]))) (1 / INR (length w - 1))) /\
  ((2 <= length w)%nat -> 0 < snd (frequency x w) ->
     b = Rpower (IZR (snd (frequency x w)) / IZR (snd (frequency x [last w 0%N]))) (1 / INR (length w - 1))).
Proof.
  intros x w f b H E. apply trained_Inv in H. destruct (Nat.lt_ge_cases (length w) 2) as [L|L].
  - unfold cohesion_score in E. destruct (Nat.leb_spec (length w) 1); [|lia]. injection E as <- <-. repeat split; auto; try lia; intros; left; lia.
  - destruct (cohesion_ok x w H L) as (l & r & E' & A & B & Zl & Zr & Pl & Pr). rewrite E' in E. injection E as <- <-. unfold frequency. cbn [fst snd].
    pose proof (ctr_nonneg _ w (I_L x H)). pose proof (ctr_nonneg _ w (I_R x H)).
    replace (firstn 1 w) with [hd 0%N w] in Pl by (destruct w; [cbn in L; lia|reflexivity]).
    assert (El : lastn 1 w = [last w 0%N]). { destruct w as [|a w] using rev_ind; [cbn in L; lia|]. unfold lastn. rewrite app_length. cbn [length]. replace (length w + 1 - 1)%nat with (length w) by lia. rewrite skipn_app, skipn_all, Nat.sub_diag, last_last. reflexivity. }
    rewrite El in Pr. split; [lia|]. split; [|split; [|split]].
    + split; [|intros [|X]; [lia|apply Zl, X]]. intros ->. right. destruct (Z.eq_dec (dgetd (wL x) w 0) 0) as [X|X]; [exact X|]. destruct (Pl ltac:(lia)) as [X' _]. lra.
    + split; [|intros [|X]; [lia|apply Zr, X]]. intros ->. right. destruct (Z.eq_dec (dgetd (wR x) w 0) 0) as [X|X]; [exact X|]. destruct (Pr ltac:(lia)) as [X' _]. lra.
    + intros _ X. apply Pl, X.
    + intros _ X. apply Pr, X.
Qed.
Print Assumptions C39_cohesion_value.
Example C39_ex : frequency ex_x (u "아이는") = (2, 0) /\ frequency ex_x [hd 0%N (u "아이는")] = (5, 0) /\ cohesion_score ex_x (u "아이는") = Ok (Rpower (IZR 2 / IZR 5) (1 / INR (length (u "아이는") - 1)), 0%R).
Proof. repeat split. Qed.

(** ** C40 *)
Theorem C40_accessor_variety_after_training : forall x sents nfp y w, trained x -> nfp <= 0 -> train x sents nfp false = Ok y ->
  exists Lin Lout Rin Rout, NoDup Lin /\ NoDup Lout /\ NoDup Rin /\ NoDup Rout /\
    (forall c, In c Lin <-> len_in (c :: w) (max_right x) = true /\ Z.max 1 (min_freq x) <= n_suffix (c :: w) sents) /\
    (forall c, In c Lout <-> 2 <= n_after (max_left x) w c sents) /\
    (forall c, In c Rin <-> len_in (w ++ [c]) (max_left x + 1) = true /\ Z.max 1 (min_freq x) <= n_prefix (w ++ [c]) sents) /\
    (forall c, In c Rout <-> 2 <= n_before (max_right x) w c sents) /\
    accessor_variety y w = (Z.of_nat (length Lin + length Lout), Z.of_nat (length Rin + length Rout)) /\
    branching_entropy y w =
      (shannon (map (fun c => n_suffix (c :: w) sents) Lin ++ map (fun c => n_after (max_left x) w c sents) Lout),
       shannon (map (fun c => n_prefix (w ++ [c]) sents) Rin ++ map (fun c => n_before (max_right x) w c sents) Rout)).
Proof.
  intros x ss nfp y w H N T. pose proof (C38_train_exact x ss nfp false y) as FR. specialize (fun w => FR w H N T). cbn [fst snd] in FR. unfold frequency in FR.
  apply trained_Inv in H. pose proof (Inv_train _ _ _ _ _ H T) as Iy. destruct (train_eq _ _ _ _ _ T H) as (IB & PB & _ & _ & _ & _ & A & B).
  destruct (loop_a nfp ss (base x false) 0 IB) as [A' B']. cbn [base wL wR waL waR max_left max_right min_freq] in A', B'. unfold dgetd at 2 in A'. unfold dgetd at 2 in B'. cbn [dget] in A', B'.
  assert (GA : forall w c, dgetd (waL y) (w ++ [SP; c]) 0 = at_least 2 (n_before (max_right x) w c ss)) by (intros; rewrite A; unfold base; rewrite A'; reflexivity).
  assert (GB : forall w c, dgetd (waR y) (c :: SP :: w) 0 = at_least 2 (n_after (max_left x) w c ss)) by (intros; rewrite B; unfold base; rewrite B'; reflexivity).
  assert (FL : forall w, dgetd (wL y) w 0 = at_least (min_freq x) (if len_in w (max_left x + 1) then n_prefix w ss else 0)) by (intros v; specialize (FR v); injection FR as F1 _; exact F1).
  assert (FRr : forall w, dgetd (wR y) w 0 = at_least (min_freq x) (if len_in w (max_right x) then n_suffix w ss else 0)) by (intros v; specialize (FR v); injection FR as _ F2; exact F2).
  clear FR A B A' B'.
  destruct (left_chars y w Iy) as (C1 & C2 & N1 & N2 & M1 & M2 & E12). destruct (right_chars y w Iy) as (C3 & C4 & N3 & N4 & M3 & M4 & E34).
  assert (AL : forall m n, 0 <= n -> (0 < at_least m n <-> Z.max 1 m <= n)) by (intros m n Hn; unfold at_least; destruct (Z.leb_spec m n); lia).
  assert (AV : forall m n, 0 < at_least m n -> at_least m n = n) by (intros m n Hn; unfold at_least in *; destruct (m <=? n); lia).
  assert (X1 : forall c, In c C1 <-> len_in (c :: w) (max_right x) = true /\ Z.max 1 (min_freq x) <= n_suffix (c :: w) ss).
  { intros c. rewrite M1, FRr. destruct (len_in (c :: w) (max_right x)); [rewrite AL by apply count_nonneg; tauto|]. rewrite AL by lia. split; [lia|intros [X _]; discriminate]. }
  assert (X3 : forall c, In c C3 <-> len_in (w ++ [c]) (max_left x + 1) = true /\ Z.max 1 (min_freq x) <= n_prefix (w ++ [c]) ss).
  { intros c. rewrite M3, FL. destruct (len_in (w ++ [c]) (max_left x + 1)); [rewrite AL by apply count_nonneg; tauto|]. rewrite AL by lia. split; [lia|intros [X _]; discriminate]. }
  assert (X2 : forall c, In c C2 <-> 2 <= n_after (max_left x) w c ss) by (intros c; rewrite M2, GB, AL by apply count_nonneg; lia).
  assert (X4 : forall c, In c C4 <-> 2 <= n_before (max_right x) w c ss) by (intros c; rewrite M4, GA, AL by apply count_nonneg; lia).
  exists C1, C2, C3, C4. repeat (split; [assumption|]). split.
  - unfold accessor_variety. pose proof (f_equal (@length Z) E12) as L1. pose proof (f_equal (@length Z) E34) as L2. rewrite map_length, app_length, !map_length in L1, L2. rewrite L1, L2. reflexivity.
  - unfold branching_entropy. rewrite !entropy_shannon, E12, E34. f_equal; f_equal; f_equal; apply map_ext_in; intros c J.
    + pose proof (proj1 (M1 c) J) as P. rewrite FRr in *. apply X1 in J. destruct J as [J _]. rewrite J in *. apply AV, P.
    + pose proof (proj1 (M2 c) J) as P. rewrite GB in *. apply AV, P.
    + pose proof (proj1 (M3 c) J) as P. rewrite FL in *. apply X3 in J. destruct J as [J _]. rewrite J in *. apply AV, P.
    + pose proof (proj1 (M4 c) J) as P. rewrite GA in *. apply AV, P.
Qed.
Print Assumptions C40_accessor_variety_after_training.
Example C40_ex : accessor_variety ex_x (u "아이") = (1, 2) /\ accessor_variety ex_x (u "봤다") = (1, 1) /\ n_prefix (u "아이는") ex_sents = 2 /\ n_prefix (u "아이가") ex_sents = 2 /\ n_prefix (u "아이를") ex_sents = 1 /\
  n_after 3 (u "봤다") (ch "를") ex_sents = 2 /\ n_before 2 (u "봤다") (ch "아") ex_sents = 3.
Proof. vm_compute. repeat split. Qed.

Lemma av_lengths x w : trained x -> exists Ln Rn, Forall (fun n => 0 < n) Ln /\ Forall (fun n => 0 < n) Rn /\
  accessor_variety x w = (Z.of_nat (length Ln), Z.of_nat (length Rn)) /\ branching_entropy x w = (shannon Ln, shannon Rn).
Proof.
  intros H. apply trained_Inv in H. exists (map snd (ext_left x w)), (map snd (ext_right x w)). split; [apply ctr_counts, ctr_ext_left, H|]. split; [apply ctr_counts, ctr_ext_right, H|].
  unfold accessor_variety, branching_entropy. rewrite !map_length, !entropy_shannon. split; reflexivity.
Qed.
Theorem C40_entropy_bounds : forall x w, trained x ->
  let '(be_l, be_r) := branching_entropy x w in let '(av_l, av_r) := accessor_variety x w in
  (0 <= be_l)%R /\ (0 <= be_r)%R /\ (be_l = 0%R <-> av_l <= 1) /\ (be_r = 0%R <-> av_r <= 1) /\
  (0 < av_l -> (be_l <= ln (IZR av_l))%R) /\ (0 < av_r -> (be_r <= ln (IZR av_r))%R).
Proof.
  intros x w H. destruct (av_lengths x w H) as (Ln & Rn & FL & FR & EA & EB). rewrite EA, EB.
  split; [apply shannon_nonneg, FL|]. split; [apply shannon_nonneg, FR|]. rewrite !shannon_zero by assumption. split; [lia|]. split; [lia|]. rewrite <- !INR_IZR_INZ. split; intros X; apply shannon_max; auto; intros ->; cbn in X; lia.
Qed.
Print Assumptions C40_entropy_bounds.

(** the tables for all words agree with the single-word functions on words with 1 <= len < max_right (left side), < max_left (right side), and give 0 elsewhere *)
Theorem C40_all_words_agree : forall x w, trained x -> 
  let short m := (1 <=? length w)%nat && (Z.of_nat (length w) <? m) in
  dgetd (all_branching_entropy x) w (0%R, 0%R) =
    (if short (max_right x) then fst (branching_entropy x w) else 0%R, if short (max_left x) then snd (branching_entropy x w) else 0%R) /\
  dgetd (all_accessor_variety x) w (0, 0) =
    (if short (max_right x) then fst (accessor_variety x w) else 0, if short (max_left x) then snd (accessor_variety x w) else 0) /\
  (dget (all_accessor_variety x) w <> None <-> dgetd (all_accessor_variety x) w (0, 0) <> (0, 0)).
Proof.
  intros x w H. apply trained_Inv in H. cbv zeta.
  destruct (all_scores_get 0%R entropy x w H eq_refl) as [A _]. destruct (all_scores_get 0 (fun d => Z.of_nat (length d)) x w H eq_refl) as [B C].
  split; [exact A|]. split; [exact B|]. change (all_scores 0 (fun d => Z.of_nat (length d)) x) with (all_accessor_variety x) in *. rewrite B, C.
  destruct (Nat.leb_spec 1 (length w)); cbn [andb]; [|split; [lia|congruence]].
  destruct (Z.ltb_spec (Z.of_nat (length w)) (max_right x)), (Z.ltb_spec (Z.of_nat (length w)) (max_left x)); destruct (ext_left x w), (ext_right x w); cbn [length];
    (split; [intros [_ [[? ?]|[? ?]]] X; first [lia | congruence | injection X; intros; lia]
            | intros X; split; [assumption|]; first [left; split; [lia|discriminate] | right; split; [lia|discriminate] | exfalso; apply X; reflexivity]]).
Qed.
Print Assumptions C40_all_words_agree.
(** for a word of exactly max_right_length characters the table says 0 on the left although the word has left extensions *)
Theorem C40_all_words_agree_everywhere_refuted : exists x w, trained x /\ In w (words x) /\ dgetd (all_accessor_variety x) w (0, 0) <> accessor_variety x w.
Proof.
  exists (tstep (wx_new 3 2 1) (mkCall [u "가나 다라"; u "가나 다라"] 0 true)), (u "가나"). split; [exists 3, 2, 1, [mkCall [u "가나 다라"; u "가나 다라"] 0 true]; reflexivity|].
  split; [|vm_compute; discriminate]. apply words_In. split; [right; exact Logic.I|]. left. split; vm_compute; [auto|discriminate].
Qed.
Print Assumptions C40_all_words_agree_everywhere_refuted.

(** ** C41 *)
Theorem C41_extract_exact : forall (T : Type) (lt : T -> T -> bool) (th : thresholds T) x ss, trained x -> NoDup (map fst ss) ->
  exists out, extract lt th x ss = Ok out /\ NoDup (map fst out) /\
    forall w s, In (w, s) out <-> In (w, s) ss /\ meets lt th (min_freq x) w s /\ (remove_subwords th = true -> ~ subsumed lt th x ss w).
Proof.
  intros T lt th x ss H ND. apply trained_Inv in H. rewrite extract_eq by assumption. eexists. split; [reflexivity|].
  pose proof (sort_perm (fun a b : str * scores T => length (fst a) <=? length (fst b))%nat ss) as P. split.
  - apply (NoDup_filter_map (keep lt th x ss)). unfold dwf, dkeys. eapply Permutation_NoDup; [|exact ND]. apply Permutation_map, Permutation_sym, P.
  - intros w s. rewrite filter_In. unfold keep. cbn [fst snd]. rewrite andb_true_iff, negb_true_iff, andb_false_iff, passes_meets.
    assert (E : In (w, s) (sort (fun a b : str * scores T => length (fst a) <=? length (fst b))%nat ss) <-> In (w, s) ss) by (split; apply Permutation_in; [exact P|apply Permutation_sym, P]). rewrite E.
    pose proof (hit_subsumed lt th x ss w) as HS. destruct (remove_subwords th), (existsb (hit lt th x w) ss); split; intros; intuition congruence.
Qed.
Print Assumptions C41_extract_exact.
(** the scores extract sees when none are given *)
Theorem C41_word_scores : forall x order, trained x -> NoDup order -> (forall w, In w order <-> In w (words x)) ->
  exists d, word_scores x order = Ok d /\ map fst d = order /\
  (forall w, In w order <-> (0 < fst (frequency x w) /\ Z.of_nat (length w) <= max_left x) \/ (0 < snd (frequency x w) /\ Z.of_nat (length w) <= max_right x)) /\
  forall w s, In (w, s) d <-> In w order /\
    cohesion_score x w = Ok (cohesion_forward s, cohesion_backward s) /\
    (left_branching_entropy s, right_branching_entropy s) = dgetd (all_branching_entropy x) w (0%R, 0%R) /\
    (left_accessor_variety s, right_accessor_variety s) = dgetd (all_accessor_variety x) w (0, 0) /\
    (leftside_frequency s, rightside_frequency s) = frequency x w.
Proof.
  intros x order H ND EW. apply trained_Inv in H. destruct (word_scores_ok x order H ND) as (d & E & M & S). exists d. split; [exact E|]. split; [exact M|]. split.
  - intros w. rewrite EW, words_In. unfold frequency. cbn [fst snd]. rewrite (ctr_mem (wL x) w (I_L x H)), (ctr_mem (wR x) w (I_R x H)), !dget_keys. tauto.
  - intros w s. rewrite S, (cohesion_total x w H). destruct (coh x w), (dgetd (all_branching_entropy x) w (0%R, 0%R)), (dgetd (all_accessor_variety x) w (0, 0)), (frequency x w). cbn [fst snd]. split.
    + intros [J ->]. auto.
    + intros (J & A & B & C & D). split; [exact J|]. injection A as -> ->. injection B as <- <-. injection C as <- <-. injection D as <- <-. destruct s; reflexivity.
Qed.
Print Assumptions C41_word_scores.
Definition ex_sc (f : Z) : scores Q := mkScores 1%Q 1%Q 1%Q 1%Q 2 2 f 0.
Example C41_ex : let th := mkTh (1#10)%Q 0%Q 0%Q 0%Q 0 0 (1#3)%Q true in
  extract (fun a b => negb (Qle_bool b a)) th ex_x [(u "아이", ex_sc 5); (u "아이는", ex_sc 2); (u "봤다", ex_sc 3); (u "노", ex_sc 1)] = Ok [(u "봤다", ex_sc 3); (u "아이는", ex_sc 2)].
Proof. vm_compute. reflexivity. Qed.

(** ** C42 *)
Theorem C42_counts_exact : forall tokenizer mf cp verbose sents b bigram, cp <= 0 -> bigram_train tokenizer mf cp verbose sents = Ok b ->
  dgetd (bg_counter b) bigram 0 = at_least mf (n_bigram tokenizer bigram sents).
Proof.
  intros tok mf cp vb ss b bigram N E. apply bigram_train_eq in E. destruct E as (-> & _ & _). rewrite bfilter_getd by apply bloop_ctr, ctr_nil. rewrite bloop_plain by (auto using ctr_nil). reflexivity.
Qed.
Print Assumptions C42_counts_exact.
Theorem C42_checkpoints_forget_a_prefix : forall tokenizer mf cp verbose sents b bigram, 0 < cp -> bigram_train tokenizer mf cp verbose sents = Ok b ->
  exists j, (j = 0 \/ j < length sents)%nat /\ Z.of_nat j mod cp = 0 /\ dgetd (bg_counter b) bigram 0 = at_least mf (n_bigram tokenizer bigram (skipn j sents)).
Proof.
  intros tok mf cp vb ss b bigram N E. apply bigram_train_eq in E. destruct E as (-> & _ & _). rewrite bfilter_getd by apply bloop_ctr, ctr_nil.
  destruct (bloop_pruned tok mf cp ss 0 [] ctr_nil bigram) as [A|(j & J & _ & M & A)]; rewrite A.
  - exists 0%nat. split; [left; reflexivity|]. split; [apply Z.mod_0_l; lia|]. reflexivity.
  - exists j. auto.
Qed.
Print Assumptions C42_checkpoints_forget_a_prefix.
Theorem C42_checkpoint_boundary_safe : forall tokenizer mf cp verbose sents b bigram, Z.of_nat (length sents) <= cp -> bigram_train tokenizer mf cp verbose sents = Ok b ->
  dgetd (bg_counter b) bigram 0 = at_least mf (n_bigram tokenizer bigram sents).
Proof.
  intros tok mf cp vb ss b bigram N E. destruct (Z.le_gt_cases cp 0) as [C|C]; [eapply C42_counts_exact; eauto|].
  destruct (C42_checkpoints_forget_a_prefix _ _ _ _ _ _ bigram C E) as (j & J & M & A).
  assert (j = 0%nat) as -> by (destruct J; [assumption|]; rewrite Z.mod_small in M; lia). exact A.
Qed.
Print Assumptions C42_checkpoint_boundary_safe.
Example C42_ex : bigram_train split 2 0 false [u "a b c"; u "a b"; u "b c d"] = Ok (mkBg [((u "a", u "b"), 2); ((u "b", u "c"), 2)] [(u "a", 1); (u "b", 2); (u "c", 1)])
  /\ n_bigram split (u "a", u "b") [u "a b c"; u "a b"; u "b c d"] = 2.
Proof. vm_compute. repeat split. Qed.

(** unigram counts are the number of kept bigrams a word is part of (twice for a doubled word), not word frequencies *)
Theorem C42_unigram_is_number_of_bigrams : forall tokenizer mf cp verbose sents b w, bigram_train tokenizer mf cp verbose sents = Ok b ->
  dgetd (bg_unigram b) w 0 = count (fun bf => eqb (fst (fst bf)) w) (bg_counter b) + count (fun bf => eqb (snd (fst bf)) w) (bg_counter b).
Proof. intros tok mf cp vb ss b w E. apply bigram_train_eq in E. destruct E as (_ & -> & _). apply unigrams_get. Qed.
Print Assumptions C42_unigram_is_number_of_bigrams.
Theorem C42_frequency_selection : forall tokenizer mf cp verbose sents b topk threshold, bigram_train tokenizer mf cp verbose sents = Ok b ->
  let out := extract_by_frequency b topk threshold in
  NoDup (map fst out) /\
  (forall w f s, In (w, (f, s)) out <-> In (w, f) (bg_counter b) /\ s = f /\ threshold <= f) /\
  (0 < topk -> StronglySorted (fun x y => fst (snd y) <= fst (snd x)) out).
Proof. intros tok mf cp vb ss b topk th E. apply bigram_train_eq in E. destruct E as (_ & _ & C). apply by_frequency, C. Qed.
Print Assumptions C42_frequency_selection.
(** topk never limits the number of results *)
Theorem C42_topk_limits_refuted : exists b topk, 0 < topk /\ topk < Z.of_nat (length (extract_by_frequency b topk 0)).
Proof. exists (mkBg [((u "a", u "b"), 2); ((u "b", u "c"), 2)] []), 1. vm_compute. split; reflexivity. Qed.
Print Assumptions C42_topk_limits_refuted.
Theorem C42_mikolov_selection : forall tokenizer mf cp verbose sents b threshold, bigram_train tokenizer mf cp verbose sents = Ok b ->
  exists out, extract_by_mikolov threshold mf b = Ok out /\ NoDup (map fst out) /\
  forall w1 w2 f s, In ((w1, w2), (f, s)) out <-> In ((w1, w2), f) (bg_counter b) /\
    s = (inject_Z (f - mf) / inject_Z (dgetd (bg_unigram b) w1 0%Z * dgetd (bg_unigram b) w2 0%Z))%Q /\ (threshold <= s)%Q.
Proof.
  intros tok mf cp vb ss b th E. apply bigram_train_eq in E. destruct E as (_ & U & C).
  destruct (extract_scored_eq (fun s => Qle_bool th s) (mikolov_score mf b) (fun w f => inject_Z (f - mf) / inject_Z (dgetd (bg_unigram b) (fst w) 0%Z * dgetd (bg_unigram b) (snd w) 0%Z))%Q b (proj1 C)) as (out & E & N & S).
  - intros [w1 w2] f J. unfold mikolov_score. destruct (base_of_ok b w1 w2 f U J) as [-> P]. cbn [bind fst snd]. destruct (Z.eqb_spec (dgetd (bg_unigram b) w1 0 * dgetd (bg_unigram b) w2 0) 0); [lia|reflexivity].
  - exists out. split; [exact E|]. split; [exact N|]. intros w1 w2 f s. rewrite S, Qle_bool_iff. cbn [fst snd]. tauto.
Qed.
Print Assumptions C42_mikolov_selection.
(** the kept counts are at least 1, so the logarithm of the PMI score is defined; the score is that of the kept bigrams *)
Theorem C42_pmi_selection : forall tokenizer mf cp verbose sents b threshold, bigram_train tokenizer mf cp verbose sents = Ok b ->
  exists out, extract_by_pmi threshold b = Ok out /\ NoDup (map fst out) /\
  forall w1 w2 f s, In ((w1, w2), (f, s)) out <-> In ((w1, w2), f) (bg_counter b) /\
    s = ln (IZR (2 * fold_right Z.add 0 (map snd (bg_counter b)) * f) / IZR (dgetd (bg_unigram b) w1 0 * dgetd (bg_unigram b) w2 0)) /\ (threshold <= s)%R.
Proof.
  intros tok mf cp vb ss b th E. apply bigram_train_eq in E. destruct E as (_ & U & C).
  assert (ZS : fold_right Z.add 0 (map snd (bg_counter b)) = Zsum snd (bg_counter b)) by (clear; induction (bg_counter b) as [|kv l IH]; cbn [map fold_right Zsum]; [reflexivity|rewrite IH; reflexivity]).
  destruct (extract_scored_eq (fun s => if Rle_dec th s then true else false) (pmi_score b)
    (fun w f => ln (IZR (2 * fold_right Z.add 0 (map snd (bg_counter b)) * f) / IZR (dgetd (bg_unigram b) (fst w) 0 * dgetd (bg_unigram b) (snd w) 0))) b (proj1 C)) as (out & E & N & S).
  - intros [w1 w2] f J. unfold pmi_score, pmi_arg. destruct (base_of_ok b w1 w2 f U J) as [-> P]. cbn [bind fst snd]. destruct (Z.eqb_spec (dgetd (bg_unigram b) w1 0 * dgetd (bg_unigram b) w2 0) 0); [lia|].
    cbn [bind]. set (B := dgetd (bg_unigram b) w1 0 * dgetd (bg_unigram b) w2 0) in *. rewrite ZS.
    assert (Pf : 0 < f) by (destruct C as [_ F]; rewrite Forall_forall in F; exact (F _ J)).
    assert (f <= Zsum snd (bg_counter b)) by (apply (Zsum_In_le (fun kv : str * str * Z => snd kv) (bg_counter b) ((w1, w2), f)); [destruct C as [_ F]; rewrite Forall_forall in F; intros y Y; specialize (F y Y); lia|exact J]).
    assert (Pn : 0 < 2 * Zsum snd (bg_counter b) * f) by (apply Z.mul_pos_pos; lia).
    destruct (Qle_bool (inject_Z (2 * Zsum snd (bg_counter b) * f) / inject_Z B) 0) eqn:Q.
    + exfalso. apply Qle_bool_iff in Q. apply (Qlt_not_le 0 (inject_Z (2 * Zsum snd (bg_counter b) * f) / inject_Z B)); [|exact Q].
      apply Qlt_shift_div_l; [change 0%Q with (inject_Z 0); rewrite <- Zlt_Qlt; exact P|]. rewrite Qmult_0_l. change 0%Q with (inject_Z 0). rewrite <- Zlt_Qlt. exact Pn.
    + f_equal. f_equal. rewrite Q2R_div by (intros X; change 0%Q with (inject_Z 0) in X; rewrite inject_Z_injective in X; lia).
      unfold Q2R. cbn [Qnum Qden inject_Z]. rewrite Rinv_1, !Rmult_1_r. reflexivity.
  - exists out. split; [exact E|]. split; [exact N|]. intros w1 w2 f s. rewrite S. cbn [fst snd]. destruct (Rle_dec th s); split; intros; intuition congruence.
Qed.
Print Assumptions C42_pmi_selection.
Theorem C42_train_raises_iff : forall tokenizer mf cp verbose sents e, bigram_train tokenizer mf cp verbose sents = Err e <-> sents = [] /\ verbose = true /\ e = UnboundLocalError.
Proof.
  intros tok mf cp vb ss e. unfold bigram_train. destruct ss; [destruct vb|]; split; intros H; try discriminate.
  - injection H as <-. auto. - destruct H as (_ & _ & ->). reflexivity. - destruct H as (_ & ? & _). discriminate. - destruct H as (? & _). discriminate.
Qed.
Print Assumptions C42_train_raises_iff.
