(** * C87 sort_by_alphabet interrupted; C88 an interrupted save of a vocabulary *)
From Coq Require Import List ZArith NArith QArith Lia Permutation Sorted.
Import ListNotations.
From Verif Require Import PyBase PyDict PySort PyText PyFile SortLemmas CountLemmas UtilsModel UtilsSpec UtilsProofs UtilsProofs2 UtilsProofs3 UtilsProofs4 UtilsProofs5 UtilsProps VectorizerModel VectorizerSpec VectorizerProofs VectorizerProofs2 CrashModel CrashSpec CrashProofs CrashProofs2.
Open Scope Z_scope.

(** the lines of a text file that are not blank, without surrounding whitespace *)
Definition text_lines (content : str) : list str := filter (fun d => negb (length d =? 0)%nat) (map strip (file_lines content)).
Lemma strip_nonspace_head c q : is_space c = false -> strip (c :: q) <> [].
Proof.
  intros C E. destruct (strip_decomp (c :: q)) as (a & b & D & A & B & _). rewrite E in D. cbn [app] in D.
  assert (F : spaces (c :: q)) by (rewrite D; apply Forall_app; split; assumption). apply Forall_inv in F. congruence.
Qed.
Lemma strip_line d : stripped d -> strip (d ++ [10%N]) = d.
Proof. intros H. apply (stripped_strip [] d [10%N] H); [constructor|repeat constructor]. Qed.

Theorem C87_interrupted_sort : forall content, exists docs, Permutation docs (text_lines content) /\ StronglySorted (fun x y => str_leb x y = true) docs /\
  sort_by_alphabet content = written docs /\ text_lines (written docs) = docs /\
  forall s, left_by_crash content (sort_by_alphabet content) s -> s = content \/ s = written docs \/
  exists k d q, nth_error docs k = Some d /\ piece q d /\ s = written (firstn k docs) ++ q /\
    (q = [] /\ text_lines s = firstn k docs \/ q <> [] /\ strip q <> [] /\ text_lines s = firstn k docs ++ [strip q]).
Proof.
  intros content. exists (sort str_leb (clean_lines content)). pose proof (clean_lines_ok content) as OK. split; [apply sort_perm|]. split; [apply sort_str_sorted|]. split; [reflexivity|].
  split; [apply sort_by_alphabet_reads|]. intros s [->|P]; [left; reflexivity|right].
  assert (OK' : Forall (fun d => d <> [] /\ stripped d /\ no_nl d) (sort str_leb (clean_lines content))) by (apply Forall_sort, OK).
  assert (NL : Forall no_nl (sort str_leb (clean_lines content))) by (eapply Forall_impl; [|exact OK']; intros d H; apply H).
  change (sort_by_alphabet content) with (written (sort str_leb (clean_lines content))) in P.
  apply piece_written in P as [->|(k & d & q & K & Q & ->)]; [left; reflexivity|right|exact NL]. set (docs := sort str_leb (clean_lines content)) in *. clearbody docs.
  exists k, d, q. split; [exact K|]. split; [exact Q|]. split; [reflexivity|].
  assert (OKk : Forall (fun d => d <> [] /\ stripped d /\ no_nl d) (firstn k docs)) by (rewrite <- (firstn_skipn k docs) in OK'; apply Forall_app in OK'; tauto).
  assert (OKd : d <> [] /\ stripped d /\ no_nl d) by (rewrite Forall_forall in OK'; apply OK', (nth_error_In _ _ K)). destruct OKd as (D1 & D2 & D3).
  assert (E : text_lines (written (firstn k docs) ++ q) = firstn k docs ++ match q with [] => [] | _ => filter (fun d => negb (length d =? 0)%nat) [strip q] end).
  { unfold text_lines. rewrite cut_lines; [|eapply Forall_impl; [|exact OKk]; intros x H; apply H|apply (piece_no_nl q d); assumption].
    rewrite map_app, filter_app, map_map. f_equal; [|destruct q; reflexivity].
    rewrite (map_ext_in _ (fun x => x)); [rewrite map_id; apply filter_all; eapply Forall_impl; [|exact OKk]; intros x (H & _); destruct x; [congruence|reflexivity]|].
    intros x I. rewrite Forall_forall in OKk. destruct (OKk x I) as (_ & H & _). apply strip_line, H. }
  rewrite E. destruct q as [|c q]; [left; split; [reflexivity|apply app_nil_r]|right]. split; [discriminate|].
  assert (C : is_space c = false). { destruct Q as [t Q]. destruct D2 as [D2|[(c0 & t0 & D2 & C0) _]]; [congruence|]. rewrite Q in D2. cbn [app] in D2. assert (c = c0) as -> by congruence. exact C0. }
  pose proof (strip_nonspace_head c q C) as NE. split; [exact NE|]. cbn [filter]. destruct (strip (c :: q)); [congruence|reflexivity].
Qed.
Print Assumptions C87_interrupted_sort.
(** so every line after an interruption, but possibly the last, was a line before; and the file is sorted up to that last line *)
Theorem C87_lines_kept : forall content s, left_by_crash content (sort_by_alphabet content) s ->
  exists kept cut, text_lines s = kept ++ cut /\ (forall d, In d kept -> In d (text_lines content)) /\
   (cut = [] \/ exists d q, In d (text_lines content) /\ piece q d /\ cut = [strip q]).
Proof.
  intros content s L. destruct (C87_interrupted_sort content) as (docs & PM & _ & _ & RD & H).
  assert (IN : forall d, In d docs -> In d (text_lines content)) by (intros d; apply Permutation_in, PM).
  assert (FI : forall k d, In d (firstn k docs) -> In d (text_lines content)) by (intros k d I; apply IN; rewrite <- (firstn_skipn k docs); apply in_or_app; auto).
  destruct (H s L) as [->|[->|(k & d & q & K & Q & -> & [[-> E]|(_ & _ & E)])]].
  - exists (text_lines content), []. rewrite app_nil_r. auto.
  - exists docs, []. rewrite app_nil_r. auto.
  - exists (firstn k docs), []. split; [rewrite E, app_nil_r; reflexivity|]. split; [apply FI|auto].
  - exists (firstn k docs), [strip q]. split; [exact E|]. split; [apply FI|]. right. exists d, q. split; [apply IN, (nth_error_In _ _ K)|auto].
Qed.
Print Assumptions C87_lines_kept.
(** the file is rewritten in place: an interruption can lose lines for good *)
Theorem C87_nothing_lost_refuted : exists content s, left_by_crash content (sort_by_alphabet content) s /\ text_lines content <> [] /\ text_lines s = [].
Proof. exists (u "b
a
"), []. split; [right; eexists; reflexivity|]. split; [vm_compute; discriminate|reflexivity]. Qed.
Print Assumptions C87_nothing_lost_refuted.
Example C87_case : sort_by_alphabet (u " bb
a c

") = u "a c
bb
" /\ text_lines (u "a c
b") = [u "a c"; u "b"] /\ left_by_crash (u " bb
a c

") (sort_by_alphabet (u " bb
a c

")) (u "a c
b").
Proof. split; [vm_compute; reflexivity|]. split; [vm_compute; reflexivity|]. right. eexists. vm_compute. reflexivity. Qed.

(** ** C88 *)
Lemma combine_app {A B} (a : list A) (b : list B) a' b' : length a = length b -> combine (a ++ a') (b ++ b') = combine a b ++ combine a' b'.
Proof. revert b. induction a as [|x a IH]; intros [|y b] L; try discriminate L; [reflexivity|]. cbn [app combine]. f_equal. apply IH. cbn [length] in L. lia. Qed.
Lemma enumerate_app {A} (l : list A) x : enumerate (l ++ [x]) = enumerate l ++ [(Z.of_nat (length l), x)].
Proof.
  unfold enumerate. rewrite app_length. cbn [length]. rewrite Nat.add_1_r, seq_S. cbn [Nat.add]. rewrite map_app. cbn [map].
  rewrite combine_app by (rewrite map_length, seq_length; reflexivity). reflexivity.
Qed.
Theorem C88_interrupted_save : forall v s, coherent v -> Forall (fun t => strip t = t /\ no_nl t) (idx2vocab v) -> piece s (v_save v) ->
  exists k, (k <= length (idx2vocab v))%nat /\ let v' := v_load s in
  let kept x := match dget (vocabulary v) x with Some i => if i <? Z.of_nat k then Some i else None | None => None end in
  (s = written (firstn k (idx2vocab v)) /\ idx2vocab v' = firstn k (idx2vocab v) /\ n_vocabs v' = Z.of_nat k /\ (forall x, dget (vocabulary v') x = kept x)) \/
  exists t q, nth_error (idx2vocab v) k = Some t /\ q <> [] /\ piece q t /\ s = written (firstn k (idx2vocab v)) ++ q /\
    idx2vocab v' = firstn k (idx2vocab v) ++ [strip q] /\ n_vocabs v' = Z.of_nat k + 1 /\
    forall x, dget (vocabulary v') x = if eqb x (strip q) then Some (Z.of_nat k) else kept x.
Proof.
  intros v s (ND & LN & BI) F P.
  assert (NL : Forall no_nl (idx2vocab v)) by (eapply Forall_impl; [|exact F]; intros t H; apply H).
  assert (K : exists k q, (k <= length (idx2vocab v))%nat /\ s = written (firstn k (idx2vocab v)) ++ q /\ (q = [] \/ q <> [] /\ exists t, nth_error (idx2vocab v) k = Some t /\ piece q t)).
  { apply piece_written in P as [->|(k & t & q & K & Q & ->)]; [exists (length (idx2vocab v)), []; rewrite firstn_all, app_nil_r; auto| |exact NL].
    exists k, q. split; [apply Nat.lt_le_incl, nth_error_Some; congruence|]. split; [reflexivity|]. destruct q as [|c q]; [left; reflexivity|right; split; [discriminate|exists t; auto]]. }
  destruct K as (k & q & LE & -> & QC). exists k. split; [exact LE|]. cbv zeta.
  assert (Fk : Forall (fun t => strip t = t /\ no_nl t) (firstn k (idx2vocab v))) by (rewrite <- (firstn_skipn k (idx2vocab v)) in F; apply Forall_app in F; tauto).
  assert (NDk : NoDup (firstn k (idx2vocab v))) by (apply NoDup_firstn, ND).
  assert (LO : v_load (written (firstn k (idx2vocab v)) ++ q) = set_vocabulary (firstn k (idx2vocab v) ++ match q with [] => [] | _ => [strip q] end)).
  { unfold v_load. f_equal. rewrite cut_lines; [|eapply Forall_impl; [|exact Fk]; intros x H; apply H|destruct QC as [->|(_ & t & K & Q)]; [constructor|apply (piece_no_nl q t Q); rewrite Forall_forall in NL; apply NL, (nth_error_In _ _ K)]].
    rewrite map_app, map_map. f_equal; [|destruct q; reflexivity]. rewrite <- (map_id (firstn k (idx2vocab v))) at 2. apply map_ext_in. intros t I. rewrite Forall_forall in Fk. destruct (Fk t I) as [S0 _].
    apply strip_line. destruct (strip_decomp t) as (_ & _ & _ & _ & _ & X). rewrite S0 in X. exact X. }
  rewrite LO. clear LO.
  assert (KEPT : forall x, dget (vocabulary (set_vocabulary (firstn k (idx2vocab v)))) x = match dget (vocabulary v) x with Some i => if i <? Z.of_nat k then Some i else None | None => None end).
  { intros x. destruct (set_vocab_coherent _ NDk) as (_ & _ & B). cbn [idx2vocab set_vocabulary] in B. fold (set_vocabulary (firstn k (idx2vocab v))) in B.
    assert (NTH : forall i, (i < k)%nat -> nth_error (firstn k (idx2vocab v)) i = nth_error (idx2vocab v) i).
    { clear. intros i L. revert i L. generalize (idx2vocab v). induction k as [|k IH]; intros l i L; [lia|]. destruct l as [|y l]; [reflexivity|]. destruct i as [|i]; [reflexivity|]. cbn [firstn nth_error]. apply IH. lia. }
    destruct (dget (vocabulary v) x) as [i|] eqn:E.
    - pose proof (proj1 (BI x i) E) as (I0 & I1). destruct (Z.ltb_spec i (Z.of_nat k)) as [L|L].
      + apply B. split; [exact I0|]. rewrite NTH by lia. exact I1.
      + destruct (dget (vocabulary (set_vocabulary (firstn k (idx2vocab v)))) x) as [j|] eqn:E2; [|reflexivity]. exfalso. pose proof (proj1 (B x j) E2) as (J0 & J1).
        assert (Lj : (Z.to_nat j < k)%nat) by (assert (X : (Z.to_nat j < length (firstn k (idx2vocab v)))%nat) by (apply nth_error_Some; congruence); rewrite firstn_length in X; lia).
        rewrite NTH in J1 by exact Lj. assert (Y : dget (vocabulary v) x = Some j) by (apply BI; auto). assert (i = j) by congruence. lia.
    - destruct (dget (vocabulary (set_vocabulary (firstn k (idx2vocab v)))) x) as [j|] eqn:E2; [|reflexivity]. exfalso. pose proof (proj1 (B x j) E2) as (J0 & J1).
      assert (Lj : (Z.to_nat j < k)%nat) by (assert (X : (Z.to_nat j < length (firstn k (idx2vocab v)))%nat) by (apply nth_error_Some; congruence); rewrite firstn_length in X; lia).
      rewrite NTH in J1 by exact Lj. assert (Y : dget (vocabulary v) x = Some j) by (apply BI; auto). congruence. }
  assert (LK : length (firstn k (idx2vocab v)) = k) by (rewrite firstn_length; lia).
  destruct QC as [->|(QN & t & K & Q)].
  - left. rewrite !app_nil_r. split; [reflexivity|]. split; [reflexivity|]. split; [cbn [n_vocabs set_vocabulary]; rewrite LK; reflexivity|exact KEPT].
  - right. exists t, q. split; [exact K|]. split; [exact QN|]. split; [exact Q|]. split; [reflexivity|]. destruct q as [|c q]; [congruence|]. split; [reflexivity|].
    split; [cbn [n_vocabs set_vocabulary]; rewrite app_length, LK; cbn [length]; lia|]. intros x.
    assert (D : vocabulary (set_vocabulary (firstn k (idx2vocab v) ++ [strip (c :: q)])) = dset (vocabulary (set_vocabulary (firstn k (idx2vocab v)))) (strip (c :: q)) (Z.of_nat k)).
    { unfold set_vocabulary. cbn [vocabulary]. rewrite enumerate_app, map_app, LK. unfold dict_of. rewrite fold_left_app. reflexivity. }
    rewrite D, dget_dset, KEPT. destruct (eqb_spec (strip (c :: q)) x) as [->|NE]; [rewrite eqb_refl; reflexivity|]. destruct (eqb_spec x (strip (c :: q))) as [->|_]; [congruence|reflexivity].
Qed.
Print Assumptions C88_interrupted_save.
(** the piece of a term that was written can be another term, whose index then changes: documents encoded before mean something else *)
Theorem C88_indices_refuted : exists v s, coherent v /\ Forall (fun t => strip t = t /\ no_nl t) (idx2vocab v) /\ piece s (v_save v) /\
  dget (vocabulary v) (u "a") = Some 0 /\ dget (vocabulary (v_load s)) (u "a") = Some 2.
Proof.
  exists (set_vocabulary [u "a"; u "b"; u "ab"]), (u "a
b
a"). split; [apply set_vocab_coherent; repeat constructor; cbn; intuition discriminate|].
  split; [repeat constructor; discriminate|]. split; [eexists; vm_compute; reflexivity|]. split; vm_compute; reflexivity.
Qed.
Print Assumptions C88_indices_refuted.
