(** * C85: an interrupted EojeolCounter.save, and the counter a failed load leaves *)
From Coq Require Import List ZArith NArith QArith Lia Permutation Sorted.
Import ListNotations.
From Verif Require Import PyBase PyDict PySort PyText PyFile SortLemmas UtilsModel UtilsSpec UtilsProofs UtilsProofs2 UtilsProofs3 UtilsProofs4 UtilsProofs5 CrashModel CrashSpec CrashProofs CrashProofs2.
Open Scope Z_scope.

(** the words of the counter can be written: non-empty and without whitespace *)
Definition writable_counter (c : ecounter) : Prop :=
  is_counter (ec_counter c) /\ Forall (fun kv => fst kv <> [] /\ no_whitespace (fst kv)) (ec_counter c).

Theorem C85_interrupted_save : forall c, writable_counter c -> exists rows, Permutation rows (ec_counter c) /\ most_frequent_first rows /\
  ec_save c = written (map counter_line rows) /\ ec_load (ec_save c) = Ok (mkCounter rows) /\
  forall s, piece s (ec_save c) -> s = ec_save c \/
  exists k w n q, nth_error rows k = Some (w, n) /\ s = written (map counter_line (firstn k rows)) ++ q /\
    (q = [] /\ ec_load s = Ok (mkCounter (firstn k rows)) \/
     (1 <= length q <= S (length w))%nat /\ ec_load s = Err ValueError \/
     exists d, d <> [] /\ piece d (format_int n) /\ q = w ++ [32%N] ++ d /\
       ec_load s = Ok (mkCounter (firstn k rows ++ [(w, first_digits n d)]))).
Proof.
  intros c [[ND PS] F]. exists (sort ec_le (ec_counter c)). pose proof (sort_perm ec_le (ec_counter c)) as PM.
  assert (F' : Forall (fun kv => word (fst kv)) (sort ec_le (ec_counter c))) by (apply Forall_sort; exact F).
  assert (ND' : NoDup (map fst (sort ec_le (ec_counter c)))) by (eapply Permutation_NoDup; [apply Permutation_sym, Permutation_map, PM|exact ND]).
  assert (PS' : Forall (fun kv => 0 < snd kv) (sort ec_le (ec_counter c))) by (apply Forall_sort; exact PS).
  split; [exact PM|]. split; [apply sort_ec_sorted|]. split; [apply ec_save_written|]. split; [apply ec_roundtrip; assumption|].
  intros s P. rewrite ec_save_written in *. apply piece_written in P as [->|(k & b & q & K & Q & ->)]; [left; reflexivity|right|apply Forall_map; eapply Forall_impl; [|exact F']; intros kv H; apply counter_line_no_nl, H].
  rewrite nth_error_map in K. destruct (nth_error (sort ec_le (ec_counter c)) k) as [[w n]|] eqn:N; [|discriminate K]. cbn [option_map] in K. assert (b = counter_line (w, n)) as -> by congruence. rewrite firstn_map.
  exists k, w, n, q. split; [exact N|]. split; [reflexivity|]. apply (ec_cut _ k w n q F' ND' PS' N Q). reflexivity.
Qed.
Print Assumptions C85_interrupted_save.

(** whatever can be loaded after an interruption: no word that was not counted, no count above the true one, at most one
    count below it, and every word that is missing is at most as frequent as every word that is there *)
Theorem C85_no_invention : forall c s c', writable_counter c -> piece s (ec_save c) -> ec_load s = Ok c' ->
  NoDup (map fst (ec_counter c')) /\
  (forall w n, In (w, n) (ec_counter c') -> exists m, In (w, m) (ec_counter c) /\ 0 < n <= m) /\
  (forall w1 w2 n1 n2, In (w1, n1) (ec_counter c') -> ~ In (w1, n1) (ec_counter c) -> In (w2, n2) (ec_counter c') -> ~ In (w2, n2) (ec_counter c) -> w1 = w2) /\
  (forall w m w' n m', In (w, m) (ec_counter c) -> ~ In w (map fst (ec_counter c')) -> In (w', n) (ec_counter c') -> In (w', m') (ec_counter c) -> m <= m') /\
  ec_sum c' = total (ec_counter c') /\ ec_coverage c' = 0%Q.
Proof.
  intros c s c' W P L. destruct (C85_interrupted_save c W) as (rows & PM & SS & _ & FULL & CUT). destruct W as [[ND PS] F].
  assert (NDr : NoDup (map fst rows)) by (eapply Permutation_NoDup; [apply Permutation_sym, Permutation_map, PM|exact ND]).
  assert (IN : forall x, In x rows <-> In x (ec_counter c)) by (intros x; split; apply Permutation_in; [exact PM|apply Permutation_sym, PM]).
  assert (UNI : forall w a b, In (w, a) (ec_counter c) -> In (w, b) (ec_counter c) -> a = b).
  { intros w a b A B. assert (X : dget (ec_counter c) w = Some a) by (apply In_dget; assumption). assert (Y : dget (ec_counter c) w = Some b) by (apply In_dget; assumption). congruence. }
  assert (LE : forall k w m w' m', In (w, m) (skipn k rows) -> In (w', m') (firstn k rows) -> m <= m').
  { intros k w m w' m' A B. unfold most_frequent_first in SS. rewrite <- (firstn_skipn k rows) in SS. clear -SS A B.
    induction (firstn k rows) as [|x l IH]; [destruct B|]. cbn [app] in SS. inversion SS as [|? ? S1 S2]; subst. destruct B as [->|B]; [|apply IH; assumption].
    rewrite Forall_forall in S2. specialize (S2 (w, m) (in_or_app _ _ _ (or_intror A))). cbn [snd] in S2. lia. }
  assert (PSr : forall w n, In (w, n) rows -> 0 < n) by (intros w n I; rewrite Forall_forall in PS; apply (PS (w, n)), IN, I).
  assert (G : exists k last, ec_counter c' = firstn k rows ++ last /\ c' = mkCounter (firstn k rows ++ last) /\
     (last = [] \/ exists w n d, nth_error rows k = Some (w, n) /\ 0 < d <= n /\ last = [(w, d)])).
  { destruct (CUT s P) as [->|(k & w & n & q & K & -> & [[-> E]|[[_ E]|(d & DN & DP & -> & E)]])].
    - rewrite FULL in L. assert (c' = mkCounter rows) as -> by congruence. exists (length rows), []. rewrite firstn_all, app_nil_r. split; [reflexivity|]. split; [reflexivity|left; reflexivity].
    - rewrite E in L. assert (c' = mkCounter (firstn k rows)) as -> by congruence. exists k, []. rewrite app_nil_r. split; [reflexivity|]. split; [reflexivity|left; reflexivity].
    - rewrite E in L. discriminate L.
    - rewrite E in L. assert (c' = mkCounter (firstn k rows ++ [(w, first_digits n d)])) as -> by congruence. exists k, [(w, first_digits n d)]. split; [reflexivity|]. split; [reflexivity|right].
      assert (0 < n) by (apply (PSr w), (nth_error_In _ _ K)). exists w, n, (first_digits n d). split; [exact K|]. split; [split; [apply first_digits_pos; assumption|apply first_digits_le; lia]|reflexivity]. }
  destruct G as (k & last & CE & CM & LAST). rewrite CE.
  assert (FI : forall x, In x (firstn k rows) -> In x rows) by (intros x I; rewrite <- (firstn_skipn k rows); apply in_or_app; auto).
  assert (SK : forall w n, nth_error rows k = Some (w, n) -> skipn k rows = (w, n) :: skipn (S k) rows).
  { clear. revert k. induction rows as [|x r IH]; intros [|k] w n H; try discriminate H; [injection H as ->; reflexivity|apply IH, H]. }
  split; [|split; [|split; [|split; [|split]]]].
  - destruct LAST as [->|(w & n & d & K & D & ->)]; [rewrite app_nil_r, <- firstn_map; apply NoDup_firstn, NDr|].
    assert (X : map fst (firstn k rows ++ [(w, d)]) = firstn (S k) (map fst rows)).
    { clear -K. revert k K. induction rows as [|x r IH]; intros [|k] K; try discriminate K; [injection K as ->; destruct r; reflexivity|]. cbn [firstn map app]. f_equal. apply IH, K. }
    rewrite X. apply NoDup_firstn, NDr.
  - intros w n I. apply in_app_or in I as [I|I]; [exists n; split; [apply IN, FI, I|]; pose proof (PSr w n (FI _ I)); lia|].
    destruct LAST as [->|(w0 & n0 & d & K & D & ->)]; [destruct I|]. destruct I as [E|[]]. assert (w0 = w /\ d = n) as [-> ->] by (split; congruence). exists n0. split; [apply IN, (nth_error_In _ _ K)|exact D].
  - intros w1 w2 n1 n2 I1 N1 I2 N2. apply in_app_or in I1 as [I1|I1]; [exfalso; apply N1, IN, FI, I1|]. apply in_app_or in I2 as [I2|I2]; [exfalso; apply N2, IN, FI, I2|].
    destruct LAST as [->|(w0 & n0 & d & K & D & ->)]; [destruct I1|]. destruct I1 as [E1|[]], I2 as [E2|[]]. congruence.
  - intros w m w' n m' I N I' IM. apply IN in I. assert (Iw : In (w, m) (skipn k rows)).
    { rewrite <- (firstn_skipn k rows) in I. apply in_app_or in I as [I|I]; [|exact I]. exfalso. apply N. rewrite map_app. apply in_or_app. left. apply (in_map fst) in I. exact I. }
    apply in_app_or in I' as [I'|I'].
    + apply (LE k w m w'); [exact Iw|]. assert (n = m') as <- by (apply (UNI w'); [apply IN, FI, I'|exact IM]). exact I'.
    + destruct LAST as [->|(w0 & n0 & d & K & D & ->)]; [destruct I'|]. destruct I' as [E|[]]. assert (w0 = w') as -> by congruence.
      assert (n0 = m') as -> by (apply (UNI w'); [apply IN, (nth_error_In _ _ K)|exact IM]). rewrite (SK _ _ K) in Iw. destruct Iw as [E'|Iw]; [assert (m' = m) as -> by congruence; lia|].
      pose proof (SK _ _ K) as X. unfold most_frequent_first in SS. rewrite <- (firstn_skipn k rows), X in SS. clear -SS Iw.
      induction (firstn k rows) as [|x l IH]; cbn [app] in SS; inversion SS as [|? ? S1 S2]; subst; [|apply IH, S1].
      rewrite Forall_forall in S2. specialize (S2 _ Iw). cbn [snd] in S2. lia.
  - rewrite CM. reflexivity.
  - rewrite CM. reflexivity.
Qed.
Print Assumptions C85_no_invention.

(** a truncated file is not always recognised: it loads, and a count is wrong *)
Theorem C85_detected_refuted : exists c s c' w, writable_counter c /\ piece s (ec_save c) /\ s <> ec_save c /\ ec_load s = Ok c' /\
  0 < ec_get c' w < ec_get c w.
Proof.
  exists (mkCounter [(u "hello", 123); (u "bye", 5)]), (u "hello 12"), (mkCounter [(u "hello", 12)]), (u "hello").
  split; [split; [split; [repeat constructor; cbn; intuition discriminate|repeat constructor]|repeat constructor; cbn; try discriminate]|].
  split; [eexists; vm_compute; reflexivity|]. split; [vm_compute; discriminate|]. split; vm_compute; [reflexivity|split; reflexivity].
Qed.
Print Assumptions C85_detected_refuted.

Example C85_case : writable_counter (mkCounter [(u "ab", 7); (u "c", 120)]) /\ piece (u "c 120
ab") (ec_save (mkCounter [(u "ab", 7); (u "c", 120)])) /\ ec_load (u "c 120
ab") = Err ValueError /\ ec_load (u "c 120
") = Ok (mkCounter [(u "c", 120)]).
Proof.
  split; [split; [split; [repeat constructor; cbn; intuition discriminate|repeat constructor]|repeat constructor; cbn; try discriminate]|].
  split; [eexists; vm_compute; reflexivity|]. split; vm_compute; reflexivity.
Qed.

(** ** the counter a failed load leaves *)
(** a line that load accepts *)
Definition row_of (line : str) (w : str) (z : Z) : Prop := exists n, split line = [w; n] /\ parse_int n = Ok z.
Theorem C85_failed_load : forall c content,
  match ec_load content with
  | Ok c' => ec_load_into c content = (c', None)
  | Err e => exists good bad rest rows, file_lines content = good ++ bad :: rest /\ Forall2 (fun l r => row_of l (fst r) (snd r)) good rows /\
      (forall w z, ~ row_of bad w z) /\ e = ValueError /\
      ec_load_into c content = (mkEc (dict_of rows) (ec_sum c) 0, Some ValueError)
  end.
Proof.
  intros c content. unfold ec_load, ec_load_into.
  assert (X : forall ls d0, match ec_load_loop ls (dict_of d0) with
     | Ok d => ec_load_rows ls (dict_of d0) = (d, None)
     | Err e => exists good bad rest rows, ls = good ++ bad :: rest /\ Forall2 (fun l r => row_of l (fst r) (snd r)) good rows /\ (forall w z, ~ row_of bad w z) /\ e = ValueError /\ ec_load_rows ls (dict_of d0) = (dict_of (d0 ++ rows), Some ValueError) end).
  { induction ls as [|l ls IH]; intros d0; cbn [ec_load_loop ec_load_rows]; [reflexivity|].
    assert (BAD : (forall w z, ~ row_of l w z) -> exists good bad rest rows, l :: ls = good ++ bad :: rest /\ Forall2 (fun l r => row_of l (fst r) (snd r)) good rows /\ (forall w z, ~ row_of bad w z) /\ ValueError = ValueError /\ (dict_of d0, Some ValueError) = (dict_of (d0 ++ rows), Some ValueError)).
    { intros B. exists [], l, ls, []. rewrite app_nil_r. repeat split; [constructor|exact B]. }
    destruct (split l) as [|w [|n [|x r]]] eqn:SL; try (apply BAD; intros w' z' (n' & E & _); congruence).
    destruct (parse_int n) as [z|e] eqn:PI; cbn [bind].
    2:{ assert (e = ValueError) as ->. { apply (parse_int_error _ _ PI). }
        apply BAD. intros w' z' (n' & E & P). assert (n' = n) by congruence. congruence. }
    specialize (IH (d0 ++ [(w, z)])). assert (D : dict_of (d0 ++ [(w, z)]) = dset (dict_of d0) w z) by (unfold dict_of; rewrite fold_left_app; reflexivity). rewrite D in IH.
    destruct (ec_load_loop ls (dset (dict_of d0) w z)) as [d|e]; [exact IH|]. destruct IH as (good & bad & rest & rows & E1 & E2 & E3 & E4 & E5).
    exists (l :: good), bad, rest, ((w, z) :: rows). split; [rewrite E1; reflexivity|]. split; [constructor; [exists n; split; assumption|exact E2]|]. split; [exact E3|]. split; [exact E4|].
    rewrite E5, <- app_assoc. reflexivity. }
  specialize (X (file_lines content) []). change (dict_of []) with (@nil (str * Z)) in X. cbn [app] in X.
  destruct (ec_load_loop (file_lines content) []) as [d|e]; cbn [bind]; [rewrite X; reflexivity|].
  destruct X as (good & bad & rest & rows & E1 & E2 & E3 & E4 & E5). exists good, bad, rest, rows. rewrite E5. auto 6.
Qed.
Print Assumptions C85_failed_load.

(** a failed load is not undone: the former words are gone and count_sum does not match the counter *)
Theorem C85_load_atomic_refuted : exists c content c', ec_load_into c content = (c', Some ValueError) /\ ec_get c (u "a") = 3 /\ ec_get c' (u "a") = 0 /\ ec_sum c' <> total (ec_counter c').
Proof.
  exists (mkCounter [(u "a", 3)]), (u "b 7
broken
"), (mkEc [(u "b", 7)] 3 0). vm_compute. intuition discriminate.
Qed.
Print Assumptions C85_load_atomic_refuted.
