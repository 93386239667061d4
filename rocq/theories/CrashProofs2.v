From Coq Require Import List ZArith NArith QArith Lia Permutation Sorted.
Import ListNotations.
From Verif Require Import PyBase PyDict PySort PyText PyFile SortLemmas UtilsModel UtilsSpec UtilsProofs UtilsProofs2 UtilsProofs3 UtilsProofs4 UtilsProofs5 CrashModel CrashSpec CrashProofs.
Open Scope Z_scope.

Lemma first_digits_pos n d : 0 < n -> piece d (format_int n) -> d <> [] -> 0 < first_digits n d.
Proof.
  intros P [t E] NE. pose proof (format_pos_digits n ltac:(lia)) as D. rewrite E in D. apply Forall_app in D as [D1 D2].
  assert (V : first_digits n d = val d).
  { pose proof (cut_number n d ltac:(lia) (ex_intro _ t E) NE) as C. rewrite parse_digits in C by assumption. congruence. }
  rewrite V. destruct d as [|c d]; [congruence|]. pose proof (format_head n c (d ++ t) P ltac:(rewrite E; reflexivity)) as H.
  change (c :: d) with ([c] ++ d). rewrite val_app. inversion D1 as [|? ? C1 C2]; subst. pose proof (val_bound d C2) as B.
  replace (val [c]) with (Z.of_N c - 48) by (unfold val; cbn [fold_left]; lia). nia.
Qed.
Lemma digits_nospace d : digits d -> nospace d.
Proof.
  intros D. eapply Forall_impl; [|exact D]. intros c C. cbv beta in *. unfold is_space. apply not_true_is_false.
  rewrite !orb_true_iff, !andb_true_iff, !N.leb_le, !N.eqb_eq. lia.
Qed.
Lemma piece_number_word n d : piece d (format_int n) -> d <> [] -> word d.
Proof. intros [t E] NE. split; [exact NE|]. destruct (format_int_word n) as [_ F]. rewrite E in F. apply Forall_app in F. tauto. Qed.

(** ** EojeolCounter *)
Lemma ec_load_app ls1 ls2 : forall d d', ec_load_loop ls1 d = Ok d' -> ec_load_loop (ls1 ++ ls2) d = ec_load_loop ls2 d'.
Proof.
  induction ls1 as [|l ls IH]; intros d d' E; cbn [app ec_load_loop] in *; [congruence|].
  destruct (split l) as [|w [|n [|x r]]]; try discriminate E. destruct (parse_int n) as [z|]; cbn [bind] in *; [|discriminate E]. apply IH, E.
Qed.
Lemma counter_line_no_nl kv : word (fst kv) -> no_nl (counter_line kv).
Proof.
  intros W. apply Forall_app. split; [apply nospace_no_nl, W|]. apply Forall_app. split; [constructor; [split; discriminate|constructor]|].
  apply nospace_no_nl, format_int_word.
Qed.
Lemma ec_save_written c : ec_save c = written (map counter_line (sort ec_le (ec_counter c))).
Proof. unfold ec_save, written. rewrite map_map. f_equal. apply map_ext. intros kv. unfold counter_line. rewrite <- !app_assoc. reflexivity. Qed.
Lemma ec_load_complete rows : Forall (fun kv => word (fst kv)) rows -> NoDup (map fst rows) ->
  ec_load_loop (map (fun b => b ++ [10%N]) (map counter_line rows)) [] = Ok rows.
Proof.
  intros F ND. rewrite map_map. exact (ec_load_lines rows F [] ND).
Qed.
(** what is read of a cut line *)
Lemma cut_counter_line w n q : word w -> 0 < n -> piece q (counter_line (w, n)) ->
  q = [] \/ ((1 <= length q <= S (length w))%nat /\ split q = [firstn (length w) q]) \/
  exists d, d <> [] /\ piece d (format_int n) /\ q = w ++ [SP] ++ d /\ split q = [w; d].
Proof.
  intros W P Q. unfold counter_line in Q. cbn [fst snd] in Q. apply piece_app in Q as [(t & E)|(q' & -> & Q)].
  - destruct q as [|x q]; [left; reflexivity|right; left]. assert (L : length w = (length (x :: q) + length t)%nat) by (rewrite E, app_length; reflexivity).
    split; [cbn [length] in *; lia|]. rewrite firstn_all2 by lia. apply split_word. split; [discriminate|]. destruct W as [_ W]. rewrite E in W. apply Forall_app in W. tauto.
  - right. destruct q' as [|x d].
    + left. rewrite app_nil_r. split; [destruct W as [NE _]; destruct w; [congruence|cbn [length]; lia]|]. rewrite firstn_all. apply split_word, W.
    + destruct Q as [t E]. cbn [app] in E. injection E as E1 E2. subst x. destruct d as [|y d].
      * left. rewrite app_length. cbn [length]. split; [lia|]. rewrite firstn_app, Nat.sub_diag, firstn_all. cbn [firstn]. rewrite app_nil_r. change 32%N with SP.
        rewrite split_word_sp by (assumption || reflexivity). reflexivity.
      * right. exists (y :: d). split; [discriminate|]. split; [exists t; exact E2|]. split; [reflexivity|]. change 32%N with SP. rewrite split_word_sp by (assumption || reflexivity).
        f_equal. apply split_word. apply (piece_number_word n); [exists t; exact E2|discriminate].
Qed.
Lemma NoDup_firstn {A} (l : list A) k : NoDup l -> NoDup (firstn k l).
Proof. intros H. rewrite <- (firstn_skipn k l) in H. revert H. generalize (skipn k l). induction (firstn k l) as [|x a IH]; intros b H; [constructor|]. inversion H as [|? ? NI ND]; subst. constructor; [intros I; apply NI, in_or_app; auto|eapply IH, ND]. Qed.
Lemma ec_cut rows k w n q : Forall (fun kv => word (fst kv)) rows -> NoDup (map fst rows) -> Forall (fun kv => 0 < snd kv) rows ->
  nth_error rows k = Some (w, n) -> piece q (counter_line (w, n)) -> forall s, s = written (map counter_line (firstn k rows)) ++ q ->
  (q = [] /\ ec_load s = Ok (mkCounter (firstn k rows))) \/
  ((1 <= length q <= S (length w))%nat /\ ec_load s = Err ValueError) \/
  exists d, d <> [] /\ piece d (format_int n) /\ q = w ++ [SP] ++ d /\ ec_load s = Ok (mkCounter (firstn k rows ++ [(w, first_digits n d)])).
Proof.
  intros F ND PS NTH Q s ->. assert (IN : In (w, n) rows) by (eapply nth_error_In; exact NTH).
  assert (W : word w) by (rewrite Forall_forall in F; apply (F _ IN)). assert (P : 0 < n) by (rewrite Forall_forall in PS; apply (PS _ IN)).
  assert (SPL : exists rest, rows = firstn k rows ++ (w, n) :: rest) by (exists (skipn (S k) rows); rewrite <- (firstn_skipn k rows) at 1; f_equal; clear -NTH; revert k NTH; induction rows as [|x r IH]; intros [|k] N; try discriminate N; [injection N as ->; reflexivity|apply IH, N]).
  destruct SPL as (rest & SPL). rewrite SPL in F, ND. apply Forall_app in F as [F _].
  assert (NDk : NoDup (map fst (firstn k rows ++ [(w, n)]))).
  { rewrite <- (app_nil_r (_ ++ [_])), <- app_assoc. replace (firstn k rows ++ [(w, n)] ++ []) with (firstn (S (length (firstn k rows))) (firstn k rows ++ (w, n) :: rest)).
    - rewrite <- firstn_map. apply NoDup_firstn, ND.
    - rewrite firstn_app. rewrite firstn_all2 by lia. replace (S (length (firstn k rows)) - length (firstn k rows))%nat with 1%nat by lia. reflexivity. }
  rewrite map_app in NDk. cbn [map fst] in NDk. assert (ND1 : NoDup (map fst (firstn k rows))) by (apply NoDup_remove_1 in NDk; rewrite app_nil_r in NDk; exact NDk).
  assert (NI : ~ In w (map fst (firstn k rows))) by (apply NoDup_remove_2 in NDk; rewrite app_nil_r in NDk; exact NDk).
  assert (NL : Forall no_nl (map counter_line (firstn k rows))) by (apply Forall_map; eapply Forall_impl; [|exact F]; intros kv H; apply counter_line_no_nl, H).
  assert (E : ec_load (written (map counter_line (firstn k rows)) ++ q) = do d <- ec_load_loop match q with [] => [] | _ => [q] end (firstn k rows); Ok (mkCounter d)).
  { unfold ec_load. rewrite cut_lines; [|exact NL|apply (piece_no_nl q _ Q), counter_line_no_nl, W]. rewrite (ec_load_app _ _ [] (firstn k rows)); [reflexivity|]. apply ec_load_complete; assumption. }
  rewrite E. destruct (cut_counter_line w n q W P Q) as [->|[[L SQ]|(d & DN & DP & DQ & SQ)]].
  - left. split; reflexivity.
  - right. left. split; [exact L|]. destruct q as [|x q]; [cbn [length] in L; lia|]. cbn [ec_load_loop]. rewrite SQ. reflexivity.
  - right. right. exists d. split; [exact DN|]. split; [exact DP|]. split; [exact DQ|]. destruct q as [|x q]; [destruct w; discriminate DQ|]. cbn [ec_load_loop]. rewrite SQ.
    rewrite (cut_number n d) by (lia || assumption). cbn [bind]. rewrite dset_items_new by (apply dget_None; exact NI). reflexivity.
Qed.
