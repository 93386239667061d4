(** * C96: a save of EojeolPatternTrainer that did not finish *)
From Coq Require Import List ZArith NArith QArith Lia Permutation Sorted.
Import ListNotations.
From Verif Require Import PyBase PyDict PySort PyText PyFile SortLemmas UtilsModel UtilsSpec UtilsProofs NounModel BuilderModel BuilderSpec BuilderProofs BuilderProofs2 BuilderProps CrashSpec CrashProofs CrashProofs2 BuilderCrashSpec BuilderCrashProofs BuilderCrashProofs2.
Open Scope Z_scope.

Lemma rows_ok_nl R : Forall row_ok R -> Forall no_nl (map row_text R).
Proof. intros F. apply Forall_forall. intros x I. apply in_map_iff in I as (b & <- & I). rewrite Forall_forall in F. apply row_ok_nl, F, I. Qed.
Lemma mark_nl : no_nl (u "# rlgraph"). Proof. repeat constructor; discriminate. Qed.
Lemma kind_nl : no_nl (u "# lrgraph"). Proof. repeat constructor; discriminate. Qed.
Lemma Forall_firstn' {A} (P : A -> Prop) l k : Forall P l -> Forall P (firstn k l).
Proof. intros F. rewrite <- (firstn_skipn k l) in F. apply Forall_app in F. tauto. Qed.
Lemma keyed_firstn R k b cur : keyed cur R -> nth_error R k = Some b -> keyed cur (firstn k R) /\ keyed (cur_after cur (firstn k R)) [b].
Proof.
  intros K NK. apply nth_error_split in NK as (R1 & R2 & -> & <-). rewrite firstn_app, Nat.sub_diag, firstn_all. cbn [firstn]. rewrite app_nil_r. apply keyed_app in K as [K1 K2]. split; [exact K1|]. change (b :: R2) with ([b] ++ R2) in K2. apply keyed_app in K2. tauto.
Qed.
Lemma rows_form R : Forall (fun b => b <> [] /\ b <> u "# rlgraph") (map row_text R).
Proof. apply Forall_forall. intros x I. apply in_map_iff in I as (b & <- & _). apply row_text_form. Qed.
Lemma written_app A0 B0 : written (A0 ++ B0) = written A0 ++ written B0. Proof. unfold written. rewrite map_app, concat_app. reflexivity. Qed.

Section torn_file.
  Variables (c c' : bconf) (R1 R2 : list brow).
  Hypotheses (OK1 : Forall row_ok R1) (OK2 : Forall row_ok R2) (K1 : keyed None R1) (K2 : forall cur, keyed cur R2).
  Hypotheses (D1 : distinct_pairs (pairs_of R1)) (D2 : distinct_pairs (pairs_of R2)).
  Lemma torn_lr k b q : nth_error R1 k = Some b -> piece q (row_text b) ->
    let s := written (front c ++ map row_text (firstn k R1)) ++ q in
    match torn b q with Err e => b_load c' s = Some (Err e) | Ok more => exists ld, b_load c' s = Some (Ok ld) /\ loaded_as c c' ld (pairs_of (firstn k R1) ++ more) [] end.
  Proof.
    intros NK P s. assert (OKb : row_ok b) by (rewrite Forall_forall in OK1; apply OK1; eapply nth_error_In; eauto).
    assert (E : b_load c' s = Some (do kg <- tail_load (cur_after None (firstn k R1), fold_left kput (pairs_of (firstn k R1)) []) q;
      Ok (mkBL (mkB (b_lm c) (b_rm c) (b_mf c) (b_verbose c')) (snd kg) [] (dkeys (snd kg)) []))).
    { unfold s, front. cbn [app]. rewrite load_file; [|apply rows_ok_nl, Forall_firstn', OK1|eapply piece_no_nl; [exact P|apply row_ok_nl, OKb]].
      rewrite load_lr_rows by apply rows_form. rewrite rows_load; [|apply Forall_firstn', OK1|apply (keyed_firstn R1 k b None K1 NK)]. cbn [bind].
      rewrite load_lr_tail by (eapply row_not_mark; exact P). destruct (tail_load _ q); reflexivity. }
    pose proof (torn_row b (cur_after None (firstn k R1)) (fold_left kput (pairs_of (firstn k R1)) []) q OKb (proj2 (keyed_firstn R1 k b None K1 NK)) P) as T. rewrite E.
    destruct (torn b q) as [more|e] eqn:TQ; [destruct T as [cur' T]|]; rewrite T; cbn [bind snd]; [|reflexivity].
    eexists. split; [reflexivity|]. rewrite <- fold_left_app. apply (loaded_kputs c c' (pairs_of (firstn k R1) ++ more) []); [eapply torn_distinct; eauto|constructor].
  Qed.
  Lemma lr_complete X q : Forall no_nl X -> no_nl q -> b_load c' (written (front c ++ map row_text R1 ++ middle ++ X) ++ q) =
    Some (do rl <- load_rl (cur_after None R1, []) (map (fun b => b ++ [10%N]) X ++ match q with [] => [] | _ => [q] end);
        Ok (mkBL (mkB (b_lm c) (b_rm c) (b_mf c) (b_verbose c')) (fold_left kput (pairs_of R1) []) (snd rl) (dkeys (fold_left kput (pairs_of R1) [])) (dkeys (snd rl)))).
  Proof.
    intros FX Q. unfold front. cbn [app]. rewrite load_file; [|apply Forall_app; split; [apply rows_ok_nl, OK1|apply Forall_app; split; [constructor; [constructor|constructor; [exact mark_nl|constructor]]|exact FX]]|exact Q].
    rewrite map_app, <- app_assoc, load_lr_rows by apply rows_form. rewrite rows_load by assumption. cbn [bind]. unfold middle. cbn [app map load_lr removelast]. cbv zeta. change (eqb (@nil N) []) with true. cbn iota.
    rewrite (removelast_last (u "# rlgraph") 10%N). change (eqb (u "# rlgraph") []) with false. cbn iota. rewrite eqb_refl. cbn [bind fst snd]. reflexivity.
  Qed.
  Lemma torn_rl k b q : nth_error R2 k = Some b -> piece q (row_text b) ->
    let s := written (front c ++ map row_text R1 ++ middle ++ map row_text (firstn k R2)) ++ q in
    match torn b q with Err e => b_load c' s = Some (Err e) | Ok more => exists ld, b_load c' s = Some (Ok ld) /\ loaded_as c c' ld (pairs_of R1) (pairs_of (firstn k R2) ++ more) end.
  Proof.
    intros NK P s. assert (OKb : row_ok b) by (rewrite Forall_forall in OK2; apply OK2; eapply nth_error_In; eauto).
    assert (E : b_load c' s = Some (do kg <- tail_load (cur_after (cur_after None R1) (firstn k R2), fold_left kput (pairs_of (firstn k R2)) []) q;
      Ok (mkBL (mkB (b_lm c) (b_rm c) (b_mf c) (b_verbose c')) (fold_left kput (pairs_of R1) []) (snd kg) (dkeys (fold_left kput (pairs_of R1) [])) (dkeys (snd kg))))).
    { unfold s. rewrite lr_complete; [|apply rows_ok_nl, Forall_firstn', OK2|eapply piece_no_nl; [exact P|apply row_ok_nl, OKb]].
      rewrite load_rl_rows_tail by (eapply Forall_impl; [|apply rows_form]; intros x [H _]; exact H). rewrite rows_load; [|apply Forall_firstn', OK2|apply (keyed_firstn R2 k b _ (K2 _) NK)]. cbn [bind].
      rewrite load_rl_tail. reflexivity. }
    pose proof (torn_row b (cur_after (cur_after None R1) (firstn k R2)) (fold_left kput (pairs_of (firstn k R2)) []) q OKb (proj2 (keyed_firstn R2 k b _ (K2 _) NK)) P) as T. rewrite E.
    destruct (torn b q) as [more|e] eqn:TQ; [destruct T as [cur' T]|]; rewrite T; cbn [bind snd]; [|reflexivity].
    eexists. split; [reflexivity|]. rewrite <- fold_left_app. apply (loaded_kputs c c' (pairs_of R1) (pairs_of (firstn k R2) ++ more)); [exact D1|eapply torn_distinct; eauto].
  Qed.
  Lemma torn_middle q : q = [] \/ (exists q', q = 10%N :: q' /\ piece q' (u "# rlgraph")) -> exists ld, b_load c' (written (front c ++ map row_text R1) ++ q) = Some (Ok ld) /\ loaded_as c c' ld (pairs_of R1) [].
  Proof.
    assert (L : loaded_as c c' (mkBL (mkB (b_lm c) (b_rm c) (b_mf c) (b_verbose c')) (fold_left kput (pairs_of R1) []) [] (dkeys (fold_left kput (pairs_of R1) [])) []) (pairs_of R1) []) by (apply (loaded_kputs c c' (pairs_of R1) []); [exact D1|constructor]).
    intros [->|(q' & -> & P)].
    - eexists. split; [|exact L]. unfold front. cbn [app]. rewrite load_file; [|apply rows_ok_nl, OK1|constructor]. rewrite load_lr_rows by apply rows_form. rewrite rows_load by assumption. reflexivity.
    - eexists. split; [|exact L]. assert (Q : written (front c ++ map row_text R1) ++ 10%N :: q' = written (head_text c :: u "# lrgraph" :: map row_text R1 ++ [[]]) ++ q').
      { unfold front. change (head_text c :: u "# lrgraph" :: map row_text R1 ++ [[]]) with (([head_text c; u "# lrgraph"] ++ map row_text R1) ++ [[]]). rewrite (written_app _ [[]]), <- app_assoc. reflexivity. }
      rewrite Q, load_file; [|apply Forall_app; split; [apply rows_ok_nl, OK1|constructor; [constructor|constructor]]|eapply piece_no_nl; [exact P|exact mark_nl]].
      rewrite map_app, <- app_assoc, load_lr_rows by apply rows_form. rewrite rows_load by assumption. cbn [bind app map load_lr removelast]. cbv zeta. change (eqb (@nil N) []) with true. cbn iota.
      assert (T : forall kg, tail_load kg q' = Ok kg).
      { intros kg. unfold tail_load. rewrite (torn_text _ _ P). pose proof (proj2 (piece_firstn _ _ P)) as Lq. change (length (u "# rlgraph")) with 9%nat in Lq. generalize dependent (length q'). clear. intros m Lm. do 10 (destruct m as [|m]; [reflexivity|]). lia. }
      rewrite load_lr_tail; [rewrite T; reflexivity|]. intros E. rewrite (torn_text _ _ P) in E. apply (f_equal (@length N)) in E. rewrite firstn_length in E. pose proof (proj2 (piece_firstn _ _ P)) as Lq. change (length (u "# rlgraph")) with 9%nat in *. lia.
  Qed.
End torn_file.

(** ** the first two lines *)
Lemma one_line q : no_nl q -> file_lines q = match q with [] => [] | _ => [q] end.
Proof. intros Q. pose proof (cut_lines [] q (Forall_nil _) Q) as C. exact C. Qed.
Lemma torn_first c c' q : piece q (head_text c) -> b_load c' q = if eqb q [] || eqb q (head_text c) then None else Some (Err ValueError).
Proof.
  intros P. assert (Q : no_nl q) by (eapply piece_no_nl; [exact P|apply head_nl]). unfold b_load. rewrite (one_line q Q). destruct (eqb_spec q []) as [->|N0]; [reflexivity|]. destruct q as [|x q]; [congruence|]. cbn [orb].
  destruct (eqb_spec (x :: q) (head_text c)) as [E|N1].
  - rewrite E, split_strip, head_parse. reflexivity.
  - pose proof (torn_head c _ P N1) as L. rewrite split_strip. destruct (mapM parse_int (split (x :: q))) as [ys|e] eqn:M; [|reflexivity]. apply mapM_length in M.
    destruct ys as [|y1 [|y2 [|y3 [|y4 ys]]]]; try reflexivity. cbn [length] in M. lia.
Qed.
Lemma torn_kind c c' q : piece q (u "# lrgraph") -> b_load c' (written [head_text c] ++ q) =
  if eqb q [] then None else if eqb q (u "# lrgraph") then Some (Ok (mkBL (mkB (b_lm c) (b_rm c) (b_mf c) (b_verbose c')) [] [] [] [])) else Some (Err ValueError).
Proof.
  intros P. assert (Q : no_nl q) by (eapply piece_no_nl; [exact P|exact kind_nl]). unfold b_load. rewrite cut_lines; [|constructor; [apply head_nl|constructor]|exact Q]. cbn [map app].
  rewrite split_strip, split_snoc by reflexivity. rewrite head_parse. destruct (piece_firstn _ _ P) as [Eq Lq]. change (length (u "# lrgraph")) with 9%nat in Lq. rewrite Eq. clear P Q Eq. generalize dependent (length q). clear q. intros m Lm.
  do 10 (destruct m as [|m]; [reflexivity|]). lia.
Qed.

Lemma every_piece c R1 R2 p : Forall row_ok R1 -> Forall row_ok R2 ->
  let whole := written (front c ++ map row_text R1 ++ middle ++ map row_text R2) in piece p whole -> p = whole \/ exists w, stopped c R1 R2 p w.
Proof.
  intros O1 O2 whole P. unfold whole in P. apply piece_written in P as [P|(k & b & q & NK & Q & ->)]; [left; exact P| |].
  2: { unfold front, middle. repeat (constructor; [first [apply head_nl|exact kind_nl]|]). apply Forall_app. split; [apply rows_ok_nl, O1|]. constructor; [constructor|]. constructor; [exact mark_nl|]. apply rows_ok_nl, O2. }
  right. unfold front in NK |- *. cbn [app] in NK |- *. destruct k as [|k]; [injection NK as <-; eexists; exact (stop_head c R1 R2 q Q)|].
  destruct k as [|k]; [injection NK as <-; eexists; exact (stop_kind c R1 R2 q Q)|]. cbn [nth_error] in NK. cbn [firstn].
  destruct (Nat.lt_ge_cases k (length R1)) as [L|G].
  - rewrite nth_error_app1 in NK by (rewrite map_length; exact L). rewrite nth_error_map in NK. destruct (nth_error R1 k) as [b'|] eqn:E; [|discriminate]. injection NK as <-.
    rewrite firstn_app, map_length. replace (k - length R1)%nat with 0%nat by lia. rewrite firstn_O, app_nil_r, firstn_map. eexists. exact (stop_lr c R1 R2 k b' q E Q).
  - rewrite nth_error_app2 in NK by (rewrite map_length; exact G). rewrite map_length in NK. rewrite firstn_app, map_length, firstn_all2 by (rewrite map_length; exact G).
    set (j := (k - length R1)%nat) in *. clearbody j. clear k G. destruct j as [|j].
    { injection NK as <-. destruct Q as [t Q]. destruct q; [|discriminate]. eexists. rewrite firstn_O, (app_nil_r (map row_text R1)). exact (stop_middle c R1 R2 [] (or_introl eq_refl)). }
    destruct j as [|j].
    { injection NK as <-. eexists. assert (X : written (head_text c :: u "# lrgraph" :: map row_text R1 ++ firstn 1 (middle ++ map row_text R2)) ++ q = written (front c ++ map row_text R1) ++ 10%N :: q).
      { unfold front, middle. cbn [app firstn]. change (head_text c :: u "# lrgraph" :: map row_text R1 ++ [[]]) with (([head_text c; u "# lrgraph"] ++ map row_text R1) ++ [[]]). rewrite (written_app _ [[]]), <- app_assoc. reflexivity. }
      rewrite X. apply stop_middle. right. exists q. auto. }
    cbn [middle app nth_error firstn] in *. rewrite nth_error_map in NK. destruct (nth_error R2 j) as [b'|] eqn:E; [|discriminate]. injection NK as <-. rewrite firstn_map. eexists. exact (stop_rl c R1 R2 j b' q E Q).
Qed.
Lemma trained_rows c sents wl wr st : b_train c sents wl wr = Ok st ->
  rows_describe c sents wl wr (rows_of (s_lr st)) (rows_of (s_rl st)) /\ Forall row_ok (rows_of (s_lr st)) /\ Forall row_ok (rows_of (s_rl st)).
Proof.
  intros H. destruct (C81_graph c sents wl wr st H) as (G1 & G2 & NE & HP). destruct (trained_clean c sents wl wr st H) as [C1 C2].
  assert (POS : forall l r n, pattern c sents wl wr l r n -> 0 < n) by (intros l r n (_ & _ & _ & _ & _ & P); exact P).
  split; [split; [|split; [|split]]|split].
  - intros l r n. rewrite rows_pairs. apply (HP l r n).
  - intros l r n. rewrite rows_pairs. apply (HP l r n).
  - apply rows_distinct, G1.
  - apply rows_distinct, G2.
  - apply rows_ok; [exact C1|]. intros l r n I. apply (POS l r n), (proj1 (HP l r n)), I.
  - apply rows_ok; [exact C2|]. intros l r n I. apply (POS r l n), (proj2 (HP r l n)), I.
Qed.

(** Whatever initial piece of the file is there, load stops with an error that is known from the piece, or it gives the pairs of the rows that are complete and,
    from the row that is not, at most one pair, with some of the digits of its count. *)
Theorem C96_interrupted : forall c c' sents wl wr st, b_train c sents wl wr = Ok st -> exists R1 R2, rows_describe c sents wl wr R1 R2 /\
  b_save c st = written (front c ++ map row_text R1 ++ middle ++ map row_text R2) /\
  (forall p, piece p (b_save c st) -> p = b_save c st \/ exists w, stopped c R1 R2 p w) /\
  (forall p w, stopped c R1 R2 p w -> piece p (b_save c st) /\ loads c c' p w).
Proof.
  intros c c' sents wl wr st H. destruct (trained_rows c sents wl wr st H) as (RD & O1 & O2). pose proof RD as (_ & _ & D1 & D2). set (R1 := rows_of (s_lr st)) in *. set (R2 := rows_of (s_rl st)) in *. exists R1, R2.
  assert (E : b_save c st = written (front c ++ map row_text R1 ++ middle ++ map row_text R2)) by (unfold b_save; rewrite !graph_lines_rows; reflexivity).
  split; [exact RD|]. split; [exact E|]. split.
  - rewrite E. intros p P. apply every_piece; assumption.
  - assert (K1 : keyed None R1) by apply rows_keyed. assert (K2 : forall cur, keyed cur R2) by apply rows_keyed.
    assert (PW : forall A0 b B0 q, piece q b -> piece (written A0 ++ q) (written (A0 ++ b :: B0))).
    { intros A0 b B0 q [t ->]. exists (t ++ 10%N :: written B0). rewrite written_app, <- !app_assoc. f_equal. change (written ((q ++ t) :: B0)) with (((q ++ t) ++ [10%N]) ++ written B0). rewrite <- !app_assoc. reflexivity. }
    assert (SPL : forall (R : list brow) k b, nth_error R k = Some b -> exists R', R = firstn k R ++ b :: R').
    { intros R k b NK. apply nth_error_split in NK as (Ra & Rb & -> & <-). exists Rb. rewrite firstn_app, Nat.sub_diag, firstn_all, firstn_O, app_nil_r. reflexivity. }
    rewrite E. intros p w ST. destruct ST as [q P|q P|k b q NK P|q P|k b q NK P].
    + split; [apply (PW [] (head_text c) (u "# lrgraph" :: map row_text R1 ++ middle ++ map row_text R2) q P)|]. pose proof (torn_first c c' q P) as T. destruct (eqb q [] || eqb q (head_text c)); exact T.
    + split; [apply (PW [head_text c] (u "# lrgraph") (map row_text R1 ++ middle ++ map row_text R2) q P)|]. pose proof (torn_kind c c' q P) as T. destruct (eqb q []); [exact T|]. destruct (eqb q (u "# lrgraph")); [|exact T].
      cbn [loads]. eexists. split; [exact T|]. apply (loaded_kputs c c' [] []); constructor.
    + split.
      * destruct (SPL R1 k b NK) as [R' ER]. rewrite ER at 2. rewrite map_app. cbn [map]. replace (front c ++ (map row_text (firstn k R1) ++ row_text b :: map row_text R') ++ middle ++ map row_text R2) with ((front c ++ map row_text (firstn k R1)) ++ row_text b :: (map row_text R' ++ middle ++ map row_text R2)) by (rewrite <- !app_assoc; reflexivity). apply PW, P.
      * pose proof (torn_lr c c' R1 O1 K1 D1 k b q NK P) as T. cbv zeta in T. destruct (torn b q); exact T.
    + split.
      * destruct P as [->|(q' & -> & P)].
        -- rewrite app_nil_r, app_assoc, (written_app (front c ++ map row_text R1)). eexists. reflexivity.
        -- replace (written (front c ++ map row_text R1) ++ 10%N :: q') with (written ((front c ++ map row_text R1) ++ [[]]) ++ q') by (rewrite (written_app _ [[]]), <- app_assoc; reflexivity).
           replace (front c ++ map row_text R1 ++ middle ++ map row_text R2) with (((front c ++ map row_text R1) ++ [[]]) ++ u "# rlgraph" :: map row_text R2) by (unfold middle; rewrite <- !app_assoc; reflexivity). apply PW, P.
      * apply torn_middle; assumption.
    + split.
      * destruct (SPL R2 k b NK) as [R' ER]. rewrite ER at 2. rewrite map_app. cbn [map]. replace (front c ++ map row_text R1 ++ middle ++ map row_text (firstn k R2) ++ row_text b :: map row_text R') with ((front c ++ map row_text R1 ++ middle ++ map row_text (firstn k R2)) ++ row_text b :: map row_text R') by (rewrite <- !app_assoc; reflexivity). apply PW, P.
      * pose proof (torn_rl c c' R1 R2 O1 O2 K1 K2 D1 D2 k b q NK P) as T. cbv zeta in T. destruct (torn b q); exact T.
Qed.

(** So a file that a stopped save left never gives a pair that was not there; a count can only be too small, and at most one is. *)
Lemma torn_small b q more k k' m : (forall k k' n, b = PairRow k k' n -> 0 < n) -> piece q (row_text b) -> torn b q = Ok more -> In (k, k', m) more -> exists n, b = PairRow k k' n /\ 0 < m <= n.
Proof.
  intros O P. destruct b as [k0 z|k0 k0' n]; cbn [torn].
  - destruct (_ || _); [|discriminate]. intros [= <-] [].
  - destruct (_ <=? _)%nat; [intros [= <-] []|]. destruct (Nat.leb_spec (length q) (length k0' + 7)) as [_|G]; [discriminate|]. intros E I. assert (E' : more = [(k0, k0', n / 10 ^ Z.of_nat (length (format_int n) + length k0' + 7 - length q))]) by congruence. subst more. clear E. destruct I as [E|[]].
    assert (k = k0 /\ k' = k0' /\ m = n / 10 ^ Z.of_nat (length (format_int n) + length k0' + 7 - length q)) as (-> & -> & ->) by (split; [|split]; congruence). clear E. exists n. split; [reflexivity|]. pose proof (O _ _ _ eq_refl) as POS.
    assert (LQ : (length q <= length k0' + 6 + length (format_int n))%nat).
    { destruct P as [t E]. apply (f_equal (@length N)) in E. unfold row_text in E. rewrite !app_length in E. change (length (u "  - ")) with 4%nat in E. change (length (u ": ")) with 2%nat in E. lia. }
    set (j := (length (format_int n) + length k0' + 7 - length q)%nat). assert (J : (j < length (format_int n))%nat) by (unfold j; lia). clearbody j.
    pose proof (first_digits_pos n (firstn (length (format_int n) - j) (format_int n))) as FP. pose proof (first_digits_le n (firstn (length (format_int n) - j) (format_int n))) as FL.
    unfold first_digits in FP, FL. rewrite firstn_length in FP, FL. replace (length (format_int n) - Nat.min (length (format_int n) - j) (length (format_int n)))%nat with j in FP, FL by lia.
    split; [|apply FL; lia]. apply FP; try lia.
    + exists (skipn (length (format_int n) - j) (format_int n)). symmetry. apply firstn_skipn.
    + intros E. apply (f_equal (@length N)) in E. rewrite firstn_length in E. cbn [length] in E. lia.
Qed.
Lemma pair_row R k k' n : In (PairRow k k' n) R -> In (k, k', n) (pairs_of R).
Proof. intros I. unfold pairs_of. apply in_concat. exists [(k, k', n)]. split; [|left; reflexivity]. apply in_map_iff. exists (PairRow k k' n). auto. Qed.
Lemma pairs_firstn R i t : In t (pairs_of (firstn i R)) -> In t (pairs_of R).
Proof. intros I. rewrite <- (firstn_skipn i R), pairs_of_app. apply in_or_app. left. exact I. Qed.
Lemma torn_below R i b q more : (forall k k' n, In (k, k', n) (pairs_of R) -> 0 < n) -> nth_error R i = Some b -> piece q (row_text b) -> torn b q = Ok more ->
  forall k k' m, In (k, k', m) (pairs_of (firstn i R) ++ more) -> exists n, In (k, k', n) (pairs_of R) /\ 0 < m <= n.
Proof.
  intros POS NK P T k k' m I. apply in_app_or in I as [I|I]; [apply pairs_firstn in I; exists m; split; [exact I|]; pose proof (POS _ _ _ I); lia|].
  assert (IB : In b R) by (eapply nth_error_In; exact NK). destruct (torn_small b q more k k' m) as (n & E & LE); [|exact P|exact T|exact I|].
  - intros k0 k0' n E. subst b. apply (POS k0 k0' n), pair_row, IB.
  - exists n. split; [|exact LE]. subst b. apply pair_row, IB.
Qed.
Theorem C96_no_invention : forall c c' sents wl wr st p ld, b_train c sents wl wr = Ok st -> piece p (b_save c st) -> b_load c' p = Some (Ok ld) ->
  (forall k k' m, kholds (l_lr ld) k k' m -> exists l n, k = Some l /\ pattern c sents wl wr l k' n /\ 0 < m <= n) /\
  (forall k k' m, kholds (l_rl ld) k k' m -> exists r n, k = Some r /\ pattern c sents wl wr k' r n /\ 0 < m <= n) /\
  l_conf ld = mkB (b_lm c) (b_rm c) (b_mf c) (b_verbose c').
Proof.
  intros c c' sents wl wr st p ld H P L. destruct (C96_interrupted c c' sents wl wr st H) as (R1 & R2 & (RD1 & RD2 & _) & E & EV & ST).
  assert (PP : forall l r n, pattern c sents wl wr l r n -> 0 < n) by (intros l r n (_ & _ & _ & _ & _ & X); exact X).
  assert (B : exists ps1 ps2, loaded_as c c' ld ps1 ps2 /\ (forall k k' m, In (k, k', m) ps1 -> exists n, In (k, k', n) (pairs_of R1) /\ 0 < m <= n) /\ (forall k k' m, In (k, k', m) ps2 -> exists n, In (k, k', n) (pairs_of R2) /\ 0 < m <= n)).
  { assert (POS1 : forall k k' n, In (k, k', n) (pairs_of R1) -> 0 < n) by (intros k k' n I; apply (PP k k' n), RD1, I). assert (POS2 : forall k k' n, In (k, k', n) (pairs_of R2) -> 0 < n) by (intros k k' n I; apply (PP k' k n), RD2, I).
    assert (WH1 : forall k k' m, In (k, k', m) (pairs_of R1) -> exists n, In (k, k', n) (pairs_of R1) /\ 0 < m <= n) by (intros k k' m I; exists m; split; [exact I|]; specialize (POS1 _ _ _ I); lia).
    assert (NO : forall R, forall k k' m, In (k, k', m) (@nil pair3) -> exists n, In (k, k', n) (pairs_of R) /\ 0 < m <= n) by (intros R k k' m []).
    destruct (EV p P) as [->|[w W]].
    - exists (pairs_of R1), (pairs_of R2). destruct (C82_save_load c sents wl wr st c' H) as (ld' & L' & Q1 & Q2 & Q3 & Q4 & Q5 & Q6 & Q7 & Q8 & Q9 & Q10). assert (ld' = ld) by congruence. subst ld'. split; [|split; [exact WH1|]].
      + assert (CO : forall g R, NoDup (dkeys g) -> (forall k k' n, kholds g k k' n <-> exists l, k = Some l /\ In (l, k', n) (pairs_of R)) -> consists_of g (pairs_of R)) by (intros g R N1 N2; split; assumption).
        split; [destruct (l_conf ld) as [x1 x2 x3 x4]; cbn in *; congruence|]. split; [apply CO; [exact Q6|]|]. { intros k k' n. rewrite Q5. split; intros (l & -> & I); exists l; (split; [reflexivity|]); apply RD1, I. }
        split; [apply CO; [exact Q8|]|]. { intros k k' n. rewrite Q7. split; intros (l & -> & I); exists l; (split; [reflexivity|]); apply RD2, I. }
        split; intros k; [rewrite Q9|rewrite Q10]; split.
        * intros (l & r & n & -> & I). exists l, r, n. split; [reflexivity|]. apply RD1, I.
        * intros (l & r & n & -> & I). exists l, r, n. split; [reflexivity|]. apply RD1, I.
        * intros (l & r & n & -> & I). exists r, l, n. split; [reflexivity|]. apply RD2, I.
        * intros (r & l & n & -> & I). exists l, r, n. split; [reflexivity|]. apply RD2, I.
      + intros k k' m I. exists m. split; [exact I|]. specialize (POS2 _ _ _ I). lia.
    - destruct (ST p w W) as [_ LD]. unfold loads in LD. destruct w as [[[ps1 ps2]|e]|]; [|congruence|congruence]. destruct LD as (ld' & L' & LA). assert (ld' = ld) by congruence. subst ld'. exists ps1, ps2. split; [exact LA|]. clear LA L L'.
      remember (Some (Ok (ps1, ps2))) as w eqn:EW. destruct W as [q Q|q Q|i b q NK Q|q Q|i b q NK Q].
      + destruct (_ || _) in EW; discriminate.
      + destruct (eqb q []) in EW; [discriminate|]. destruct (eqb q (u "# lrgraph")) in EW; [|discriminate]. assert (ps1 = [] /\ ps2 = []) as [-> ->] by (split; congruence). split; apply NO.
      + destruct (torn b q) as [more|] eqn:T; [|discriminate]. cbn [bind] in EW. assert (ps1 = pairs_of (firstn i R1) ++ more /\ ps2 = []) as [-> ->] by (split; congruence). split; [|apply NO]. eapply torn_below; eassumption.
      + assert (ps1 = pairs_of R1 /\ ps2 = []) as [-> ->] by (split; congruence). split; [exact WH1|apply NO].
      + destruct (torn b q) as [more|] eqn:T; [|discriminate]. cbn [bind] in EW. assert (ps1 = pairs_of R1 /\ ps2 = pairs_of (firstn i R2) ++ more) as [-> ->] by (split; congruence). split; [exact WH1|]. eapply torn_below; eassumption. }
  destruct B as (ps1 & ps2 & (LC & [_ C1] & [_ C2] & _ & _) & B1 & B2). split; [|split; [|exact LC]]; intros k k' m I.
  - apply C1 in I as (l & -> & I). apply B1 in I as (n & I & LE). exists l, n. split; [reflexivity|]. split; [apply RD1, I|exact LE].
  - apply C2 in I as (l & -> & I). apply B2 in I as (n & I & LE). exists l, n. split; [reflexivity|]. split; [apply RD2, I|exact LE].
Qed.

(** empty lines behind the first two do not matter, in whatever file *)
Lemma blank_row A0 B0 : forall kg, (do lr <- load_lr kg (A0 ++ [[10%N]] ++ B0); load_rl (fst (fst lr), []) (snd lr)) = (do lr <- load_lr kg (A0 ++ B0); load_rl (fst (fst lr), []) (snd lr)) /\
  (do lr <- load_lr kg (A0 ++ [[10%N]] ++ B0); Ok (fst lr)) = (do lr <- load_lr kg (A0 ++ B0); Ok (fst lr)).
Proof.
  assert (RL : forall A1 kg, load_rl kg (A1 ++ [[10%N]] ++ B0) = load_rl kg (A1 ++ B0)).
  { induction A1 as [|r A1 IH]; intros kg; [reflexivity|]. cbn [app load_rl]. cbv zeta. destruct (eqb (removelast r) []); [apply IH|]. destruct (load_row kg (removelast r)); [apply IH|reflexivity]. }
  induction A0 as [|r A0 IH]; intros kg; [split; reflexivity|]. cbn [app load_lr]. cbv zeta. destruct (eqb (removelast r) []); [apply IH|]. destruct (eqb (removelast r) (u "# rlgraph")).
  - cbn [bind fst snd]. split; [apply RL|reflexivity].
  - destruct (load_row kg (removelast r)); [apply IH|split; reflexivity].
Qed.
Theorem C96_blank_lines : forall c f k X Y, Forall no_nl (f :: k :: X ++ Y) -> b_load c (written (f :: k :: X ++ [[]] ++ Y)) = b_load c (written (f :: k :: X ++ Y)).
Proof.
  intros c f k X Y FX. assert (C : forall L, Forall no_nl L -> file_lines (written L) = map (fun b => b ++ [10%N]) L).
  { intros L FL. pose proof (cut_lines L [] FL (Forall_nil _)) as E. unfold written. rewrite !app_nil_r in E. exact E. }
  unfold b_load. rewrite (C (f :: k :: X ++ Y) FX), (C (f :: k :: X ++ [[]] ++ Y)).
  2: { inversion FX as [|? ? F1 FX1]; subst. inversion FX1 as [|? ? F2 FX2]; subst. apply Forall_app in FX2 as [F3 F4]. constructor; [exact F1|]. constructor; [exact F2|]. apply Forall_app. split; [exact F3|]. constructor; [constructor|exact F4]. }
  cbn [map]. rewrite !map_app. change (map (fun b => b ++ [10%N]) [[]]) with [[10%N]]. destruct (mapM parse_int _) as [[|y1 [|y2 [|y3 [|y4 [|y5 ys]]]]]|]; try reflexivity. destruct (eqb _ _); [|reflexivity].
  destruct (blank_row (map (fun b => b ++ [10%N]) X) (map (fun b => b ++ [10%N]) Y) (None, [])) as [E1 E2]. cbn [app] in *.
  destruct (load_lr (None, []) (map (fun b => b ++ [10%N]) X ++ [10%N] :: map (fun b => b ++ [10%N]) Y)) as [lr1|e1], (load_lr (None, []) (map (fun b => b ++ [10%N]) X ++ map (fun b => b ++ [10%N]) Y)) as [lr2|e2]; cbn [bind] in *; try congruence.
  assert (E3 : fst lr1 = fst lr2) by congruence. rewrite E1, E3. reflexivity.
Qed.

(** but a stopped save need not be noticed: the file is shortened by a newline and a digit, load succeeds, and a count is 1 instead of 12 *)
Definition bc_conf : bconf := mkB 2 2 1 false.
Definition bc_sents : list str := repeat (u "나") 12.
Definition bc_st : bstate := match b_train bc_conf bc_sents [] [] with Ok st => st | Err _ => mkBS [] [] [] [] end.
Theorem C96_detected_refuted : exists c sents st p ld, b_train c sents [] [] = Ok st /\ piece p (b_save c st) /\ p <> b_save c st /\ b_load c p = Some (Ok ld) /\
  pattern c sents [] [] (u "나") [] 12 /\ kholds (l_rl ld) (Some []) (u "나") 1.
Proof.
  exists bc_conf, bc_sents, bc_st, (firstn (length (b_save bc_conf bc_st) - 1) (b_save bc_conf bc_st)). eexists. assert (T : b_train bc_conf bc_sents [] [] = Ok bc_st) by (vm_compute; reflexivity). split; [exact T|]. split; [exists [10%N]; vm_compute; reflexivity|]. split; [vm_compute; discriminate|]. split; [vm_compute; reflexivity|].
  split; [apply (proj1 (proj1 (proj2 (proj2 (proj2 (C81_graph bc_conf bc_sents [] [] bc_st T))) (u "나") [] 12))); exists [([], 12)]; split; vm_compute; auto|]. exists [(u "나", 1)]. split; vm_compute; auto.
Qed.
(** a file cut inside a heading is refused, one cut behind a heading is not *)
Example C96_example : b_train (mkB 3 4 2 false) bx_sents [] [] = Ok bx_st /\
  b_load b_default (firstn 22 (b_save (mkB 3 4 2 false) bx_st)) = Some (Err ValueError) /\ (exists ld, b_load b_default (firstn 25 (b_save (mkB 3 4 2 false) bx_st)) = Some (Ok ld)).
Proof. split; [vm_compute; reflexivity|]. split; [vm_compute; reflexivity|]. eexists. vm_compute. reflexivity. Qed.
Print Assumptions C96_interrupted.
Print Assumptions C96_no_invention.
Print Assumptions C96_detected_refuted.
Print Assumptions C96_blank_lines.
