(** * Proofs about the objects of class WordExtractor *)
From Coq Require Import Reals QArith.
From Verif Require Import PyBase PyDict PyText CountLemmas WordModel WordSpec WordProofs WordProofs2 WordProofs3 WordSaveModel WordSaveSpec.
Open Scope Z_scope.

Lemma put_nth {A} (l : list A) i j v : (i < length l)%nat -> nth_error (put l i v) j = if (j =? i)%nat then Some v else nth_error l j.
Proof.
  revert l j. induction i as [|i IH]; intros l j L; destruct l as [|x l]; cbn [length] in L; try lia; unfold put; cbn [firstn skipn app].
  - destruct j; reflexivity.
  - destruct j as [|j]; [reflexivity|]. cbn [nth_error Nat.eqb]. apply IH. lia.
Qed.
Lemma put_length {A} (l : list A) i v : (i < length l)%nat -> length (put l i v) = length l.
Proof. revert l. induction i as [|i IH]; intros l L; destruct l as [|x l]; cbn [length] in L; try lia; unfold put; cbn [firstn skipn app length]; [reflexivity|]. f_equal. apply IH. lia. Qed.
Lemma put_Forall {A} (P : A -> Prop) l i v : Forall P l -> P v -> Forall P (put l i v).
Proof.
  intros F V. unfold put. apply Forall_app. split; [rewrite <- (firstn_skipn i l) in F; apply Forall_app in F; tauto|]. rewrite <- (firstn_skipn i l) in F. apply Forall_app in F as [_ F]. destruct F; constructor; auto.
Qed.
Lemma nth_put_len {A} (l : list A) i v : nth_error l i = Some v -> (i < length l)%nat. Proof. intros H. apply nth_error_Some. congruence. Qed.

(** ** invariant of the worlds: counters, kinds, files *)
Definition good_kinds (e : ext) : Prop := e_kind_a e <> KLambda.
Definition saved_ok (f : file) : Prop := match f with FBroken => True | FPickle e absent => absent = [] /\ Inv (e_x e) /\ picklable (e_kind e) = true /\ e_kind_a e <> KLambda end.
Definition winv (W : world) : Prop := Forall (fun e => Inv (e_x e) /\ e_kind_a e <> KLambda) (w_exts W) /\ forall name f, dget (w_files W) name = Some f -> saved_ok f.
Lemma base_Inv x cm : Inv x -> Inv (base x cm). Proof. intros I. unfold base. destruct cm; [exact I|apply Inv_empty]. Qed.
Lemma train_obj_Inv e c nfp cm : Inv (e_x e) /\ e_kind_a e <> KLambda -> Inv (e_x (fst (train_obj e c nfp cm))) /\ e_kind_a (fst (train_obj e c nfp cm)) <> KLambda.
Proof.
  intros [I K]. unfold train_obj. destruct (_ <=? 0); [auto|]. cbv zeta. pose proof (base_Inv (e_x e) cm I) as I0. fold (base (e_x e) cm). pose proof (Inv_loop nfp (c_yields c) (base (e_x e) cm) 0 I0) as I1. set (y := train_loop nfp (base (e_x e) cm) 0 (c_yields c)) in *. clearbody y.
  destruct (c_fails c); cbn [fst e_x e_kind_a]; (split; [|discriminate]); [exact I1|]. apply (Inv_prune_a _ (Inv_prune _ I1)).
Qed.
Lemma run_all f e : run_steps [] f load_steps e = (f, None).
Proof. destruct f as [[a b c d m n o] k ka v [t1 t2 t3 t4 t5 t6 t7 t8]]. reflexivity. Qed.
Lemma wstep_inv W o : winv W -> winv (fst (wstep W o)).
Proof.
  intros [WE WF]. destruct o as [ml mr mf v th c|i c nfp cm|i name|i name]; cbn [wstep].
  - assert (N0 : Inv (e_x (new_ext ml mr mf v th)) /\ e_kind_a (new_ext ml mr mf v th) <> KLambda) by (split; [apply Inv_empty|discriminate]).
    assert (X : forall e r, construct ml mr mf v th c = (e, r) -> Inv (e_x e) /\ e_kind_a e <> KLambda).
    { intros e r E. unfold construct in E. destruct (_ =? 0); [injection E as <- _; exact N0|]. replace e with (fst (train_obj (new_ext ml mr mf v th) c 0 true)) by (rewrite E; reflexivity). apply train_obj_Inv, N0. }
    destruct (construct ml mr mf v th c) as [e [err|]] eqn:E; cbn [fst]; [split; assumption|]. split; cbn [w_exts w_files]; [|exact WF]. apply Forall_app. split; [exact WE|]. constructor; [|constructor]. eapply X. reflexivity.
  - destruct (nth_error (w_exts W) i) as [e|] eqn:NE; [|split; assumption]. pose proof (train_obj_Inv e c nfp cm) as T. destruct (train_obj e c nfp cm) as [e' r]. cbn [fst] in T |- *. split; cbn [w_exts w_files]; [|exact WF]. apply put_Forall; [exact WE|]. apply T. rewrite Forall_forall in WE. apply WE. eapply nth_error_In; exact NE.
  - destruct (nth_error (w_exts W) i) as [e|] eqn:NE; [|split; assumption]. destruct (save_obj e) as [f r] eqn:SV. cbn [fst]. split; cbn [w_exts w_files]; [exact WE|].
    intros name' f'. rewrite dget_dset. destruct (eqb_spec name name') as [->|NQ]; cbv iota.
    + intros [= <-]. assert (IE : Inv (e_x e) /\ e_kind_a e <> KLambda) by (rewrite Forall_forall in WE; apply WE; eapply nth_error_In; exact NE).
      unfold save_obj in SV. destruct (picklable (e_kind e)) eqn:P1; cbn [andb] in SV; [|injection SV as <- _; exact Logic.I]. destruct (picklable (e_kind_a e)) eqn:P2; injection SV as <- _; [|exact Logic.I]. cbn [saved_ok]. tauto.
    + apply WF.
  - destruct (nth_error (w_exts W) i) as [e|] eqn:NE; [|split; assumption]. assert (IE : Inv (e_x e) /\ e_kind_a e <> KLambda) by (rewrite Forall_forall in WE; apply WE; eapply nth_error_In; exact NE).
    unfold load_obj. destruct (dget (w_files W) name) as [f|] eqn:G; [pose proof (WF name f G) as SO; destruct f as [fe absent|]; cbn [saved_ok] in SO|]; cbn [fst].
    + destruct SO as (-> & I & _ & K). rewrite run_all. cbn [fst]. split; cbn [w_exts w_files]; [|exact WF]. apply put_Forall; auto.
    + split; cbn [w_exts w_files]; [|exact WF]. apply put_Forall; auto.
    + split; cbn [w_exts w_files]; [|exact WF]. apply put_Forall; auto.
Qed.
Lemma wrun_inv ops : forall W, winv W -> winv (wrun W ops).
Proof. induction ops as [|o ops IH]; intros W I; [exact I|]. cbn [wrun fold_left]. apply IH, wstep_inv, I. Qed.
Lemma winv_empty : winv wempty. Proof. split; [constructor|]. intros name f. discriminate. Qed.
Lemma extractor_Inv e : extractor e -> Inv (e_x e) /\ e_kind_a e <> KLambda.
Proof. intros (ops & i & N). pose proof (wrun_inv ops wempty winv_empty) as [WE _]. rewrite Forall_forall in WE. apply WE. eapply nth_error_In; exact N. Qed.
(** ** the kind of L and R *)
Lemma loop_kind_lambda nfp sents : forall k i, 0 <= i -> loop_kind nfp k i sents = KLambda <-> k = KLambda \/ (0 < nfp /\ exists j s, nth_error sents j = Some s /\ (i + Z.of_nat j) mod nfp = 0 /\ (2 <= length (split s))%nat).
Proof.
  induction sents as [|s ss IH]; intros k i P; cbn [loop_kind].
  - split; [auto|]. intros [H|(_ & j & s & H & _)]; [exact H|]. destruct j; discriminate.
  - rewrite IH by lia. set (b := negb (length (split s) <=? 1)%nat && ((nfp >? 0) && (i mod nfp =? 0))).
    assert (B : b = true <-> 0 < nfp /\ i mod nfp = 0 /\ (2 <= length (split s))%nat).
    { unfold b. rewrite !andb_true_iff, negb_true_iff, Nat.leb_gt, Z.gtb_lt, Z.eqb_eq. split; intros (H1 & H2 & H3); repeat split; auto; lia. }
    split.
    + intros [H|(N & j & s' & E & M & L)]; [destruct b eqn:EB|].
      * apply proj1 in B. destruct (B eq_refl) as (N & M & L). right. split; [exact N|]. exists 0%nat, s. split; [reflexivity|]. rewrite Z.add_0_r. auto.
      * left. exact H.
      * right. split; [exact N|]. exists (S j), s'. split; [exact E|]. split; [|exact L]. rewrite <- M. f_equal. lia.
    + intros [->|(N & j & s' & E & M & L)]; [destruct b; left; reflexivity|]. destruct j as [|j].
      * cbn [nth_error] in E. assert (s' = s) by congruence. subst s'. rewrite Z.add_0_r in M. replace b with true; [left; reflexivity|]. symmetry. apply B. auto.
      * right. split; [exact N|]. exists j, s'. split; [exact E|]. split; [|exact L]. rewrite <- M. f_equal. lia.
Qed.
Lemma loop_kind_prunes nfp sents : loop_kind nfp KInt 0 sents = KLambda <-> prunes nfp sents.
Proof. rewrite loop_kind_lambda by lia. unfold prunes. cbn [Z.add]. split; [intros [H|H]; [discriminate|exact H]|auto]. Qed.
