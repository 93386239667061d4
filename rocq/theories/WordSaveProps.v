(** * C97, C98: trainings of WordExtractor that fail part way; save and load *)
From Coq Require Import Reals QArith.
From Verif Require Import PyBase PyDict PyText CountLemmas WordModel WordSpec WordProofs WordProofs2 WordProofs3 WordProofs4 WordProofs5 WordProofs6 WordSaveModel WordSaveSpec WordSaveProofs.
Open Scope Z_scope.

(** ** C97 *)
Theorem C97_outcome : forall e c nfp cm, snd (train_obj e c nfp cm) = (if c_len c <=? 0 then Some ValueError else c_fails c) /\
  (c_len c <= 0 -> fst (train_obj e c nfp cm) = e).
Proof. intros e c nfp cm. unfold train_obj. destruct (Z.leb_spec (c_len c) 0); [split; auto|]. cbv zeta. destruct (c_fails c); (split; [reflexivity|lia]). Qed.
(** a training that ends normally is the training of C38 *)
Theorem C97_completed : forall e c nfp cm, c_len c = Z.of_nat (length (c_yields c)) -> c_fails c = None ->
  match train (e_x e) (c_yields c) nfp cm with Ok y => e_x (fst (train_obj e c nfp cm)) = y | Err err => snd (train_obj e c nfp cm) = Some err end.
Proof.
  intros e [n ss [err|]] nfp cm; cbn [c_len c_yields c_fails]; intros L F; [discriminate|]. unfold train, train_obj. cbn [c_len c_yields c_fails]. destruct ss as [|s ss].
  - subst n. reflexivity.
  - destruct (Z.leb_spec n 0) as [H|H]; [cbn [length] in L; lia|]. reflexivity.
Qed.
(** what a training that fails leaves: the counts of the sentences before the failure on top of what was there, and no minimum frequency is applied to them;
    pruning while it reads can forget a prefix, as in a training that succeeds *)
Theorem C97_failed : forall e c nfp cm err w, extractor e -> 0 < c_len c -> c_fails c = Some err ->
  let e' := fst (train_obj e c nfp cm) in let ss := c_yields c in
  let fwd sents := if len_in w (max_left (e_x e) + 1) then n_prefix w sents else 0 in let bwd sents := if len_in w (max_right (e_x e)) then n_suffix w sents else 0 in
  (nfp <= 0 -> frequency (e_x e') w = ((if cm then fst (frequency (e_x e) w) else 0) + fwd ss, (if cm then snd (frequency (e_x e) w) else 0) + bwd ss)) /\
  (0 < nfp -> (fst (frequency (e_x e') w) = (if cm then fst (frequency (e_x e) w) else 0) + fwd ss \/
      exists j, (1 <= j <= length ss)%nat /\ (Z.of_nat j - 1) mod nfp = 0 /\ fst (frequency (e_x e') w) = fwd (skipn j ss)) /\
    (snd (frequency (e_x e') w) = (if cm then snd (frequency (e_x e) w) else 0) + bwd ss \/
      exists j, (1 <= j <= length ss)%nat /\ (Z.of_nat j - 1) mod nfp = 0 /\ snd (frequency (e_x e') w) = bwd (skipn j ss))) /\
  max_left (e_x e') = max_left (e_x e) /\ max_right (e_x e') = max_right (e_x e) /\ min_freq (e_x e') = min_freq (e_x e) /\ e_verbose e' = e_verbose e /\ e_th e' = e_th e.
Proof.
  intros e c nfp cm err w X L F. cbv zeta. destruct (extractor_Inv e X) as [I _]. unfold train_obj. destruct (Z.leb_spec (c_len c) 0) as [H|_]; [lia|]. cbv zeta. rewrite F. cbn [fst e_x e_verbose e_th].
  fold (base (e_x e) cm). pose proof (base_Inv (e_x e) cm I) as IB. assert (PB : params (base (e_x e) cm) = params (e_x e)) by (unfold base; destruct cm; reflexivity).
  pose proof (train_loop_params nfp (c_yields c) (base (e_x e) cm) 0) as PL. rewrite PB in PL. injection PL as Q1 Q2 Q3. injection PB as P1 P2 P3.
  assert (B1 : dgetd (wL (base (e_x e) cm)) w 0 = if cm then dgetd (wL (e_x e)) w 0 else 0) by (unfold base; destruct cm; reflexivity).
  assert (B2 : dgetd (wR (base (e_x e) cm)) w 0 = if cm then dgetd (wR (e_x e)) w 0 else 0) by (unfold base; destruct cm; reflexivity).
  unfold frequency. cbn [fst snd]. split; [|split; [|auto 6]]; intros N.
  - destruct (loop_plain nfp (c_yields c) N (base (e_x e) cm) 0 IB) as [A B]. rewrite A, B, P1, P2, B1, B2. reflexivity.
  - destruct (loop_pruned nfp (c_yields c) (base (e_x e) cm) 0 IB) as [A B]. specialize (A w). specialize (B w). rewrite P1, B1 in A. rewrite P2, B2 in B. split.
    + destruct A as [A|(j & J & PJ & A)]; rewrite A; [left; reflexivity|right]. exists j. unfold pruned_at in PJ. apply andb_prop in PJ as [_ PJ]. apply Z.eqb_eq in PJ. rewrite Z.add_0_l in PJ. repeat split; auto; lia.
    + destruct B as [B|(j & J & PJ & B)]; rewrite B; [left; reflexivity|right]. exists j. unfold pruned_at in PJ. apply andb_prop in PJ as [_ PJ]. apply Z.eqb_eq in PJ. rewrite Z.add_0_l in PJ. repeat split; auto; lia.
Qed.
(** so accessor variety and branching entropy count neighbours that occurred once, too *)
Theorem C97_failed_neighbours : forall e c nfp err w, extractor e -> 0 < c_len c -> c_fails c = Some err -> nfp <= 0 ->
  let y := e_x (fst (train_obj e c nfp false)) in let ss := c_yields c in
  exists Lin Lout Rin Rout, NoDup Lin /\ NoDup Lout /\ NoDup Rin /\ NoDup Rout /\
    (forall c, In c Lin <-> len_in (c :: w) (max_right (e_x e)) = true /\ 1 <= n_suffix (c :: w) ss) /\ (forall c, In c Lout <-> 1 <= n_after (max_left (e_x e)) w c ss) /\
    (forall c, In c Rin <-> len_in (w ++ [c]) (max_left (e_x e) + 1) = true /\ 1 <= n_prefix (w ++ [c]) ss) /\ (forall c, In c Rout <-> 1 <= n_before (max_right (e_x e)) w c ss) /\
    accessor_variety y w = (Z.of_nat (length Lin + length Lout), Z.of_nat (length Rin + length Rout)) /\
    branching_entropy y w = (shannon (map (fun c => n_suffix (c :: w) ss) Lin ++ map (fun c => n_after (max_left (e_x e)) w c ss) Lout),
       shannon (map (fun c => n_prefix (w ++ [c]) ss) Rin ++ map (fun c => n_before (max_right (e_x e)) w c ss) Rout)).
Proof.
  intros e c nfp err w X L F N y ss. pose proof (extractor_Inv e X) as [I _].
  assert (FR : forall w, frequency y w = (if len_in w (max_left (e_x e) + 1) then n_prefix w ss else 0, if len_in w (max_right (e_x e)) then n_suffix w ss else 0)).
  { intros v. destruct (C97_failed e c nfp false err v X L F) as [H _]. exact (H N). }
  assert (FL : forall w, dgetd (wL y) w 0 = if len_in w (max_left (e_x e) + 1) then n_prefix w ss else 0) by (intros v; specialize (FR v); injection FR as F1 _; exact F1).
  assert (FRr : forall w, dgetd (wR y) w 0 = if len_in w (max_right (e_x e)) then n_suffix w ss else 0) by (intros v; specialize (FR v); injection FR as _ F2; exact F2). clear FR.
  assert (Y : y = train_loop nfp (base (e_x e) false) 0 ss). { unfold y, train_obj. destruct (Z.leb_spec (c_len c) 0) as [H|_]; [lia|]. cbv zeta. rewrite F. reflexivity. }
  pose proof (base_Inv (e_x e) false I) as IB. assert (Iy : Inv y) by (rewrite Y; apply Inv_loop, IB).
  destruct (loop_a nfp ss (base (e_x e) false) 0 IB) as [GA GB]. rewrite <- Y in GA, GB. cbn [base wL wR waL waR max_left max_right min_freq] in GA, GB.
  assert (GA' : forall w c, dgetd (waL y) (w ++ [SP; c]) 0 = n_before (max_right (e_x e)) w c ss) by (intros v a; rewrite GA; unfold dgetd; cbn [dget]; lia).
  assert (GB' : forall w c, dgetd (waR y) (c :: SP :: w) 0 = n_after (max_left (e_x e)) w c ss) by (intros v a; rewrite GB; unfold dgetd; cbn [dget]; lia). clear GA GB Y.
  clearbody y. destruct (left_chars y w Iy) as (C1 & C2 & N1 & N2 & M1 & M2 & E12). destruct (right_chars y w Iy) as (C3 & C4 & N3 & N4 & M3 & M4 & E34).
  assert (X1 : forall c, In c C1 <-> len_in (c :: w) (max_right (e_x e)) = true /\ 1 <= n_suffix (c :: w) ss).
  { intros a. rewrite M1, FRr. destruct (len_in (a :: w) (max_right (e_x e))); [split; [intros H; split; [reflexivity|lia]|intros [_ H]; lia]|split; [lia|intros [H _]; discriminate]]. }
  assert (X3 : forall c, In c C3 <-> len_in (w ++ [c]) (max_left (e_x e) + 1) = true /\ 1 <= n_prefix (w ++ [c]) ss).
  { intros a. rewrite M3, FL. destruct (len_in (w ++ [a]) (max_left (e_x e) + 1)); [split; [intros H; split; [reflexivity|lia]|intros [_ H]; lia]|split; [lia|intros [H _]; discriminate]]. }
  assert (X2 : forall c, In c C2 <-> 1 <= n_after (max_left (e_x e)) w c ss) by (intros a; rewrite M2, GB'; lia).
  assert (X4 : forall c, In c C4 <-> 1 <= n_before (max_right (e_x e)) w c ss) by (intros a; rewrite M4, GA'; lia).
  exists C1, C2, C3, C4. repeat (split; [assumption|]). split.
  - unfold accessor_variety. pose proof (f_equal (@length Z) E12) as L1. pose proof (f_equal (@length Z) E34) as L2. rewrite map_length, app_length, !map_length in L1, L2. rewrite L1, L2. reflexivity.
  - unfold branching_entropy. rewrite !entropy_shannon, E12, E34. f_equal; f_equal; f_equal; apply map_ext_in; intros a J.
    + rewrite FRr. apply X1 in J. destruct J as [J _]. rewrite J. reflexivity.
    + apply GB'.
    + rewrite FL. apply X3 in J. destruct J as [J _]. rewrite J. reflexivity.
    + apply GA'.
Qed.
(** training again: with cumulate=False as if nothing had been; with cumulate=True (the default) the sentences before the failure count once more *)
Theorem C97_again_afresh : forall e c nfp, let n := new_ext (max_left (e_x e)) (max_right (e_x e)) (min_freq (e_x e)) (e_verbose e) (e_th e) in
  0 < c_len c -> train_obj e c nfp false = train_obj n c nfp false /\ train_obj n c nfp false = train_obj n c nfp true.
Proof. intros e c nfp n L. unfold train_obj. destruct (Z.leb_spec (c_len c) 0) as [H|_]; [lia|]. split; reflexivity. Qed.
Theorem C97_again_cumulated : forall e c1 c2 err cm w, extractor e -> 0 < c_len c1 -> c_fails c1 = Some err -> 0 < c_len c2 -> c_fails c2 = None ->
  let e' := fst (train_obj (fst (train_obj e c1 0 cm)) c2 0 true) in let mf := min_freq (e_x e) in
  let fwd sents := if len_in w (max_left (e_x e) + 1) then n_prefix w sents else 0 in let bwd sents := if len_in w (max_right (e_x e)) then n_suffix w sents else 0 in
  frequency (e_x e') w = (at_least mf ((if cm then fst (frequency (e_x e) w) else 0) + fwd (c_yields c1) + fwd (c_yields c2)),
                          at_least mf ((if cm then snd (frequency (e_x e) w) else 0) + bwd (c_yields c1) + bwd (c_yields c2))).
Proof.
  intros e c1 c2 err cm w X L1 F1 L2 F2 e' mf fwd bwd. destruct (C97_failed e c1 0 cm err w X L1 F1) as (H & _ & P1 & P2 & P3 & _). specialize (H ltac:(lia)). pose proof (extractor_Inv e X) as IK.
  pose proof (train_obj_Inv e c1 0 cm IK) as [I1 _]. unfold e'. clear e'. set (e1 := fst (train_obj e c1 0 cm)) in *. clearbody e1. unfold train_obj. destruct (Z.leb_spec (c_len c2) 0) as [Q|_]; [lia|]. cbv zeta. rewrite F2. cbn [fst e_x].
  destruct (loop_plain 0 (c_yields c2) ltac:(lia) (e_x e1) 0 I1) as [A B]. pose proof (train_loop_params 0 (c_yields c2) (e_x e1) 0) as PL. injection PL as Q1 Q2 Q3. pose proof (Inv_loop 0 (c_yields c2) (e_x e1) 0 I1) as I2.
  unfold frequency in *. cbn [wL wR fst snd] in *. rewrite !prune_getd by apply I2. rewrite A, B. assert (H1 : dgetd (wL (e_x e1)) w 0 = (if cm then dgetd (wL (e_x e)) w 0 else 0) + fwd (c_yields c1)) by (unfold fwd; congruence).
  assert (H2 : dgetd (wR (e_x e1)) w 0 = (if cm then dgetd (wR (e_x e)) w 0 else 0) + bwd (c_yields c1)) by (unfold bwd; congruence). rewrite H1, H2, Q3, P1, P2, P3. reflexivity.
Qed.
Definition x_th : thresholds Q := mkTh (1#20) 0%Q 0%Q 0%Q 0 0 (49#50) false.
Definition x_new : ext := new_ext 10 6 2 100000 x_th.
Definition x_c : corpus := mkC 3 [u "아이는 아이가"; u "노래를 봤다"] (Some AttributeError).
Definition x_failed : ext := fst (train_obj x_new x_c 0 true).
Lemma x_new_extractor : extractor x_new. Proof. exists [WNew 10 6 2 100000 x_th (mkC 0 [] None)], 0%nat. reflexivity. Qed.
Lemma x_failed_extractor : extractor x_failed. Proof. exists [WNew 10 6 2 100000 x_th (mkC 0 [] None); WTrain 0 x_c 0 true], 0%nat. reflexivity. Qed.
Example C97_example : train_obj x_new x_c 0 true = (x_failed, Some AttributeError) /\ frequency (e_x x_failed) (u "아이") = (2, 0) /\ accessor_variety (e_x x_failed) (u "아이") = (2, 2).
Proof. vm_compute. repeat split. Qed.
(** refuted: every word is at least as frequent as min_frequency *)
Theorem C97_minimum_frequency_refuted : exists e w, extractor e /\ In w (words (e_x e)) /\ frequency (e_x e) w = (1, 0) /\ min_freq (e_x e) = 2.
Proof. exists x_failed, (u "노래"). split; [exact x_failed_extractor|]. vm_compute. intuition. Qed.
(** refuted: after a failure, training on the whole corpus gives what it would have given at first *)
Theorem C97_again_refuted : exists e c1 c2 err w, extractor e /\ snd (train_obj e c1 0 true) = Some err /\ snd (train_obj e c2 0 true) = None /\
  frequency (e_x (fst (train_obj (fst (train_obj e c1 0 true)) c2 0 true))) w <> frequency (e_x (fst (train_obj e c2 0 true))) w.
Proof. exists x_new, x_c, (mkC 3 [u "아이는 아이가"; u "노래를 봤다"; u "봤다"] None), AttributeError, (u "노래"). split; [exact x_new_extractor|]. vm_compute. intuition discriminate. Qed.

(** ** C98 *)
Lemma calls_app W a b : calls W (a ++ b) = calls W a ++ calls (wrun W a) b.
Proof. revert W. induction a as [|o a IH]; intros W; [reflexivity|]. cbn [app calls wrun fold_left]. rewrite IH. reflexivity. Qed.
Lemma wrun_snoc W ops o : wrun W (ops ++ [o]) = fst (wstep (wrun W ops) o).
Proof. unfold wrun. rewrite fold_left_app. reflexivity. Qed.
Lemma taint_kind ops : forall i, match nth_error (w_exts (wrun wempty ops)) i with Some e => e_kind e = KLambda <-> tainted ops i | None => ~ tainted ops i end.
Proof.
  unfold tainted. induction ops as [|o ops IH] using rev_ind; intros i; [destruct i; exact (fun H => H)|].
  rewrite wrun_snoc, calls_app, fold_left_app. cbn [calls fold_left]. pose proof (wrun_inv ops wempty winv_empty) as WI. set (W := wrun wempty ops) in *. set (P := fold_left taint (calls wempty ops) (fun _ => False)) in *. clearbody W P. destruct WI as [_ WF].
  destruct o as [ml mr mf v th c|j c nfp cm|j name|j name]; cbn [wstep].
  - assert (X : forall e r, construct ml mr mf v th c = (e, r) -> r = None -> e_kind e <> KLambda).
    { intros e r E R. subst r. unfold construct in E. destruct (_ =? 0); [injection E as <-; discriminate|]. unfold train_obj in E. destruct (_ <=? 0); [discriminate|]. cbv zeta in E. destruct (c_fails c); [discriminate|]. injection E as <-. discriminate. }
    assert (Q : forall r, taint P (WNew ml mr mf v th c, outcome_of r) i = P i) by (intros [r|]; reflexivity).
    destruct (construct ml mr mf v th c) as [e [err|]] eqn:E; cbn [fst snd]; rewrite Q; [apply IH|]. cbn [w_exts]. specialize (IH i). specialize (X e None eq_refl eq_refl).
    destruct (Nat.lt_trichotomy i (length (w_exts W))) as [L|[EQ|G]].
    + rewrite nth_error_app1 by exact L. exact IH.
    + rewrite nth_error_app2 by lia. replace (i - length (w_exts W))%nat with 0%nat by lia. cbn [nth_error]. rewrite (proj2 (nth_error_None (w_exts W) i)) in IH by lia. tauto.
    + rewrite nth_error_app2 by lia. destruct (i - length (w_exts W))%nat as [|k] eqn:D; [lia|]. cbn [nth_error]. rewrite (proj2 (nth_error_None (w_exts W) i)) in IH by lia. destruct k; exact IH.
  - destruct (nth_error (w_exts W) j) as [e|] eqn:NE; [|cbn [fst snd taint]; apply IH]. pose proof (nth_put_len _ _ _ NE) as L.
    assert (K : let '(e', r) := train_obj e c nfp cm in if 0 <? c_len c then (e_kind e' = KLambda <-> c_fails c <> None /\ prunes nfp (c_yields c)) else e' = e).
    { unfold train_obj. destruct (Z.leb_spec (c_len c) 0) as [H|H], (Z.ltb_spec 0 (c_len c)) as [H'|H']; try lia; [reflexivity|]. cbv zeta. destruct (c_fails c) as [err|]; cbn [e_kind].
      - rewrite loop_kind_prunes. split; [intros H1; split; [discriminate|exact H1]|tauto].
      - split; [discriminate|intros [H1 _]; congruence]. }
    destruct (train_obj e c nfp cm) as [e' r]. cbn [fst snd w_exts].
    assert (T : taint P (WTrain j c nfp cm, outcome_of r) i = if (i =? j)%nat && (0 <? c_len c) then c_fails c <> None /\ prunes nfp (c_yields c) else P i) by (destruct r; reflexivity). rewrite T. clear T.
    rewrite put_nth by exact L. specialize (IH i). destruct (Nat.eqb_spec i j) as [E|NQ]; cbn [andb]; [|exact IH]. subst i. destruct (0 <? c_len c); [exact K|]. subst e'. rewrite NE in IH. exact IH.
  - destruct (nth_error (w_exts W) j) as [e|] eqn:NE; [|cbn [fst snd taint]; apply IH]. destruct (save_obj e) as [f r]. cbn [fst snd w_exts]. replace (taint P (WSave j name, outcome_of r) i) with (P i) by (destruct r; reflexivity). apply IH.
  - destruct (nth_error (w_exts W) j) as [e|] eqn:NE; [|cbn [fst snd taint]; apply IH]. pose proof (nth_put_len _ _ _ NE) as L. specialize (IH i).
    unfold load_obj. destruct (dget (w_files W) name) as [f|] eqn:G; [pose proof (WF name f G) as SO; destruct f as [fe absent|]; cbn [saved_ok] in SO|].
    + destruct SO as (-> & _ & PK & _). rewrite run_all. cbn [fst snd w_exts outcome_of taint]. rewrite put_nth by exact L. destruct (Nat.eqb_spec i j) as [E|NQ].
      * subst i. split; [intros H; rewrite H in PK; discriminate|intros [H _]; congruence].
      * destruct (nth_error (w_exts W) i); tauto.
    + cbn [fst snd w_exts taint]. rewrite put_nth by exact L. destruct (Nat.eqb_spec i j) as [E|NQ]; [subst i; rewrite NE in IH|]; exact IH.
    + cbn [fst snd w_exts taint]. rewrite put_nth by exact L. destruct (Nat.eqb_spec i j) as [E|NQ]; [subst i; rewrite NE in IH|]; exact IH.
Qed.
(** When save works: unless the last training of this extractor that looked at its corpus (and was not followed by a load) failed after a pruning. *)
Theorem C98_when_save_works : forall ops i name, (i < length (w_exts (wrun wempty ops)))%nat ->
  (tainted ops i -> snd (wstep (wrun wempty ops) (WSave i name)) = Raised AttributeError) /\ (~ tainted ops i -> snd (wstep (wrun wempty ops) (WSave i name)) = Done).
Proof.
  intros ops i name L. pose proof (taint_kind ops i) as T. pose proof (wrun_inv ops wempty winv_empty) as [WE _]. set (W := wrun wempty ops) in *. clearbody W. cbn [wstep]. apply nth_error_Some in L. destruct (nth_error (w_exts W) i) as [e|] eqn:NE; [|congruence].
  assert (K : e_kind_a e <> KLambda) by (rewrite Forall_forall in WE; apply WE; eapply nth_error_In; exact NE). unfold save_obj. assert (P2 : picklable (e_kind_a e) = true) by (destruct (e_kind_a e); [reflexivity|reflexivity|congruence]). rewrite P2.
  destruct T as [T1 T2]. split; intros H.
  - rewrite (T2 H). reflexivity.
  - assert (PK : picklable (e_kind e) = true) by (destruct (e_kind e); [reflexivity|reflexivity|destruct (H (T1 eq_refl))]). rewrite PK. reflexivity.
Qed.
(** Whatever happened since, with whatever extractors, a file that save wrote gives every extractor that loads it the state the saved one had, in every attribute *)
Lemma file_stays ops name : untouched name ops -> forall W, dget (w_files (wrun W ops)) name = dget (w_files W) name.
Proof.
  induction ops as [|o ops IH]; intros U W; [reflexivity|]. cbn [wrun fold_left]. fold (wrun (fst (wstep W o)) ops). rewrite IH by (intros i I; apply (U i); right; exact I).
  destruct o as [ml mr mf v th c|j c nfp cm|j name'|j name']; cbn [wstep].
  - destruct (construct ml mr mf v th c) as [e [err|]]; reflexivity.
  - destruct (nth_error (w_exts W) j); [|reflexivity]. destruct (train_obj _ _ _ _). reflexivity.
  - destruct (nth_error (w_exts W) j); [|reflexivity]. destruct (save_obj e). cbn [fst w_files]. rewrite dget_dset. destruct (eqb_spec name' name) as [->|N]; [destruct (U j); left; reflexivity|reflexivity].
  - destruct (nth_error (w_exts W) j); [|reflexivity]. destruct (load_obj _ _). reflexivity.
Qed.
Theorem C98_save_load : forall ops i name ops' j, let W := wrun wempty ops in let W1 := fst (wstep W (WSave i name)) in let W2 := wrun W1 ops' in
  snd (wstep W (WSave i name)) = Done -> untouched name ops' -> (j < length (w_exts W2))%nat ->
  snd (wstep W2 (WLoad j name)) = Done /\ nth_error (w_exts (fst (wstep W2 (WLoad j name)))) j = nth_error (w_exts W) i /\
  (forall k, k <> j -> nth_error (w_exts (fst (wstep W2 (WLoad j name)))) k = nth_error (w_exts W2) k) /\ w_files (fst (wstep W2 (WLoad j name))) = w_files W2.
Proof.
  intros ops i name ops' j W W1 W2 SV U L. pose proof (file_stays ops' name U W1) as FS. fold W2 in FS. clearbody W2. unfold W1 in FS. clear W1. cbn [wstep] in *. destruct (nth_error (w_exts W) i) as [e|] eqn:NE; [|discriminate].
  unfold save_obj in *. destruct (picklable (e_kind e) && picklable (e_kind_a e)); cbn [fst snd outcome_of w_files] in *; [|discriminate]. rewrite dget_dset in FS. rewrite eqb_refl in FS. cbv iota in FS.
  pose proof L as L'. apply nth_error_Some in L'. destruct (nth_error (w_exts W2) j) as [e2|] eqn:N2; [|congruence]. rewrite FS. unfold load_obj. rewrite run_all. cbn [fst snd outcome_of w_exts w_files].
  split; [reflexivity|]. split; [rewrite put_nth by exact L; rewrite Nat.eqb_refl; reflexivity|]. split; [|reflexivity]. intros k N. rewrite put_nth by exact L. destruct (Nat.eqb_spec k j); [congruence|reflexivity].
Qed.
(** A save that fails has destroyed what was in the file: nothing loads it, and an attempt changes nothing *)
Theorem C98_failed_save : forall ops i name ops' j, let W := wrun wempty ops in let W1 := fst (wstep W (WSave i name)) in let W2 := wrun W1 ops' in
  snd (wstep W (WSave i name)) = Raised AttributeError -> w_exts W1 = w_exts W /\
  (untouched name ops' -> (j < length (w_exts W2))%nat -> snd (wstep W2 (WLoad j name)) = Unreadable /\ forall k, nth_error (w_exts (fst (wstep W2 (WLoad j name)))) k = nth_error (w_exts W2) k).
Proof.
  intros ops i name ops' j W W1 W2 SV. assert (E1 : w_exts W1 = w_exts W) by (unfold W1; cbn [wstep]; destruct (nth_error (w_exts W) i); [destruct (save_obj e)|]; reflexivity). split; [exact E1|]. intros U L.
  pose proof (file_stays ops' name U W1) as FS. fold W2 in FS. clearbody W2. unfold W1 in FS. clear W1 E1. cbn [wstep] in *. destruct (nth_error (w_exts W) i) as [e|] eqn:NE; [|discriminate].
  unfold save_obj in *. destruct (picklable (e_kind e) && picklable (e_kind_a e)); cbn [fst snd outcome_of w_files] in *; [discriminate|]. rewrite dget_dset in FS. rewrite eqb_refl in FS. cbv iota in FS.
  pose proof L as L'. apply nth_error_Some in L'. destruct (nth_error (w_exts W2) j) as [e2|] eqn:N2; [|congruence]. rewrite FS. cbn [load_obj fst snd w_exts]. split; [reflexivity|]. intros k. rewrite put_nth by exact L. destruct (Nat.eqb_spec k j) as [->|N]; [symmetry; exact N2|reflexivity].
Qed.
(** The file of another version, in which keys are missing: load raises KeyError at the first of them in its order and has assigned what comes before it *)
Lemma run_first absent f a b : forall e, Forall (fun k => ~ In k absent) (map fst a) -> run_steps absent f (a ++ b) e = run_steps absent f b (fold_left (fun e s => snd s f e) a e).
Proof.
  induction a as [|[k s] a IH]; intros e F; [reflexivity|]. cbn [map fst] in F. inversion F as [|? ? F1 F2]; subst. cbn [app run_steps fold_left snd]. destruct (mem k absent) eqn:M; [apply mem_In in M; contradiction|]. apply IH, F2.
Qed.
Lemma run_missing absent f e i k s : nth_error load_steps i = Some (k, s) -> In k absent -> Forall (fun k => ~ In k absent) (map fst (firstn i load_steps)) ->
  run_steps absent f load_steps e = (fold_left (fun e s => snd s f e) (firstn i load_steps) e, Some KeyError).
Proof.
  intros NK I F. assert (E : exists b, load_steps = firstn i load_steps ++ (k, s) :: b).
  { apply nth_error_split in NK as (A0 & B0 & E & <-). exists B0. rewrite E at 2. rewrite firstn_app, Nat.sub_diag, firstn_all, firstn_O, app_nil_r. exact E. }
  destruct E as [b E]. rewrite E at 1. rewrite run_first by exact F. cbn [run_steps]. rewrite (proj2 (mem_In k absent) I). reflexivity.
Qed.
Lemma mixed_fold f e i : (i < 18)%nat -> mixed (brought i) f e (fold_left (fun e s => snd s f e) (firstn i load_steps) e).
Proof.
  intros L m k g NK. destruct f as [[a1 a2 a3 a4 a5 a6 a7] a8 a9 a10 [b1 b2 b3 b4 b5 b6 b7 b8]], e as [[c1 c2 c3 c4 c5 c6 c7] c8 c9 c10 [d1 d2 d3 d4 d5 d6 d7 d8]].
  assert (M : (m < length attributes)%nat) by (apply nth_error_Some; congruence). change (length attributes) with 16%nat in M.
  do 18 (destruct i as [|i]; [clear L; do 16 (destruct m as [|m]; [cbn [nth_error attributes] in NK; injection NK as _ <-; reflexivity|]); lia|]). lia.
Qed.
Theorem C98_missing_key : forall f absent e,
  (forall i k, nth_error asked i = Some k -> In k absent -> (forall j k', (j < i)%nat -> nth_error asked j = Some k' -> ~ In k' absent) ->
     snd (load_obj e (Some (FPickle f absent))) = Raised KeyError /\ mixed (brought i) f e (fst (load_obj e (Some (FPickle f absent))))) /\
  ((forall k, In k asked -> ~ In k absent) -> load_obj e (Some (FPickle f absent)) = (f, Done)).
Proof.
  intros f absent e. assert (KS : map fst load_steps = asked) by reflexivity. split.
  - intros i k NK I B. assert (NS : exists s, nth_error load_steps i = Some (k, s)).
    { rewrite <- KS, nth_error_map in NK. destruct (nth_error load_steps i) as [[k0 s]|]; [|discriminate]. cbn in NK. exists s. congruence. }
    destruct NS as [s NS]. assert (L : (i < 18)%nat) by (assert (L : (i < length load_steps)%nat) by (apply nth_error_Some; congruence); exact L).
    unfold load_obj. rewrite (run_missing absent f e i k s NS I).
    + cbn [fst snd outcome_of]. split; [reflexivity|]. apply mixed_fold, L.
    + apply Forall_forall. intros k' I'. rewrite <- firstn_map, KS in I'. apply In_nth_error in I' as [j J]. assert (JL : (j < i)%nat).
      { assert (JL : (j < length (firstn i asked))%nat) by (apply nth_error_Some; congruence). rewrite firstn_length in JL. lia. }
      apply (B j k' JL). rewrite <- (firstn_skipn i asked). rewrite nth_error_app1; [exact J|]. apply nth_error_Some. congruence.
  - intros B. unfold load_obj. pose proof (run_first absent f load_steps [] e) as E. rewrite app_nil_r in E. rewrite E by (apply Forall_forall; rewrite KS; exact B). cbn [run_steps outcome_of].
    pose proof (run_first [] f load_steps [] e ltac:(apply Forall_forall; intros ? _ [])) as E2. rewrite app_nil_r, run_all in E2. cbn [run_steps] in E2. f_equal. congruence.
Qed.
(** an extractor with the parameters of the file and its own counts *)
Example C98_missing_example : snd (load_obj x_failed (Some (FPickle (new_ext 3 2 1 0 x_th) [u "data"]))) = Raised KeyError /\
  let e' := fst (load_obj x_failed (Some (FPickle (new_ext 3 2 1 0 x_th) [u "data"]))) in min_freq (e_x e') = 1 /\ frequency (e_x e') (u "아이") = (2, 0).
Proof. vm_compute. repeat split. Qed.
(** no file of a fresh history taints: a history in which no training fails can save everything *)
Theorem C98_good_histories : forall ops i name, (forall c o, In (c, o) (calls wempty ops) -> match c with WTrain _ _ _ _ => o = Done | _ => True end) ->
  (i < length (w_exts (wrun wempty ops)))%nat -> snd (wstep (wrun wempty ops) (WSave i name)) = Done.
Proof.
  intros ops i name G L. apply C98_when_save_works; [exact L|]. assert (X : forall j, ~ tainted ops j); [|apply X]. revert G. unfold tainted. clear. intros G. assert (D : forall c o, In (c, o) (calls wempty ops) -> match c with WTrain _ c' _ _ => o = Done /\ (0 < c_len c' -> c_fails c' = None) \/ o = NoObject | _ => True end).
  { revert G. generalize wempty. induction ops as [|o ops IH]; intros W G c r I; [destruct I|]. cbn [calls] in I. destruct I as [I|I]; [|apply (IH (fst (wstep W o))); [|exact I]; intros c' o' I'; apply G; right; exact I'].
    assert (c = o /\ r = snd (wstep W o)) as [-> ->] by (split; congruence). destruct o as [ | j c nfp cm| | ]; try exact Logic.I. specialize (G (WTrain j c nfp cm) _ (or_introl eq_refl)). cbn iota in G. rewrite G. left. split; [reflexivity|]. intros P.
    cbn [wstep] in G. destruct (nth_error (w_exts W) j) as [e|]; [|discriminate]. pose proof (C97_outcome e c nfp cm) as [O _]. destruct (train_obj e c nfp cm) as [e' r]. cbn [snd] in *. subst r. destruct (Z.leb_spec (c_len c) 0); [lia|]. destruct (c_fails c); [discriminate|reflexivity]. }
  assert (B : forall j, ~ (fun _ : nat => False) j) by auto. revert D B. generalize (fun _ : nat => False). generalize (calls wempty ops). clear. intros cs. induction cs as [|[c o] cs IH]; intros P D B j; [apply B|]. cbn [fold_left]. apply IH; [intros c' o' I; apply (D c' o'); right; exact I|].
  intros k. specialize (D c o (or_introl eq_refl)). destruct c as [ |j' c nfp cm| | ]; cbn [taint]; try (destruct o; try apply B; intros [_ H]; exact (B k H)).
  destruct o; try apply B; destruct D as [[D1 D2]|D]; try discriminate. destruct ((k =? j')%nat && (0 <? c_len c)) eqn:Q; [|apply B]. apply andb_prop in Q as [_ Q]. apply Z.ltb_lt in Q. rewrite (D2 Q). intros [H _]. congruence.
Qed.
(** refuted: what was once saved survives an attempt to save something else *)
Theorem C98_old_file_survives_refuted : exists ops name, snd (wstep (wrun wempty ops) (WLoad 0 name)) = Done /\
  snd (wstep (wrun wempty ops) (WSave 0 name)) = Raised AttributeError /\ snd (wstep (fst (wstep (wrun wempty ops) (WSave 0 name))) (WLoad 0 name)) = Unreadable.
Proof.
  exists [WNew 10 6 2 100000 x_th (mkC 2 [u "아이는 아이가"; u "노래를 봤다"] None); WSave 0 (u "f"); WTrain 0 (mkC 3 [u "아이는 아이가"; u "노래를 봤다"] (Some AttributeError)) 1 true], (u "f").
  vm_compute. repeat split.
Qed.
(** refuted: without an error during save, load and training a retry that fails does no harm to saving; and pruning alone does not *)
Example C98_example : let h := [WNew 10 6 2 100000 x_th (mkC 0 [] None); WTrain 0 x_c 0 true] in
  ~ tainted h 0 /\ snd (wstep (wrun wempty h) (WSave 0 (u "f"))) = Done /\ tainted [WNew 10 6 2 100000 x_th (mkC 0 [] None); WTrain 0 x_c 2 true] 0.
Proof.
  cbv zeta. split; [|split; [reflexivity|]].
  - unfold tainted. cbn [calls fold_left wstep]. intros H. cbn in H. destruct H as [_ [H _]]. lia.
  - unfold tainted. cbn. split; [discriminate|]. split; [lia|]. exists 0%nat, (u "아이는 아이가"). split; [reflexivity|]. split; [reflexivity|]. vm_compute. lia.
Qed.
Print Assumptions C97_outcome.
Print Assumptions C97_completed.
Print Assumptions C97_failed.
Print Assumptions C97_failed_neighbours.
Print Assumptions C97_again_afresh.
Print Assumptions C97_again_cumulated.
Print Assumptions C97_minimum_frequency_refuted.
Print Assumptions C97_again_refuted.
Print Assumptions C98_when_save_works.
Print Assumptions C98_save_load.
Print Assumptions C98_failed_save.
Print Assumptions C98_missing_key.
Print Assumptions C98_good_histories.
Print Assumptions C98_old_file_survives_refuted.
