(** * Proofs about EojeolPatternTrainer: training *)
From Coq Require Import QArith Reals.
From Verif Require Import PyBase PyDict PySort CountLemmas PyText PyFile UtilsModel UtilsSpec UtilsProofs NounModel NounSpec NounV1Model NounV1Spec NounV1Proofs NounV1Proofs2 NewsProofs6 BuilderModel.
Open Scope Z_scope.

Definition is_ok {A} (r : res A) : bool := match r with Ok _ => true | Err _ => false end.
Lemma tick_cases c t i o : tick c t i o = Ok tt \/ tick c t i o = Err ZeroDivisionError.
Proof. unfold tick. destruct (b_verbose c), (t / 40 =? 0), (i mod (t / 40) =? 0), (o =? 0); auto. Qed.
Fixpoint scan_fine (c : bconf) (total i : Z) (sents : list str) : bool :=
  match sents with [] => true | s :: ss => is_ok (tick c total (fold_left (scan_i c) (space_tokens s) i) (Z.of_nat (length s))) && scan_fine c total (i + 1) ss end.
Definition counted_in (f : str -> list str) (T : list str) (d : dict str Z) : dict str Z := fold_left (fun d w => dincr d w 1) (concat (map f T)) d.
Lemma counted_in_fold f T : forall d, fold_left (fun d t => fold_left (fun d w => dincr d w 1) (f t) d) T d = counted_in f T d.
Proof. unfold counted_in. induction T as [|t T IH]; intros d; [reflexivity|]. cbn [fold_left map concat]. rewrite fold_left_app. apply IH. Qed.
Lemma scan_loop_eq c total sents : forall i dl dr, scan_loop c total i sents dl dr = if scan_fine c total i sents then Ok (counted_in (scan_l (b_lm c)) (concat (map space_tokens sents)) dl, counted_in (scan_r (b_rm c)) (concat (map space_tokens sents)) dr) else Err ZeroDivisionError.
Proof.
  induction sents as [|s ss IH]; intros i dl dr; [reflexivity|]. cbn [scan_loop scan_fine map concat]. cbv zeta.
  destruct (tick_cases c total (fold_left (scan_i c) (space_tokens s) i) (Z.of_nat (length s))) as [-> | ->]; cbn [bind is_ok andb]; [|reflexivity]. rewrite IH. destruct (scan_fine c total (i + 1) ss); [|reflexivity].
  rewrite !counted_in_fold. unfold counted_in. rewrite !map_app, !concat_app, !fold_left_app. reflexivity.
Qed.
Lemma scan_fine_false c total sents : forall i, 0 <= total -> (scan_fine c total i sents = false <-> b_verbose c = true /\ sents <> [] /\ (total < 40 \/ exists k, nth_error sents k = Some [] /\ (i + Z.of_nat k) mod (total / 40) = 0)).
Proof.
  induction sents as [|s ss IH]; intros i T; [split; [discriminate|intros (_ & H & _); congruence]|]. cbn [scan_fine]. rewrite andb_false_iff, (IH (i + 1) T).
  assert (D : (total / 40 =? 0) = true <-> total < 40) by (rewrite Z.eqb_eq; split; intros H; [destruct (Z.lt_ge_cases total 40); [lia|]; pose proof (Z.div_le_mono 40 total 40); change (40 / 40) with 1 in *; lia|apply Z.div_small; lia]).
  unfold tick. destruct (b_verbose c); [|cbn [is_ok]; intuition discriminate]. destruct (total / 40 =? 0) eqn:DE.
  { cbn [is_ok]. split; [intros _|intros _; left; reflexivity]. split; [reflexivity|]. split; [discriminate|]. left. apply D. reflexivity. }
  assert (NL : ~ total < 40) by (intros L; apply D in L; discriminate).
  split.
  - intros [H|(V & NE & [H|(k & N & M)])]; [|contradiction|].
    + split; [reflexivity|]. split; [discriminate|]. right. exists 0%nat. destruct s as [|x s].
      * split; [reflexivity|]. cbn in H. rewrite Z.add_0_r. destruct (i mod (total / 40) =? 0) eqn:E; [apply Z.eqb_eq in E; exact E|discriminate].
      * exfalso. destruct (_ mod _ =? 0) in H; [|discriminate]. cbn [length] in H. rewrite (proj2 (Z.eqb_neq (Z.of_nat (S (length s))) 0)) in H by lia. discriminate.
    + split; [reflexivity|]. split; [discriminate|]. right. exists (S k). split; [exact N|]. rewrite <- M. f_equal. lia.
  - intros (_ & _ & [H|(k & N & M)]); [contradiction|]. destruct k as [|k].
    + left. cbn [nth_error] in N. assert (s = []) as -> by congruence. cbn [space_tokens split_on filter fold_left length Z.of_nat]. rewrite Z.add_0_r in M. rewrite M. reflexivity.
    + right. split; [reflexivity|]. split; [destruct ss; [destruct k; discriminate N|discriminate]|]. right. exists k. split; [exact N|]. rewrite <- M. f_equal. lia.
Qed.
Lemma b_scan_eq c sents : b_scan c sents = if scan_fine c (Z.of_nat (length sents)) 0 sents then Ok (dkeys (fst (scan_vocabulary (mkV1 [] (b_lm c) (b_rm c) 0) (fun s => s) sents (b_mf c))), snd (scan_vocabulary (mkV1 [] (b_lm c) (b_rm c) 0) (fun s => s) sents (b_mf c))) else Err ZeroDivisionError.
Proof.
  unfold b_scan. rewrite scan_loop_eq. destruct (scan_fine c (Z.of_nat (length sents)) 0 sents); reflexivity.
Qed.

(** ** the graphs *)
Fixpoint build_fine (c : bconf) (total i : Z) (sents : list str) : bool :=
  match sents with [] => true | s :: ss => is_ok (tick c total (fold_left (build_i c) (split s) i) total) && build_fine c total (i + 1) ss end.
Lemma build_fine_false c total sents : forall i, (0 < total \/ sents = []) -> (build_fine c total i sents = false <-> b_verbose c = true /\ sents <> [] /\ total < 40).
Proof.
  induction sents as [|s ss IH]; intros i T; [split; [discriminate|intros (_ & H & _); congruence]|]. destruct T as [T|T]; [|discriminate]. cbn [build_fine]. rewrite andb_false_iff, (IH (i + 1)) by auto.
  assert (D : (total / 40 =? 0) = true <-> total < 40) by (rewrite Z.eqb_eq; split; intros H; [destruct (Z.lt_ge_cases total 40); [lia|]; pose proof (Z.div_le_mono 40 total 40); change (40 / 40) with 1 in *; lia|apply Z.div_small; lia]).
  unfold tick. destruct (b_verbose c); [|cbn [is_ok]; intuition discriminate]. destruct (total / 40 =? 0) eqn:DE.
  - cbn [is_ok]. split; [intros _|intros _; left; reflexivity]. split; [reflexivity|]. split; [discriminate|]. apply D. reflexivity.
  - assert (NL : ~ total < 40) by (intros L; apply D in L; discriminate). split; [|tauto]. intros [H|(_ & _ & H)]; [|contradiction]. exfalso. destruct (_ mod _ =? 0) in H; [|discriminate]. rewrite (proj2 (Z.eqb_neq total 0)) in H by lia. discriminate.
Qed.
Lemma mem_add w x ws : mem w (add_word x ws) = eqb w x || mem w ws.
Proof.
  unfold add_word. destruct (mem x ws) eqn:M.
  - destruct (eqb_spec w x) as [->|N]; [rewrite M|]; reflexivity.
  - unfold mem. rewrite existsb_app. cbn [existsb]. rewrite orb_false_r. apply orb_comm.
Qed.
Lemma b_token_incs c wl wr t g : b_token c wl (add_word [] wr) g t = (incs (tok_trips (b_lm c) wl wr t) (fst g), incs (map swap (tok_trips (b_lm c) wl wr t)) (snd g)).
Proof.
  unfold b_token, tok_trips. generalize (seq 1 (Z.to_nat (Z.min (b_lm c) (Z.of_nat (length t))))) as es. intros es. revert g.
  induction es as [|e es IH]; intros g; [destruct g; reflexivity|]. cbn [fold_left filter]. rewrite IH, mem_add. unfold okb. clear IH.
  destruct (mem (firstn e t) wl), (eqb (skipn e t) [] || mem (skipn e t) wr); reflexivity.
Qed.
Definition trips (c : bconf) (wl wr sents : list str) := concat (map (tok_trips (b_lm c) wl wr) (concat (map split sents))).
Lemma build_loop_eq c total wl wr sents : forall i g, build_loop c total i wl (add_word [] wr) sents g = if build_fine c total i sents then Ok (incs (trips c wl wr sents) (fst g), incs (map swap (trips c wl wr sents)) (snd g)) else Err ZeroDivisionError.
Proof.
  induction sents as [|s ss IH]; intros i g; [destruct g; reflexivity|]. cbn [build_loop build_fine].
  destruct (tick_cases c total (fold_left (build_i c) (split s) i) total) as [-> | ->]; cbn [bind is_ok andb]; [|reflexivity]. rewrite IH. destruct (build_fine c total (i + 1) ss); [|reflexivity].
  assert (F : forall ts g, fold_left (b_token c wl (add_word [] wr)) ts g = (incs (concat (map (tok_trips (b_lm c) wl wr) ts)) (fst g), incs (map swap (concat (map (tok_trips (b_lm c) wl wr) ts))) (snd g))).
  { clear. induction ts as [|t ts IH]; intros g; [destruct g; reflexivity|]. cbn [fold_left map concat]. rewrite IH, b_token_incs. cbn [fst snd]. rewrite map_app, !incs_app. reflexivity. }
  rewrite F. cbn [fst snd]. unfold trips. cbn [map concat]. rewrite !map_app, !concat_app, !map_app, !incs_app. reflexivity.
Qed.
Lemma swap_pget T : forall r l, pget (incs (map swap T) []) r l = pget (incs T []) l r.
Proof.
  intros r l. rewrite !pget_incs, !pget_nil. rewrite filter_map_comm.
  rewrite (filter_ext (fun x => at_pair r l (swap x)) (at_pair l r)) by (intros x; unfold at_pair, swap; cbn [fst snd]; apply andb_comm).
  destruct (filter (at_pair l r) T) as [|t M]; [reflexivity|]. cbn [map]. change (Some (oget None + tsum (map swap (t :: M))) = Some (oget None + tsum (t :: M))). rewrite tsum_swap. reflexivity.
Qed.
Lemma b_build_ok c sents wl wr st : b_build c sents wl wr = Ok st -> s_wl st = wl /\ s_wr st = add_word [] wr /\ is_graph (s_lr st) /\ is_graph (s_rl st) /\
  (forall k row, In (k, row) (s_lr st) \/ In (k, row) (s_rl st) -> row <> []) /\
  (forall l r, pget (s_rl st) r l = pget (s_lr st) l r) /\
  (forall l r, pget (s_lr st) l r = if ((1 <=? length l)%nat && (Z.of_nat (length l) <=? b_lm c) && okb wl wr l r) && (0 <? occurrences (l ++ r) sents) then Some (occurrences (l ++ r) sents) else None).
Proof.
  unfold b_build. cbv zeta. rewrite build_loop_eq. destruct (build_fine c (Z.of_nat (length sents)) 0 sents); cbn [bind]; [|discriminate]. intros E. assert (st = mkBS (incs (trips c wl wr sents) []) (incs (map swap (trips c wl wr sents)) []) wl (add_word [] wr)) as -> by (cbn [fst snd] in E; congruence). clear E. cbn [s_lr s_rl s_wl s_wr].
  split; [reflexivity|]. split; [reflexivity|]. assert (G : forall T, is_graph (incs T [])) by (intros T; apply gwf_incs; split; constructor). split; [apply G|]. split; [apply G|]. split; [|split].
  - assert (NE : forall T k row, In (k, row) (incs T []) -> row <> []) by (intros T k row I; apply (incs_row_nonempty T [] ltac:(discriminate) k); apply In_dget; [apply G|exact I]). intros k row [I|I]; eapply NE, I.
  - intros l r. apply swap_pget.
  - intros l r. destruct (build_pget (b_lm c) (fun s => s) sents wl wr l r) as [_ B]. rewrite build_incs, map_id in B. exact B.
Qed.
Lemma b_build_err c sents wl wr e : b_build c sents wl wr = Err e <-> e = ZeroDivisionError /\ b_verbose c = true /\ sents <> [] /\ Z.of_nat (length sents) < 40.
Proof.
  unfold b_build. cbv zeta. rewrite build_loop_eq. rewrite <- (build_fine_false c (Z.of_nat (length sents)) sents 0) by (destruct sents; [right; reflexivity|left; cbn [length]; lia]).
  destruct (build_fine c (Z.of_nat (length sents)) 0 sents); cbn [bind]; split; try discriminate; intuition congruence.
Qed.
