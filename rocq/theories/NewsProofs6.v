(** * Proofs about NewsNounExtractor: the table from right parts to left parts *)
From Coq Require Import QArith.
From Verif Require Import PyBase PyDict CountLemmas QLemmas PyText UtilsModel UtilsSpec UtilsProofs UtilsProofs2 JosaProofs NounModel NounSpec NounV1Proofs NewsModel NewsSpec NewsProofs.
Open Scope Z_scope.

Definition swap (t : str * str * Z) : str * str * Z := (snd (fst t), fst (fst t), snd t).
Definition full (t : str * str * Z) : bool := match snd (fst t) with [] => false | _ => true end.
Lemma rl_word_incs lm rm d w n : rlgraph_word lm rm d (w, n) = incs (map swap (filter full (word_trips lm rm (fun _ => n) w))) d.
Proof.
  unfold rlgraph_word, word_trips. cbn [fst snd]. generalize (seq 1 (Nat.min (Z.to_nat lm) (length w))) as es. intros es. revert d. induction es as [|e es IH]; intros d; [reflexivity|]. cbn [fold_left filter]. rewrite IH.
  destruct (Z.of_nat (length (skipn e w)) >? rm); cbn [negb map filter]; [reflexivity|]. unfold full at 2. cbn [fst snd]. destruct (skipn e w); reflexivity.
Qed.
Lemma incs_app' T1 T2 g : incs (T1 ++ T2) g = incs T2 (incs T1 g).
Proof. unfold incs. apply fold_left_app. Qed.
Lemma rl_incs lm rm (e : dict str Z) d : fold_left (rlgraph_word lm rm) e d = incs (map swap (filter full (concat (map (fun ec => word_trips lm rm (fun _ => snd ec) (fst ec)) e)))) d.
Proof.
  revert d. induction e as [|[w n] e IH]; intros d; [reflexivity|]. cbn [fold_left map concat]. rewrite IH, rl_word_incs, filter_app, map_app, incs_app'. reflexivity.
Qed.
Lemma lr_incs lm rm (e : dict str Z) d : fold_left (lrgraph_word lm rm) e d = incs (concat (map (fun ec => word_trips lm rm (fun _ => snd ec) (fst ec)) e)) d.
Proof.
  revert d. induction e as [|[w n] e IH]; intros d; [reflexivity|]. cbn [fold_left map concat]. rewrite IH, incs_app'. f_equal. unfold lrgraph_word. cbn [fst snd]. exact (fold_word_incs rm (fun _ => n) w _ d).
Qed.
Lemma swap_at T r l : filter (at_pair r l) (map swap (filter full T)) = match r with [] => [] | _ => map swap (filter (at_pair l r) T) end.
Proof.
  induction T as [|[[a b] n] T IH]; [destruct r; reflexivity|]. cbn [filter]. unfold full at 1. cbn [fst snd]. destruct b as [|y b].
  - rewrite IH. destruct r as [|x r]; [reflexivity|]. unfold at_pair at 2. cbn [fst snd]. destruct (eqb_spec (@nil N) (x :: r)) as [E|_]; [discriminate|]. rewrite andb_false_r. reflexivity.
  - cbn [map filter]. rewrite IH. assert (E1 : at_pair r l (swap (a, y :: b, n)) = at_pair l r (a, y :: b, n)) by (unfold at_pair, swap; cbn [fst snd]; apply andb_comm). rewrite E1. clear E1. destruct r as [|x r].
    + unfold at_pair. cbn [fst snd]. destruct (eqb_spec (y :: b) (@nil N)) as [E|_]; [discriminate|]. rewrite andb_false_r. reflexivity.
    + destruct (at_pair l (x :: r) (a, y :: b, n)); reflexivity.
Qed.
Lemma tsum_swap T : tsum (map swap T) = tsum T.
Proof. unfold tsum. rewrite map_map. reflexivity. Qed.
Lemma rl_pget lm rm e r l : pget (fold_left (rlgraph_word lm rm) e []) r l = match r with [] => None | _ => pget (fold_left (lrgraph_word lm rm) e []) l r end.
Proof.
  rewrite rl_incs, lr_incs, !pget_incs, swap_at. change (pget [] r l) with (@None Z). change (pget [] l r) with (@None Z). destruct r as [|x r]; [reflexivity|].
  match goal with |- context [filter (at_pair l (x :: r)) ?T] => destruct (filter (at_pair l (x :: r)) T) as [|t M] end; [reflexivity|]. change (Some (oget None + tsum (map swap (t :: M))) = Some (oget None + tsum (t :: M))). rewrite tsum_swap. reflexivity.
Qed.
Lemma ahead_occ lm rm W r l : occ l (ahead lm rm W r) = if in_window lm rm l r then occ (l ++ r) W else 0.
Proof.
  unfold ahead, occ. rewrite Zsum_map. induction W as [|w W IH]; [destruct (in_window lm rm l r); reflexivity|]. cbn [filter Zsum].
  set (a := firstn (length w - length r) w). destruct (eqb_spec (a ++ r) w) as [E|n]; cbn [andb].
  - destruct (eqb_spec (l ++ r) w) as [E'|n].
    + assert (a = l) by (rewrite <- E' in E; apply app_inv_tail in E; exact E). destruct (in_window lm rm a r) eqn:WI.
      * cbn [Zsum]. fold a. rewrite IH. rewrite H in *. rewrite WI, eqb_refl. reflexivity.
      * rewrite IH. rewrite H in WI. rewrite WI. reflexivity.
    + destruct (in_window lm rm a r) eqn:WI; [cbn [Zsum]; fold a|]; rewrite IH.
      * destruct (eqb_spec l a) as [->|_]; [congruence|]. destruct (in_window lm rm l r); lia.
      * destruct (in_window lm rm l r); lia.
  - rewrite IH. destruct (eqb_spec (l ++ r) w) as [E'|_]; [|destruct (in_window lm rm l r); lia]. exfalso. apply n. unfold a. rewrite <- E', app_length. replace (length l + length r - length r)%nat with (length l) by lia. rewrite firstn_pre. reflexivity.
Qed.
Lemma rl_counts c sents r : r <> [] -> let h := fold_left (rlgraph_word (w_lm c) (w_rm c)) (news_eojeols c sents) [] in
  counts (match dget h r with Some d => d | None => [] end) (ahead (w_lm c) (w_rm c) (words sents) r).
Proof.
  intros NE. cbv zeta. set (h := fold_left (rlgraph_word (w_lm c) (w_rm c)) (news_eojeols c sents) []). assert (G : is_graph h) by (unfold h; rewrite rl_incs; apply gwf_incs; split; constructor).
  assert (P : forall l, pget h r l = if 0 <? occ l (ahead (w_lm c) (w_rm c) (words sents) r) then Some (occ l (ahead (w_lm c) (w_rm c) (words sents) r)) else None).
  { intros l. unfold h. rewrite rl_pget. destruct r as [|x r0] eqn:ER; [contradiction|]. rewrite <- ER in *. rewrite to_lrgraph_pget by apply (news_eojeols_counts c sents). rewrite ahead_occ. destruct (in_window (w_lm c) (w_rm c) l r) eqn:WI; [|reflexivity].
    destruct (news_eojeols_counts c sents) as [_ ->]. rewrite occ_filter. apply window_len in WI. replace (len (l ++ r) <=? w_lm c + w_rm c) with true by (symmetry; apply Z.leb_le, WI). reflexivity. }
  unfold pget in P. destruct (dget h r) as [d|] eqn:D; split.
  - destruct G as [_ F]. rewrite Forall_forall in F. apply dget_In in D. exact (F _ D).
  - exact P.
  - constructor.
  - exact P.
Qed.
Lemma incs_row_nonempty T g : (forall a d, dget g a = Some d -> d <> []) -> forall a d, dget (incs T g) a = Some d -> d <> [].
Proof.
  revert g. induction T as [|[[a0 b0] n] T IH]; intros g H; [exact H|]. cbn [incs fold_left fst snd]. apply IH. intros a d. unfold inc2. rewrite dget_dset. destruct (eqb_spec a0 a) as [->|_]; [|apply H].
  intros [= <-] X. match type of X with dset ?d0 _ ?v = _ => assert (I : dget (dset d0 b0 v) b0 = Some v) by (rewrite dget_dset, eqb_refl; reflexivity) end. rewrite X in I. discriminate.
Qed.
Lemma train_exact c sents st : news_train c sents = Ok st -> let lm := w_lm c in let rm := w_rm c in let W := words sents in
  (forall l r, pget (t_lr st) l r = if in_window lm rm l r && (0 <? occ (l ++ r) W) then Some (occ (l ++ r) W) else None) /\
  (forall l r, pget (t_rl st) r l = match r with [] => None | _ => if in_window lm rm l r && (0 <? occ (l ++ r) W) then Some (occ (l ++ r) W) else None end) /\
  (forall w, dget (t_eoj st) w = if (len w <=? lm + rm) && (0 <? occ w W) then Some (occ w W) else None) /\
  (forall l, dget (t_lc st) l = if 0 <? freq lm rm W l then Some (freq lm rm W l) else None) /\
  (forall r, dget (t_rc st) r = match r with [] => None | _ => if 0 <? len (ahead lm rm W r) then Some (len (ahead lm rm W r)) else None end) /\
  dkeys (t_lc st) = lefts lm rm W.
Proof.
  intros TR lm rm W. pose proof (news_trained c sents st TR) as (_ & _ & T3 & T4 & _). fold lm rm W in T3, T4.
  unfold news_train in TR. assert (ES : sents <> []) by (intros ->; discriminate). assert (TR' : Ok (mkNWS (fold_left (lrgraph_word (w_lm c) (w_rm c)) (news_eojeols c sents) []) (fold_left (rlgraph_word (w_lm c) (w_rm c)) (news_eojeols c sents) []) (news_eojeols c sents) (map (fun kd : str * dict str Z => (fst kd, Zsum snd (snd kd))) (fold_left (lrgraph_word (w_lm c) (w_rm c)) (news_eojeols c sents) [])) (map (fun kd : str * dict str Z => (fst kd, Zsum snd (snd kd))) (fold_left (rlgraph_word (w_lm c) (w_rm c)) (news_eojeols c sents) []))) = Ok st) by (destruct sents; [congruence|exact TR]). injection TR' as <-. clear TR. cbn [t_lr t_rl t_eoj t_lc t_rc] in *.
  assert (L : forall l r, pget (fold_left (lrgraph_word (w_lm c) (w_rm c)) (news_eojeols c sents) []) l r = if in_window lm rm l r && (0 <? occ (l ++ r) W) then Some (occ (l ++ r) W) else None).
  { intros l r. rewrite to_lrgraph_pget by apply (news_eojeols_counts c sents). fold lm rm. destruct (in_window lm rm l r) eqn:WI; [|reflexivity].
    destruct (news_eojeols_counts c sents) as [_ ->]. fold lm rm W. rewrite occ_filter. apply window_len in WI. replace (len (l ++ r) <=? lm + rm) with true by (symmetry; apply Z.leb_le, WI). reflexivity. }
  split; [exact L|]. split.
  { intros l r. rewrite rl_pget. destruct r; [reflexivity|]. apply L. }
  split.
  { intros w. destruct (news_eojeols_counts c sents) as [_ ->]. fold lm rm W. rewrite occ_filter. destruct (len w <=? lm + rm); reflexivity. }
  split; [exact T4|]. split; [|exact T3].
  intros r. rewrite dget_sums. destruct r as [|x r0] eqn:ER.
  - destruct (dget _ []) as [d|] eqn:D; [|reflexivity]. exfalso.
    assert (NEd : d <> []) by (revert D; rewrite rl_incs; apply incs_row_nonempty; discriminate). destruct d as [|[l n] d]; [congruence|].
    pose proof (rl_pget lm rm (news_eojeols c sents) [] l) as P. cbv iota in P. fold lm rm in D. unfold pget in P. rewrite D in P. cbn [dget] in P. rewrite eqb_refl in P. discriminate.
  - rewrite <- ER. assert (NE : r <> []) by congruence. pose proof (rl_counts c sents r NE) as C. cbv zeta in C. fold lm rm W in C.
    destruct (dget _ r) as [d|] eqn:D.
    + fold lm rm in D. try rewrite D in C. rewrite (counts_total _ _ C). destruct (Z.ltb_spec 0 (len (ahead lm rm W r))) as [_|H]; [reflexivity|]. exfalso.
      assert (NEd : d <> []) by (revert D; rewrite rl_incs; apply incs_row_nonempty; discriminate). apply NEd. apply (counts_nil d _ C). unfold len in H. destruct (ahead lm rm W r); [reflexivity|cbn [length] in H; lia].
    + fold lm rm in D. try rewrite D in C. pose proof (proj1 (counts_nil _ _ C) eq_refl) as E. rewrite E. reflexivity.
Qed.
