(** * Proofs about LRNounExtractor (version 1): the graph and the frequencies *)
From Coq Require Import QArith Reals Permutation Lra Lqa Sorted.
From Verif Require Import PyBase PyDict PySort SortLemmas CountLemmas QLemmas PyText UtilsModel UtilsSpec UtilsProofs UtilsProofs2 UtilsProofs3 UtilsProofs6 NounModel NounSpec NounProofs NounProofs2 NounProofs3 VectorizerSpec VectorizerProofs3 NounV1Model NounV1Spec JosaProofs NounV1Proofs.
Open Scope Z_scope.

(** ** construction *)
Definition okb (wl wr : list str) (l r : str) : bool := mem l wl && (eqb r [] || mem r wr).
Definition tok_trips (lm : Z) (wl wr : list str) (t : str) : list (str * str * Z) :=
  map (fun e => (firstn e t, skipn e t, 1)) (filter (fun e => okb wl wr (firstn e t) (skipn e t)) (seq 1 (Z.to_nat (Z.min lm (Z.of_nat (length t)))))).
Lemma build_token_incs lm wl wr t d : build_token lm wl wr d t = incs (tok_trips lm wl wr t) d.
Proof.
  unfold build_token, tok_trips. generalize (seq 1 (Z.to_nat (Z.min lm (Z.of_nat (length t))))) as es. intros es. revert d.
  induction es as [|e es IH]; intros d; [reflexivity|]. cbn [fold_left filter]. rewrite IH. unfold okb. destruct (mem (firstn e t) wl); cbn [negb andb]; [|reflexivity].
  destruct (skipn e t) as [|x r] eqn:SK; [cbn [length Nat.ltb Nat.leb andb eqb orb map]; change (eqb (@nil N) []) with true; cbn [orb map]; rewrite SK; reflexivity|].
  cbn [length]. change (0 <? S (length r))%nat with true. cbn [andb]. replace (eqb (x :: r) []) with false by (symmetry; apply eqb_neq; discriminate). cbn [orb].
  destruct (mem (x :: r) wr); cbn [negb map]; [rewrite SK|]; reflexivity.
Qed.
Lemma tok_trips_at lm wl wr t l r : filter (at_pair l r) (tok_trips lm wl wr t) =
  if eqb (l ++ r) t && ((1 <=? length l)%nat && (Z.of_nat (length l) <=? lm) && okb wl wr l r) then [(l, r, 1)] else [].
Proof.
  unfold tok_trips. rewrite filter_map_comm, filter_filter_comm.
  rewrite (filter_ext_in _ (fun e => (eqb (l ++ r) t && okb wl wr l r) && (e =? length l)%nat)).
  2:{ intros e He. apply in_seq in He. unfold at_pair. cbn [fst snd]. rewrite split_eq by lia.
      destruct (eqb_spec (l ++ r) t) as [<-|n]; cbn [andb]; [|apply andb_false_r].
      rewrite (Nat.eqb_sym e). destruct (Nat.eqb_spec (length l) e) as [<-|n]; [|rewrite !andb_false_r; reflexivity].
      rewrite firstn_pre, skipn_pre. reflexivity. }
  destruct (eqb_spec (l ++ r) t) as [<-|n]; cbn [andb]; [|rewrite filter_false; reflexivity].
  destruct (okb wl wr l r); cbn [andb]; [|rewrite andb_false_r, filter_false; reflexivity]. rewrite andb_true_r.
  assert (SF : forall k a n, filter (fun e => (e =? k)%nat) (seq a n) = if ((a <=? k) && (k <? a + n))%nat then [k] else []).
  { intros k a n. revert a. induction n as [|n IH]; intros a; cbn [seq filter].
    - destruct (Nat.leb_spec a k), (Nat.ltb_spec k (a + 0)); try reflexivity; lia.
    - rewrite IH. destruct (Nat.eqb_spec a k) as [->|n0].
      + destruct (Nat.leb_spec (S k) k), (Nat.leb_spec k k), (Nat.ltb_spec k (k + S n)); try lia; reflexivity.
      + destruct (Nat.leb_spec (S a) k), (Nat.leb_spec a k), (Nat.ltb_spec k (a + S n)), (Nat.ltb_spec k (S a + n)); try lia; reflexivity. }
  rewrite SF, app_length.
  replace ((1 <=? length l) && (length l <? 1 + Z.to_nat (Z.min lm (Z.of_nat (length l + length r)))))%nat with ((1 <=? length l)%nat && (Z.of_nat (length l) <=? lm))
    by (destruct (Nat.leb_spec 1 (length l)), (Z.leb_spec (Z.of_nat (length l)) lm), (Nat.ltb_spec (length l) (1 + Z.to_nat (Z.min lm (Z.of_nat (length l + length r))))); try lia; reflexivity).
  destruct ((1 <=? length l)%nat && (Z.of_nat (length l) <=? lm)); [|reflexivity]. cbn [map]. rewrite firstn_pre, skipn_pre. reflexivity.
Qed.
Lemma build_incs lm pre sents wl wr : build_lrgraph lm pre sents wl wr = incs (concat (map (tok_trips lm wl wr) (concat (map split (map pre sents))))) [].
Proof.
  unfold build_lrgraph. generalize (@nil (str * dict str Z)) as g. induction sents as [|s ss IH]; intros g; [reflexivity|].
  cbn [fold_left map concat]. rewrite IH, map_app, concat_app, incs_app. f_equal. clear IH. revert g.
  induction (split (pre s)) as [|w ws IH]; intros g; [reflexivity|]. cbn [fold_left map concat]. rewrite incs_app, IH, build_token_incs. reflexivity.
Qed.
Lemma build_pget lm pre sents wl wr l r : let g := build_lrgraph lm pre sents wl wr in is_graph g /\
  pget g l r = if ((1 <=? length l)%nat && (Z.of_nat (length l) <=? lm) && okb wl wr l r) && (0 <? occurrences (l ++ r) (map pre sents)) then Some (occurrences (l ++ r) (map pre sents)) else None.
Proof.
  cbv zeta. rewrite build_incs. split; [apply gwf_incs; split; constructor|]. rewrite pget_incs, pget_nil, filter_concat, map_map.
  set (W := (1 <=? length l)%nat && (Z.of_nat (length l) <=? lm) && okb wl wr l r).
  assert (E : concat (map (fun w => filter (at_pair l r) (tok_trips lm wl wr w)) (concat (map split (map pre sents)))) =
    if W then repeat (l, r, 1) (length (filter (eqb (l ++ r)) (concat (map split (map pre sents))))) else []).
  { induction (concat (map split (map pre sents))) as [|w ws IH]; [destruct W; reflexivity|].
    cbn [map concat filter]. rewrite IH, tok_trips_at. fold W. destruct (eqb (l ++ r) w); cbn [andb]; [|reflexivity]. destruct W; reflexivity. }
  rewrite E. unfold occurrences. destruct W; cbn [andb]; [|reflexivity].
  generalize (length (filter (eqb (l ++ r)) (concat (map split (map pre sents))))) as n. intros n.
  assert (T : forall k v n, tsum (repeat (k, v) n) = v * Z.of_nat n).
  { intros k v m. induction m as [|m IH]; [cbn; lia|]. cbn [repeat]. change (tsum ((k, v) :: repeat (k, v) m)) with (v + tsum (repeat (k, v) m)). rewrite IH. lia. }
  destruct n as [|n]; [reflexivity|]. replace (0 <? Z.of_nat (S n)) with true by (symmetry; apply Z.ltb_lt; lia).
  cbn [repeat]. change ((l, r, 1) :: repeat (l, r, 1) n) with (repeat (l, r, 1) (S n)). cbn [oget]. rewrite T. f_equal; lia.
Qed.

(** ** graphs in which every stored split of an eojeol has the same count *)
Definition uniW (W : str -> str -> bool) (f : str -> option Z) (g : lrg) : Prop :=
  Inv g /\ (forall l r, W l r = true -> l <> []) /\ forall l r, pget (lr g) l r = if W l r then f (l ++ r) else None.
Lemma uniW_ext W f f' g : (forall e, f e = f' e) -> uniW W f g -> uniW W f' g.
Proof. intros H [I [N U]]. split; [exact I|]. split; [exact N|]. intros l r. rewrite U, H. reflexivity. Qed.
Lemma uniW_rows W f g w : uniW W f g -> NoDup (map fst (get_r g w (-1))) /\ forall r n, In (r, n) (get_r g w (-1)) <-> W w r = true /\ f (w ++ r) = Some n.
Proof.
  intros (I & N & U). unfold get_r. rewrite get_all. split; [apply top_NoDup, (inv_lr g I)|]. intros r n. rewrite top_all_In by apply (inv_lr g I). rewrite U.
  destruct (W w r); split; try tauto; try discriminate. intros [H _]. discriminate.
Qed.
Lemma uniW_remove W f g e n : uniW W f g -> f e = Some n -> uniW W (fun x => if eqb x e then None else f x) (remove_eojeol g e n) /\ origin (remove_eojeol g e n) = origin g.
Proof.
  intros (I & N & U) E. destruct (remove_splits_spec e n (seq 1 (length e)) (seq_NoDup _ _) (seq_le _) g I) as (I' & O & P).
  fold (remove_eojeol g e n) in I', O, P. split; [|exact O]. split; [exact I'|]. split; [exact N|]. intros l r. rewrite P, U.
  destruct (W l r) eqn:WL.
  - destruct (is_split e (seq 1 (length e)) l r) eqn:S.
    + apply is_split_seq in S as [_ <-]. rewrite eqb_refl, E. cbn [dec]. destruct (Z.leb_spec (n - n) 0); [reflexivity|lia].
    + destruct (eqb_spec (l ++ r) e) as [<-|_]; [|reflexivity]. exfalso. assert (X : is_split (l ++ r) (seq 1 (length (l ++ r))) l r = true); [|congruence].
      apply is_split_seq. split; [|reflexivity]. exact (N l r WL).
  - destruct (is_split e _ l r); reflexivity.
Qed.
Lemma uniW_remove_rows W w rows : forall f g, NoDup (map fst rows) -> (forall r n, In (r, n) rows -> f (w ++ r) = Some n) -> uniW W f g ->
  uniW W (fun x => if existsb (fun rc => eqb x (w ++ fst rc)) rows then None else f x) (remove_rows g w rows) /\ origin (remove_rows g w rows) = origin g.
Proof.
  induction rows as [|[r n] rows IH]; intros f g N H U; [split; [exact U|reflexivity]|].
  inversion N as [|? ? NI N']; subst. unfold remove_rows. cbn [fold_left fst snd].
  destruct (uniW_remove W f g (w ++ r) n U (H r n (or_introl eq_refl))) as [U1 O1].
  assert (HH : forall r' n', In (r', n') rows -> (if eqb (w ++ r') (w ++ r) then None else f (w ++ r')) = Some n').
  { intros r' n' I. destruct (eqb_spec (w ++ r') (w ++ r)) as [E|_]; [|apply H; right; exact I].
    apply app_inv_head in E. subst r'. exfalso. apply NI. apply in_map_iff. exists (r, n'). auto. }
  destruct (IH _ _ N' HH U1) as [U2 O2].
  unfold remove_rows in O2, U2. split; [|rewrite O2; exact O1]. eapply uniW_ext; [|exact U2]. intros x. cbn [existsb fst].
    destruct (eqb x (w ++ r)); cbn [orb]; [|reflexivity]. destruct (existsb _ rows); reflexivity.
Qed.
Definition beginsW (W : str -> str -> bool) (x w : str) : bool := eqb (firstn (length w) x) w && W w (skipn (length w) x).
Lemma beginsW_spec W x w : beginsW W x w = true <-> exists r, x = w ++ r /\ W w r = true.
Proof.
  unfold beginsW. rewrite andb_true_iff, eqb_eq. split.
  - intros [E H]. exists (skipn (length w) x). split; [rewrite <- E at 1; symmetry; apply firstn_skipn|exact H].
  - intros (r & -> & H). rewrite firstn_pre, skipn_pre. split; [reflexivity|exact H].
Qed.
Lemma uniW_take W f g w : uniW W f g ->
  uniW W (fun x => if beginsW W x w then None else f x) (remove_rows g w (get_r g w (-1))) /\ origin (remove_rows g w (get_r g w (-1))) = origin g.
Proof.
  intros U. destruct (uniW_rows W f g w U) as [N R]. assert (HR : forall r n, In (r, n) (get_r g w (-1)) -> f (w ++ r) = Some n) by (intros r n I; apply R in I; apply I).
  destruct (uniW_remove_rows W w _ f g N HR U) as [U1 O1]. split; [|exact O1]. eapply uniW_ext; [|exact U1]. intros x. cbv beta.
    destruct (beginsW W x w) eqn:B.
    + apply beginsW_spec in B as (r & -> & H). destruct (existsb _ _) eqn:E; [reflexivity|]. destruct (f (w ++ r)) as [n|] eqn:F; [|reflexivity]. exfalso.
      assert (I : In (r, n) (get_r g w (-1))) by (apply R; auto). rewrite <- not_true_iff_false in E. apply E. apply existsb_exists. exists (r, n). split; [exact I|apply eqb_refl].
    + destruct (existsb _ _) eqn:E; [|reflexivity]. apply existsb_exists in E as ([r n] & I & E). apply eqb_eq in E. cbn [fst] in E. subst x. apply R in I as [H _].
      assert (X : beginsW W (w ++ r) w = true) by (apply beginsW_spec; eauto). congruence.
Qed.

(** ** frequencies *)
Definition takenW (W : str -> str -> bool) (ws : list str) (x : str) : bool := existsb (beginsW W x) ws.
Lemma freq_loop W f todo : forall done g d, NoDup (done ++ todo) ->
  uniW W (fun x => if takenW W done x then None else f x) g ->
  (forall w n, dget d w = Some n -> In w done) ->
  let st := fold_left freq_step todo (g, d) in
  origin (fst st) = origin g /\ Inv (fst st) /\ (forall w, In w done -> dget (snd st) w = dget d w) /\
  forall a w b, todo = a ++ w :: b -> exists rows, NoDup (map fst rows) /\
    (forall r n, In (r, n) rows <-> W w r = true /\ f (w ++ r) = Some n /\ takenW W (done ++ a) (w ++ r) = false) /\ dget (snd st) w = Some (Zsum snd rows).
Proof.
  induction todo as [|w todo IH]; intros done g d ND U HD; cbv zeta; cbn [fold_left].
  - split; [reflexivity|]. split; [apply U|]. split; [reflexivity|]. intros [|? a] w b E; discriminate.
  - set (rows := get_r g w (-1)). assert (S : freq_step (g, d) w = (remove_rows g w rows, dset d w (Zsum snd rows))) by reflexivity. rewrite S.
    destruct (uniW_rows _ _ _ w U) as [NR R]. destruct (uniW_take _ _ _ w U) as [U1 O1]. fold rows in NR, R, U1, O1.
    assert (ND' : NoDup ((done ++ [w]) ++ todo)) by (rewrite <- app_assoc; exact ND).
    assert (NW : ~ In w done). { apply NoDup_remove_2 in ND. intros I. apply ND, in_app_iff. left. exact I. }
    destruct (IH (done ++ [w]) (remove_rows g w rows) (dset d w (Zsum snd rows)) ND') as (O2 & I2 & K2 & Q2).
    + eapply uniW_ext; [|exact U1]. intros x. cbv beta. unfold takenW. rewrite existsb_app. cbn [existsb]. rewrite orb_false_r. destruct (existsb (beginsW W x) done), (beginsW W x w); reflexivity.
    + intros w' n. rewrite dget_dset. destruct (eqb_spec w w') as [->|NE]; intros E; apply in_app_iff; [right; left; reflexivity|left; exact (HD _ _ E)].
    + split; [congruence|]. split; [exact I2|]. split.
      * intros x I. rewrite K2 by (apply in_app_iff; left; exact I). rewrite dget_dset. destruct (eqb_spec w x) as [->|_]; [contradiction|reflexivity].
      * intros [|y a] x b E.
        -- injection E as <- <-. rewrite app_nil_r. exists rows. split; [exact NR|]. split; [intros r n; rewrite R; destruct (takenW W done (w ++ r)); split; [intros [_ H]; discriminate|intros (_ & _ & H); discriminate|tauto|tauto]|].
           rewrite K2 by (apply in_app_iff; right; left; reflexivity). rewrite dget_dset, eqb_refl. reflexivity.
        -- injection E as <- E. destruct (Q2 a x b E) as (rs & A & B & C). exists rs. rewrite <- app_assoc in B. split; [exact A|]. split; [exact B|exact C].
Qed.
