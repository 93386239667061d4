(** * C89: which dicts an LRGraph shares with its caller (model: AliasModel.v, with explicit references) *)
From Coq Require Import List ZArith Lia Bool.
Import ListNotations.
From Verif Require Import PyBase PyDict UtilsModel UtilsSpec UtilsProofs AliasModel AliasSpec AliasProofs AliasProofs2 AliasProofs3 AliasProofs4 AliasProofs5.
Open Scope Z_scope.

(** the object behaves as the model without references (UtilsModel.v) says, whatever it shares, as long as the caller does not write *)
Theorem C89_object h c plain kind lm rm hg0 : callers_dict h c -> construct h c plain kind lm rm = Ok hg0 ->
  lrg_new (read h c) [] lm rm = Ok (denotes hg0) /\ forall ops, denotes (hrun hg0 ops) = history (denotes hg0) ops.
Proof.
  destruct hg0 as [h' g]. intros CD E. destruct (construct_spec h c plain kind lm rm h' g CD E) as (S & L1 & L2 & D & _). split; [|intros ops; apply run_sim, S].
  rewrite D. unfold lrg_new. replace (lm >? 1) with true by (symmetry; apply Z.gtb_lt; lia). replace (rm >? 0) with true by (symmetry; apply Z.gtb_lt; lia). cbn [negb bind]. destruct (read h c); reflexivity.
Qed.
Lemma empty_history ops g : lr g = [] -> rl g = [] -> origin g = Some [] \/ origin g = None -> lr (history g ops) = [].
Proof.
  revert g. induction ops as [|o ops IH]; intros g E1 E2 E3; [exact E1|]. unfold history. cbn [fold_left].
  assert (SA : forall l r c, add_lr_pair g l r c = (g, Some KeyError)) by (intros; unfold add_lr_pair, add2; rewrite E1; reflexivity).
  assert (SR : forall l r c, remove_lr_pair g l r c = g) by (intros; unfold remove_lr_pair; rewrite E1; cbn [set_lr rl]; rewrite E2; destruct g; cbn in *; subst; reflexivity).
  assert (X : step g o = g \/ step g o = freeze g).
  { destruct o as [l r c|e c|l r c|e c| |]; cbn [step]; [rewrite SA; auto| |rewrite SR; auto| | |auto].
    - unfold add_eojeol. destruct (seq 1 (length e)) as [|i is]; cbn [add_splits]; [auto|rewrite SA; auto].
    - left. unfold remove_eojeol. generalize (seq 1 (length e)). intros l. induction l as [|i l IHl]; [reflexivity|]. cbn [fold_left]. rewrite SR. exact IHl.
    - left. unfold reset_lrgraph. destruct E3 as [-> | ->]; reflexivity. }
  destruct X as [-> | ->]; apply IH; auto.
Qed.
Lemma empty_read h c plain kind lm rm h' g ops : callers_dict h c -> construct h c plain kind lm rm = Ok (h', g) -> outv h c = [] -> read (fst (hrun (h', g) ops)) c = [] /\ forall ops', lr (history (denotes (h', g)) ops') = [].
Proof.
  intros CD E Z. destruct (construct_spec h c plain kind lm rm h' g CD E) as (S & _ & _ & D & _ & [(_ & N & DJ)|(_ & X & _)]); [|congruence].
  assert (R : read h c = []) by (apply read_nil, Z). split.
  - rewrite apart_run; [rewrite (st_read _ _ _ _ S); exact R|apply S|]. constructor; try assumption; apply S.
  - intros ops'. rewrite D, R. apply empty_history; [reflexivity|reflexivity|left; reflexivity].
Qed.
(** ** a plain dict of plain dicts is shared: until the first reset_lrgraph that is not preceded by freeze, the caller's dict is the
    object's graph, every call on the object is a call on the caller's dict, removed pairs and left parts disappear from it;
    from that reset on the object leaves it as it was then *)
Theorem C89_shared h c lm rm hg0 ops : callers_dict h c -> construct h c true KDict lm rm = Ok hg0 ->
  read (fst (hrun hg0 ops)) c = lr (history (denotes hg0) (until_reset ops)).
Proof.
  destruct hg0 as [h' g]. intros CD E. destruct (construct_spec h c true KDict lm rm h' g CD E) as (S & L1 & L2 & D & NO & [([Zc|Zc] & N & DJ)|(_ & NE & EQ)]).
  - destruct (empty_read h c true KDict lm rm h' g ops CD E Zc) as [E1 E2]. rewrite E1, E2. reflexivity.
  - discriminate.
  - destruct (o_or g) as [o|] eqn:Eo; [|congruence]. apply (follow c (fun h a b => a = c /\ bounded h c) (fun d => d)) with o.
    + intros h1 a b [_ B]. exact B.
    + intros h1 g1 _ [X _]. rewrite X. reflexivity.
    + intros h1 h2 g1 _ P [X B]. split; [exact X|]. destruct (prim_touches _ _ _ P) as [T|T]; eapply touches_bounded; eassumption.
    + apply S.
    + split; [exact EQ|apply S].
    + exact Eo.
    + intros X. assert (Y : origin (denotes (h', g)) = Some []) by (unfold denotes; cbn [fst snd origin]; rewrite Eo; cbn [option_map]; f_equal; apply read_nil, X).
      rewrite D in Y. cbn [origin] in Y. apply NE, read_nil. congruence.
Qed.
(** ** another mapping of plain dicts is copied, its rows are shared: its keys stay, the row of a left part the object has dropped is
    empty *)
Theorem C89_rows_shared h c lm rm hg0 ops : callers_dict h c -> construct h c false KDict lm rm = Ok hg0 ->
  read (fst (hrun hg0 ops)) c = map (fun l => (l, dgetd (lr (history (denotes hg0) (until_reset ops))) l [])) (map fst (read h c)).
Proof.
  destruct hg0 as [h' g]. intros CD E. destruct (construct_spec h c false KDict lm rm h' g CD E) as (S & L1 & L2 & D & NO & [([Zc|Zc] & N & DJ)|(_ & NE & N & EQ)]).
  - destruct (empty_read h c false KDict lm rm h' g ops CD E Zc) as [E1 E2]. rewrite E1. replace (read h c) with (@nil (str * dict str Z)) by (symmetry; apply read_nil, Zc). reflexivity.
  - discriminate.
  - destruct (o_or g) as [o|] eqn:Eo; [|congruence]. destruct CD as (Lc & NK & NR & Bc & G). rewrite read_keys. apply (follow c (rows_of (outv h c) c) (fun d => map (fun l => (l, dgetd d l [])) (map fst (outv h c)))) with o.
    + intros h1 a b X. apply X.
    + intros h1 g1 O X. apply (rows_read _ _ _ _ NK O X).
    + intros h1 h2 g1 O P X. apply (rows_prim _ _ _ _ _ NR NK O P X).
    + apply S.
    + constructor; [apply S|apply S|exact N|apply S| | |].
      * intros i J J'. apply (st_drl _ _ _ _ S i J). unfold refs. rewrite (st_out _ _ _ _ S). exact J'.
      * rewrite EQ, (st_out _ _ _ _ S). auto.
      * intros l i J1 J2. exfalso. apply J2. rewrite EQ, (st_out _ _ _ _ S). exact J1.
    + exact Eo.
    + intros X. assert (Y : origin (denotes (h', g)) = Some []) by (unfold denotes; cbn [fst snd origin]; rewrite Eo; cbn [option_map]; f_equal; apply read_nil, X).
      rewrite D in Y. cbn [origin] in Y. apply NE, read_nil. congruence.
Qed.
(** ** a dict of defaultdicts is copied: no call on the object changes it *)
Theorem C89_copied h c plain lm rm hg0 ops : callers_dict h c -> construct h c plain KDefaultdict lm rm = Ok hg0 -> read (fst (hrun hg0 ops)) c = read h c.
Proof.
  destruct hg0 as [h' g]. intros CD E. destruct (construct_spec h c plain KDefaultdict lm rm h' g CD E) as (S & L1 & L2 & D & NO & [(_ & N & DJ)|(Z & _)]); [|discriminate].
  rewrite apart_run; [apply S|apply S|]. constructor; try assumption; apply S.
Qed.
(** ** what the caller writes to his dict *)
(** reset_lrgraph gives back the graph as it was constructed, whatever was called and whatever the caller wrote to the dict he passed *)
Theorem C89_reset_restores h c plain kind lm rm hg0 ops hg K : callers_dict h c -> construct h c plain kind lm rm = Ok hg0 -> read h c <> [] ->
  mixed c (map snd (outv h c)) hg0 ops hg K -> ~ In OpFreeze ops -> denotes (hstep hg OpReset) = denotes hg0.
Proof.
  destruct hg0 as [h' g]. intros CD E NE M NF. pose proof (stands_iso h c plain kind lm rm (h', g) CD E) as X. destruct (construct_spec h c plain kind lm rm h' g CD E) as (S & _ & _ & D & NO & _).
  destruct (mixed_iso _ _ _ _ _ _ M X) as (Y & O & L1 & L2 & _). cbn [fst snd] in *. assert (U : Forall unfrozen ops) by (apply Forall_forall; intros o J ->; contradiction). destruct (O U) as [O1 O2]. destruct (o_or g) as [o|] eqn:Eo; [|congruence].
  destruct hg as [h1 g1]. cbn [fst snd hstep] in *. destruct (O2 o Eo) as [R1 R2].
  assert (RO : read h' o = read h c) by (assert (Q : origin (denotes (h', g)) = Some (read h' o)) by (unfold denotes; cbn [fst snd origin]; rewrite Eo; reflexivity); rewrite D in Q; cbn [origin] in Q; congruence).
  assert (NO1 : outv h1 o <> []) by (rewrite R2; intros Q; apply NE; rewrite <- RO; apply read_nil, Q). rewrite (hreset_some h1 g1 o O1 NO1), D, <- RO, <- R1.
  pose proof (is_or _ _ _ _ Y) as W. rewrite O1 in W. destruct W as (B & _).
  set (h2 := fst (alloc h1 (read h1 o))). assert (B2 : bounded h2 o) by apply alloc_bounded, B. assert (Bn : bounded h2 (nout h1)) by apply alloc_new_bounded.
  assert (D1 : o_lm g = lm /\ o_rm g = rm) by (split; [exact (f_equal l_max D)|exact (f_equal r_max D)]). destruct D1 as [D1 D2].
  unfold denotes. cbn [fst snd o_lr o_rl o_or o_lm o_rm option_map]. rewrite L1, L2, D1, D2. rewrite alloc_old_read by exact Bn. rewrite (alloc_old_read h2 _ o B2). rewrite alloc_read. unfold h2. rewrite !alloc_read, alloc_old_read by exact B. reflexivity.
Qed.
(** a write of the caller never changes what get_l returns, nor the origin; if he passed a plain dict of plain dicts, get_r answers
    from the dict as he left it *)
Theorem C89_callers_write h c plain kind lm rm hg0 ops h1 g1 K h2 K2 : callers_dict h c -> construct h c plain kind lm rm = Ok hg0 ->
  mixed c (map snd (outv h c)) hg0 ops (h1, g1) K -> callers_write c K h1 h2 K2 ->
  (forall r k, get_l (denotes (h2, g1)) r k = get_l (denotes (h1, g1)) r k) /\ origin (denotes (h2, g1)) = origin (denotes (h1, g1)) /\
  (plain = true -> kind = KDict -> read h c <> [] -> ~ In OpReset ops -> forall l k, get_r (denotes (h2, g1)) l k = top_items (read h2 c) l k).
Proof.
  intros CD E M W. pose proof (stands_iso h c plain kind lm rm hg0 CD E) as X. destruct (mixed_iso _ _ _ _ _ _ M X) as (Y & _ & _ & _ & L). cbn [fst snd] in *. destruct (iso_write _ _ _ _ _ _ W Y) as (_ & SO & R). split; [|split].
  - intros r k. unfold get_l, denotes. cbn [fst snd rl]. rewrite R. reflexivity.
  - unfold denotes. cbn [fst snd origin]. destruct (o_or g1) as [o|] eqn:Eo; [|reflexivity]. cbn [option_map]. rewrite (proj1 (SO o Eo)). reflexivity.
  - intros -> -> NE NR l k. destruct hg0 as [h' g]. cbn [snd] in L. destruct (construct_spec h c true KDict lm rm h' g CD E) as (_ & _ & _ & _ & _ & [([Z|Z] & _)|(_ & _ & EQ)]); [exfalso; apply NE, read_nil, Z|discriminate|].
    unfold get_r, denotes. cbn [fst snd lr]. rewrite (L NR), EQ. reflexivity.
Qed.

(** ** non-vacuity and refutations *)
Definition ex_heap : heap := mkHeap (fun i => match i with 0%nat => [(u "b", 1); (u "c", 2)] | 1%nat => [(u "b", 3)] | _ => [] end) (fun o => match o with 0%nat => [(u "a", 0%nat); (u "x", 1%nat)] | _ => [] end) 2 1.
Lemma ex_callers : callers_dict ex_heap 0.
Proof.
  unfold callers_dict. split; [vm_compute; lia|]. split; [|split; [|split]].
  - repeat constructor; cbn; intuition discriminate.
  - repeat constructor; cbn; intuition discriminate.
  - cbn. intros i [<-|[<-|[]]]; lia.
  - split; [repeat constructor; cbn; intuition discriminate|]. repeat constructor; cbn; intuition discriminate.
Qed.
Definition ex_hg (plain : bool) (kind : row_kind) : heap * obj := match construct ex_heap 0 plain kind 10 9 with Ok hg => hg | Err _ => (ex_heap, mkObj 0 0 None 10 9) end.
Example C89_ex_shared : exists hg, construct ex_heap 0 true KDict 10 9 = Ok hg /\ o_lr (snd hg) = 0%nat /\
  read (fst (hrun hg [OpRemove (u "x") (u "b") 3; OpAdd (u "a") (u "c") 5])) 0 = [(u "a", [(u "b", 1); (u "c", 7)])] /\
  read (fst (hrun hg [OpRemove (u "x") (u "b") 3; OpReset; OpAdd (u "a") (u "c") 5])) 0 = [(u "a", [(u "b", 1); (u "c", 2)])].
Proof. exists (ex_hg true KDict). split; [reflexivity|]. vm_compute. repeat split. Qed.
Example C89_ex_rows_shared : exists hg, construct ex_heap 0 false KDict 10 9 = Ok hg /\
  read (fst (hrun hg [OpRemove (u "x") (u "b") 3; OpAdd (u "a") (u "c") 5])) 0 = [(u "a", [(u "b", 1); (u "c", 7)]); (u "x", [])].
Proof. exists (ex_hg false KDict). split; reflexivity. Qed.
Example C89_ex_copied : exists hg, construct ex_heap 0 true KDefaultdict 10 9 = Ok hg /\
  read (fst (hrun hg [OpRemove (u "x") (u "b") 3; OpAdd (u "a") (u "c") 5])) 0 = read ex_heap 0.
Proof. exists (ex_hg true KDefaultdict). split; reflexivity. Qed.
(** the caller's [d\['a'\]\['b'\] = 7] *)
Lemma ex_write : callers_write 0 [0; 1]%nat (fst (ex_hg true KDict)) (set_row (fst (ex_hg true KDict)) 0 [(u "b", 7); (u "c", 2)]) [0; 1]%nat.
Proof.
  unfold callers_write, set_row. cbn [nrow nout outv rowv]. split; [lia|]. split; [lia|]. split; [auto|]. split; [|split; [|auto]].
  - intros i _ NI. destruct (Nat.eqb_spec i 0) as [->|]; [exfalso; apply NI; left; reflexivity|reflexivity].
  - intros i J. vm_compute in J. vm_compute. tauto.
Qed.
(** the claims that an LRGraph owns its data: constructing one never gives the caller's dict away, *)
Theorem C89_argument_untouched_refuted : exists h c hg0 ops, callers_dict h c /\ construct h c true KDict 10 9 = Ok hg0 /\ read (fst (hrun hg0 ops)) c <> read h c.
Proof. exists ex_heap, 0%nat, (ex_hg true KDict), [OpRemove (u "x") (u "b") 1]. split; [apply ex_callers|]. split; [reflexivity|]. vm_compute. discriminate. Qed.
(** and get_r and get_l of one object agree on the count of a pair, do not hold when the caller goes on using his dict *)
Theorem C89_views_agree_refuted : exists h c hg0 h2 K l r, callers_dict h c /\ construct h c true KDict 10 9 = Ok hg0 /\
  callers_write c (map snd (outv h c)) (fst hg0) h2 K /\ seen_from_l (denotes (h2, snd hg0)) l r = Some 7 /\ seen_from_r (denotes (h2, snd hg0)) l r = Some 1.
Proof.
  exists ex_heap, 0%nat, (ex_hg true KDict), (set_row (fst (ex_hg true KDict)) 0 [(u "b", 7); (u "c", 2)]), [0; 1]%nat, (u "a"), (u "b"). split; [apply ex_callers|]. split; [reflexivity|]. split; [exact ex_write|]. split; reflexivity.
Qed.
Example C89_ex_mixed : mixed 0 (map snd (outv ex_heap 0)) (ex_hg true KDict) [OpRemove (u "x") (u "b") 3] (hstep (set_row (fst (ex_hg true KDict)) 0 [(u "b", 7); (u "c", 2)], snd (ex_hg true KDict)) (OpRemove (u "x") (u "b") 3)) [0; 1]%nat.
Proof.
  change (map snd (outv ex_heap 0)) with [0; 1]%nat. rewrite (surjective_pairing (ex_hg true KDict)) at 1. eapply mixed_write; [apply ex_write|]. apply mixed_op. apply mixed_nil.
Qed.
Print Assumptions C89_object.
Print Assumptions C89_shared.
Print Assumptions C89_rows_shared.
Print Assumptions C89_copied.
Print Assumptions C89_reset_restores.
Print Assumptions C89_callers_write.
Print Assumptions C89_argument_untouched_refuted.
Print Assumptions C89_views_agree_refuted.
