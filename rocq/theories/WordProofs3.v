(** Proofs about WordExtractor.train: exact counts *)
From Coq Require Import Reals QArith.
From Verif Require Import PyBase PyDict PySort PyText CountLemmas UtilsProofs WordModel WordSpec WordProofs WordProofs2.
Open Scope Z_scope.

Definition cL (ml : Z) (w : str) (ss : list str) : Z := if len_in w (ml + 1) then n_prefix w ss else 0.
Definition cR (mr : Z) (w : str) (ss : list str) : Z := if len_in w mr then n_suffix w ss else 0.
Lemma cL_cons ml w s ss : cL ml w (s :: ss) = dL ml w s + cL ml w ss.
Proof. unfold cL, dL, n_prefix, eojeols. cbn [map concat]. rewrite count_app. destruct (len_in w (ml + 1)); lia. Qed.
Lemma cR_cons mr w s ss : cR mr w (s :: ss) = dR mr w s + cR mr w ss.
Proof. unfold cR, dR, n_suffix, eojeols. cbn [map concat]. rewrite count_app. destruct (len_in w mr); lia. Qed.
Lemma before_cons mr w c s ss : n_before mr w c (s :: ss) = count (before mr w c) (ring_next (split s)) + n_before mr w c ss.
Proof. unfold n_before, neighbours. cbn [map concat]. rewrite count_app. reflexivity. Qed.
Lemma after_cons ml w c s ss : n_after ml w c (s :: ss) = count (after ml w c) (ring_next (split s)) + n_after ml w c ss.
Proof. unfold n_after, neighbours. cbn [map concat]. rewrite count_app. reflexivity. Qed.
Lemma ring_next_short ws : (length ws <= 1)%nat -> ring_next ws = [].
Proof. intros L. unfold ring_next. destruct (Nat.leb_spec (length ws) 1); [reflexivity|lia]. Qed.
Lemma cL_nonneg ml w ss : 0 <= cL ml w ss. Proof. unfold cL, n_prefix. destruct (len_in _ _); [apply count_nonneg|lia]. Qed.
Lemma cR_nonneg mr w ss : 0 <= cR mr w ss. Proof. unfold cR, n_suffix. destruct (len_in _ _); [apply count_nonneg|lia]. Qed.

Definition pruned_at (nfp i : Z) : bool := (nfp >? 0) && (i mod nfp =? 0).
Lemma sent_spec nfp x i s : Inv x ->
  let y := train_sent nfp x i s in
  let p := pruned_at nfp i && (1 <? length (split s))%nat in
  (forall w, dgetd (wL y) w 0 = (if p then at_least (min_freq x) else (fun n => n)) (dgetd (wL x) w 0 + dL (max_left x) w s)) /\
  (forall w, dgetd (wR y) w 0 = (if p then at_least (min_freq x) else (fun n => n)) (dgetd (wR x) w 0 + dR (max_right x) w s)) /\
  (forall w c, dgetd (waL y) (w ++ [SP; c]) 0 = dgetd (waL x) (w ++ [SP; c]) 0 + count (before (max_right x) w c) (ring_next (split s))) /\
  (forall w c, dgetd (waR y) (c :: SP :: w) 0 = dgetd (waR x) (c :: SP :: w) 0 + count (after (max_left x) w c) (ring_next (split s))).
Proof.
  intros I. unfold train_sent, pruned_at. pose proof (Inv_bump x s I) as I1. cbv zeta in I1. destruct I1 as [A B _ _ _ _ _ _ _ _]. cbn [wL wR] in A, B.
  destruct (Nat.leb_spec (length (split s)) 1) as [L|L].
  - destruct (Nat.ltb_spec 1 (length (split s))); [lia|]. rewrite !andb_false_r. cbn [wL wR waL waR]. rewrite ring_next_short by exact L.
    repeat split; intros; rewrite ?bump_get, ?sent_L, ?sent_R; try reflexivity; cbn; lia.
  - destruct (Nat.ltb_spec 1 (length (split s))); [|lia]. rewrite !andb_true_r.
    destruct ((nfp >? 0) && (i mod nfp =? 0)); cbn [wL wR waL waR]; repeat split; intros; rewrite ?prune_getd by assumption; rewrite ?bump_get, ?sent_L, ?sent_R, ?sent_aL, ?sent_aR by exact L; reflexivity.
Qed.
Lemma loop_a nfp ss : forall x i, Inv x ->
  (forall w c, dgetd (waL (train_loop nfp x i ss)) (w ++ [SP; c]) 0 = dgetd (waL x) (w ++ [SP; c]) 0 + n_before (max_right x) w c ss) /\
  (forall w c, dgetd (waR (train_loop nfp x i ss)) (c :: SP :: w) 0 = dgetd (waR x) (c :: SP :: w) 0 + n_after (max_left x) w c ss).
Proof.
  induction ss as [|s ss IH]; intros x i I; cbn [train_loop].
  - split; intros; unfold n_before, n_after, neighbours; cbn; lia.
  - destruct (sent_spec nfp x i s I) as (_ & _ & A & B). pose proof (train_sent_params nfp x i s) as P. injection P as P1 P2 P3.
    destruct (IH (train_sent nfp x i s) (i + 1) (Inv_sent nfp x i s I)) as [A' B']. rewrite P1, P2 in *.
    split; intros; rewrite ?A', ?B', ?A, ?B, ?before_cons, ?after_cons; lia.
Qed.
Lemma loop_plain nfp ss : nfp <= 0 -> forall x i, Inv x ->
  (forall w, dgetd (wL (train_loop nfp x i ss)) w 0 = dgetd (wL x) w 0 + cL (max_left x) w ss) /\
  (forall w, dgetd (wR (train_loop nfp x i ss)) w 0 = dgetd (wR x) w 0 + cR (max_right x) w ss).
Proof.
  intros H. induction ss as [|s ss IH]; intros x i I; cbn [train_loop].
  - split; intros; unfold cL, cR; cbn; destruct (len_in _ _); lia.
  - destruct (sent_spec nfp x i s I) as (A & B & _). pose proof (train_sent_params nfp x i s) as P. injection P as P1 P2 P3.
    destruct (IH (train_sent nfp x i s) (i + 1) (Inv_sent nfp x i s I)) as [A' B']. rewrite P1, P2 in *.
    assert (E : pruned_at nfp i = false) by (unfold pruned_at; destruct (Z.gtb_spec nfp 0); [lia|reflexivity]). rewrite E in A, B. cbn [andb] in A, B.
    split; intros; rewrite ?A', ?B', ?A, ?B, ?cL_cons, ?cR_cons; lia.
Qed.
(** with pruning, the count is that of a final segment of the corpus, cut just after a pruning point *)
Lemma loop_pruned nfp : forall ss x i, Inv x ->
  (forall w, dgetd (wL (train_loop nfp x i ss)) w 0 = dgetd (wL x) w 0 + cL (max_left x) w ss \/
    exists j, (1 <= j <= length ss)%nat /\ pruned_at nfp (i + Z.of_nat j - 1) = true /\ dgetd (wL (train_loop nfp x i ss)) w 0 = cL (max_left x) w (skipn j ss)) /\
  (forall w, dgetd (wR (train_loop nfp x i ss)) w 0 = dgetd (wR x) w 0 + cR (max_right x) w ss \/
    exists j, (1 <= j <= length ss)%nat /\ pruned_at nfp (i + Z.of_nat j - 1) = true /\ dgetd (wR (train_loop nfp x i ss)) w 0 = cR (max_right x) w (skipn j ss)).
Proof.
  induction ss as [|s ss IH]; intros x i I; cbn [train_loop].
  - split; intros; left; unfold cL, cR; cbn; destruct (len_in _ _); lia.
  - destruct (sent_spec nfp x i s I) as (A & B & _). pose proof (train_sent_params nfp x i s) as P. injection P as P1 P2 P3.
    destruct (IH (train_sent nfp x i s) (i + 1) (Inv_sent nfp x i s I)) as [A' B']. rewrite P1, P2 in *.
    split; intros w; [specialize (A' w); specialize (A w)|specialize (B' w); specialize (B w); rename A' into X; rename B' into A'; rename A into Y; rename B into A];
    (destruct A' as [A'|(j & J & PJ & A')];
    [|right; exists (S j); split; [cbn [length]; lia|split; [replace (i + Z.of_nat (S j) - 1) with (i + 1 + Z.of_nat j - 1) by lia; exact PJ|exact A']]]);
    rewrite A', A, ?cL_cons, ?cR_cons; (destruct (pruned_at nfp i) eqn:PA; cbn [andb]; [|left; lia]); (destruct (1 <? length (split s))%nat; [|left; lia]);
    unfold at_least; (match goal with |- context [?m <=? ?n] => destruct (Z.leb_spec m n); [left; lia|] end); right; exists 1%nat; (split; [cbn [length]; lia|]); (split; [replace (i + Z.of_nat 1 - 1) with i by lia; exact PA|]); cbn [skipn]; lia.
Qed.

Definition base (x : wx) (cm : bool) : wx := if cm then x else mkWx [] [] [] [] (max_left x) (max_right x) (min_freq x).
Lemma train_eq x ss nfp cm y : train x ss nfp cm = Ok y -> Inv x -> Inv (base x cm) /\ params (base x cm) = params x /\ 
  let z := train_loop nfp (base x cm) 0 ss in Inv z /\ params z = params x /\
  (forall w, dgetd (wL y) w 0 = at_least (min_freq x) (dgetd (wL z) w 0)) /\ (forall w, dgetd (wR y) w 0 = at_least (min_freq x) (dgetd (wR z) w 0)) /\
  (forall w, dgetd (waL y) w 0 = at_least 2 (dgetd (waL z) w 0)) /\ (forall w, dgetd (waR y) w 0 = at_least 2 (dgetd (waR z) w 0)).
Proof.
  intros T I. assert (I0 : Inv (base x cm)) by (unfold base; destruct cm; [exact I|apply Inv_empty]).
  assert (P0 : params (base x cm) = params x) by (unfold base; destruct cm; reflexivity).
  split; [exact I0|]. split; [exact P0|]. unfold train in T. destruct ss as [|s ss]; [discriminate|]. fold (base x cm) in T. intros z. fold z in T.
  assert (Iz : Inv z) by (apply Inv_loop, I0). assert (Pz : params z = params x) by (unfold z; rewrite train_loop_params; exact P0).
  split; [exact Iz|]. split; [exact Pz|]. injection Pz as P1 P2 P3. rewrite <- P3. injection T as <-. cbn [wL wR waL waR].
  destruct Iz. repeat split; intros; rewrite ?prune_getd, ?prune_a_getd by assumption; reflexivity.
Qed.
