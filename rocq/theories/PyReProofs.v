From Verif Require Import PyBase PyText PyRe NormalizerSpec.
Open Scope nat_scope.

Lemma prefixb_spec p s : prefixb p s = true <-> exists r, s = p ++ r.
Proof.
  revert s. induction p as [|c p IH]; intros s; simpl; [split; eauto|].
  destruct s as [|d s]; [split; [discriminate|intros (r & E); discriminate]|].
  rewrite andb_true_iff, N.eqb_eq, IH. split.
  - intros (-> & r & ->). eauto.
  - intros (r & E). injection E as -> ->. eauto.
Qed.

Lemma copies_times n b : copies n b = times n b.
Proof. unfold times. induction n as [|n IH]; simpl; congruence. Qed.

Lemma times_S n b : times (S n) b = b ++ times n b.
Proof. reflexivity. Qed.

Lemma times_length n b : length (times n b) = n * length b.
Proof. rewrite <- copies_times. induction n as [|n IH]; simpl; [reflexivity|]. rewrite app_length, IH. reflexivity. Qed.

Lemma count_copies_spec fuel b s : b <> [] -> length s <= fuel ->
  exists r, s = times (count_copies fuel b s) b ++ r /\ forall r', r <> b ++ r'.
Proof.
  intros NE. revert s. induction fuel as [|f IH]; intros s L; simpl.
  - destruct s; [|simpl in L; lia]. exists []. split; [reflexivity|]. intros r' E.
    destruct b; [congruence|discriminate].
  - destruct (prefixb b s) eqn:P.
    + apply prefixb_spec in P as (r & ->). rewrite skipn_app, Nat.sub_diag, skipn_all. simpl.
      destruct (IH r) as (r' & E & F). { rewrite app_length in L. destruct b; [congruence|]. simpl in L. lia. }
      exists r'. split; [|exact F]. rewrite times_S, <- app_assoc. f_equal. exact E.
    + exists s. split; [reflexivity|]. intros r' ->. assert (prefixb b (b ++ r') = true) by (apply prefixb_spec; eauto). congruence.
Qed.

Lemma times_max b i j r r' : b <> [] -> times i b ++ r = times j b ++ r' -> (forall x, r <> b ++ x) -> j <= i.
Proof.
  intros NE. revert j. induction i as [|i IH]; intros j E F.
  - destruct j as [|j]; [lia|]. exfalso. apply (F (times j b ++ r')). rewrite times_S, <- app_assoc in E. exact E.
  - destruct j as [|j]; [lia|]. apply le_n_S. apply (IH j); [|exact F].
    rewrite !times_S, <- !app_assoc in E. apply app_inv_head in E. exact E.
Qed.

Section Sub.
  Variable word : N -> bool.
  Variables k m n : nat.

  Lemma block_sub_skip i s : block_sub word k m n i s = block_sub word k m n 0 (skipn i s).
  Proof.
    revert i. induction s as [|c s IH]; intros i; [destruct i; reflexivity|].
    destruct i as [|i]; [reflexivity|]. simpl skipn. rewrite <- IH. reflexivity.
  Qed.

  Lemma block_match_some s j : 0 < k -> block_match word k m s = Some j ->
    exists b r, length b = k /\ Forall (fun c => word c = true) b /\ m <= j /\ s = times (1 + j) b ++ r /\ (forall x, r <> b ++ x) /\ b = firstn k s.
  Proof.
    intros K. unfold block_match. destruct ((length (firstn k s) =? k) && forallb word (firstn k s)) eqn:E; [|discriminate].
    apply andb_true_iff in E as [E1 E2]. apply Nat.eqb_eq in E1. rewrite forallb_forall in E2.
    destruct (m <=? _) eqn:E3; [|discriminate]. apply Nat.leb_le in E3. intros [= J].
    assert (NE : firstn k s <> []) by (intros X; rewrite X in E1; simpl in E1; lia).
    destruct (count_copies_spec (length s) (firstn k s) (skipn k s) NE) as (r & R & F); [rewrite skipn_length; lia|].
    rewrite J in R, E3. exists (firstn k s), r. repeat split; auto.
    - apply Forall_forall. exact E2.
    - change (1 + j) with (S j). rewrite times_S, <- app_assoc. rewrite <- R. symmetry. apply firstn_skipn.
  Qed.
  Lemma block_match_none s : 0 < k -> block_match word k m s = None ->
    forall b r, length b = k -> Forall (fun c => word c = true) b -> s <> times (1 + m) b ++ r.
  Proof.
    intros K M b r L F E. unfold block_match in M.
    assert (Fb : firstn k s = b).
    { rewrite E. simpl Nat.add. rewrite times_S, <- app_assoc, firstn_app, L, Nat.sub_diag, firstn_O, app_nil_r. rewrite <- L. apply firstn_all. }
    assert (Sb : skipn k s = times m b ++ r).
    { rewrite E. simpl Nat.add. rewrite times_S, <- app_assoc, skipn_app, L, Nat.sub_diag. rewrite <- L, skipn_all. reflexivity. }
    rewrite Fb, Sb in M. rewrite L, Nat.eqb_refl in M. rewrite Forall_forall in F.
    apply forallb_forall in F. rewrite F in M. simpl in M.
    assert (NE : b <> []) by (intros ->; simpl in L; lia).
    assert (LS : length (times m b ++ r) <= length s) by (rewrite E, !app_length, !times_length; simpl; lia).
    destruct (count_copies_spec (length s) b (times m b ++ r) NE LS) as (r' & R & X).
    assert (m <= count_copies (length s) b (times m b ++ r)) by (eapply times_max; [exact NE|symmetry; exact R|exact X]).
    destruct (m <=? _) eqn:E3; [discriminate|]. apply Nat.leb_gt in E3. lia.
  Qed.

  Lemma re_repeat_sub_hit b j s : 0 < k -> length b = k -> Forall (fun c => word c = true) b -> m <= j ->
    (forall x, s <> b ++ x) ->
    re_repeat_sub word k m n (times (1 + j) b ++ s) = times n b ++ re_repeat_sub word k m n s.
  Proof.
    intros K L F J X. unfold re_repeat_sub.
    remember (times (1 + j) b ++ s) as t eqn:T.
    assert (NE : b <> []) by (intros ->; simpl in L; lia).
    destruct t as [|c t]. { destruct b; [congruence|]. discriminate. }
    cbn [block_sub]. destruct (block_match word k m (c :: t)) as [j'|] eqn:M.
    - apply block_match_some in M; [|exact K]. destruct M as (b' & r & L' & F' & J' & E & X' & B).
      assert (EB : b' = b).
      { rewrite B, T. simpl Nat.add. rewrite times_S, <- app_assoc, firstn_app, L, Nat.sub_diag, firstn_O, app_nil_r. rewrite <- L. apply firstn_all. }
      clear B. subst b'. assert (j' = j).
      { assert (1 + j <= 1 + j') by (eapply (times_max b); [exact NE| |exact X']; rewrite <- E, T; reflexivity).
        assert (1 + j' <= 1 + j) by (eapply (times_max b); [exact NE| |exact X]; rewrite <- T, E; reflexivity). lia. }
      subst j'. assert (B : firstn k (c :: t) = b).
      { rewrite T. simpl Nat.add. rewrite times_S, <- app_assoc, firstn_app, L, Nat.sub_diag, firstn_O, app_nil_r. rewrite <- L. apply firstn_all. }
      rewrite B, copies_times. f_equal. rewrite block_sub_skip.
      assert (E2 : skipn (k * (1 + j) - 1) t = skipn (k * (1 + j)) (c :: t)).
      { replace (k * (1 + j)) with (S (k * (1 + j) - 1)) at 2 by nia. reflexivity. }
      rewrite E2, T, skipn_app, times_length, L.
      replace (k * (1 + j) - (1 + j) * k) with 0 by nia. rewrite skipn_all2 by (rewrite times_length; nia). reflexivity.
    - exfalso. apply (block_match_none _ K M b (times (j - m) b ++ s) L F).
      rewrite T. rewrite app_assoc. f_equal. unfold times. rewrite <- concat_app, <- repeat_app. f_equal. f_equal. lia.
  Qed.
  Lemma re_repeat_sub_miss c s : 0 < k ->
    (forall b r, length b = k -> Forall (fun c => word c = true) b -> c :: s <> times (1 + m) b ++ r) ->
    re_repeat_sub word k m n (c :: s) = c :: re_repeat_sub word k m n s.
  Proof.
    intros K X. unfold re_repeat_sub. cbn [block_sub]. destruct (block_match word k m (c :: s)) as [j'|] eqn:M; [|reflexivity].
    exfalso. apply block_match_some in M; [|exact K]. destruct M as (b & r & L & F & J & E & _).
    apply (X b (times (j' - m) b ++ r) L F). rewrite E, app_assoc. f_equal. unfold times. rewrite <- concat_app, <- repeat_app. f_equal. f_equal. lia.
  Qed.

  Theorem re_repeat_sub_spec s t : 0 < k -> (re_repeat_sub word k m n s = t <-> BlockSub word k m n s t).
  Proof.
    intros K. split.
    - intros <-. remember (length s) as l eqn:E. assert (L : length s <= l) by lia. clear E. revert s L.
      induction l as [|l IH]; intros s L; [destruct s; [constructor|simpl in L; lia]|].
      destruct s as [|c s]; [constructor|].
      destruct (block_match word k m (c :: s)) as [j|] eqn:M.
      + apply block_match_some in M; [|exact K]. destruct M as (b & r & Lb & F & J & E & X & _).
        rewrite E in L |- *. rewrite re_repeat_sub_hit by assumption. apply BS_hit; auto. apply IH.
        rewrite app_length, times_length in L. nia.
      + pose proof (block_match_none _ K M) as X. rewrite re_repeat_sub_miss by assumption.
        apply BS_miss; auto. apply IH. simpl in L. lia.
    - induction 1 as [|b j s t Lb F J X _ IH|c s t X _ IH].
      + reflexivity.
      + rewrite re_repeat_sub_hit by assumption. congruence.
      + rewrite re_repeat_sub_miss by assumption. congruence.
  Qed.

  (** no block stands m+1 times: unchanged *)
  Lemma re_repeat_sub_id s : 0 < k ->
    (forall a b r, length b = k -> Forall (fun c => word c = true) b -> s <> a ++ times (1 + m) b ++ r) ->
    re_repeat_sub word k m n s = s.
  Proof.
    intros K. induction s as [|c s IH]; intros X; [reflexivity|].
    rewrite re_repeat_sub_miss; [|exact K|].
    - f_equal. apply IH. intros a b r L F E. apply (X (c :: a) b r L F). rewrite E. reflexivity.
    - intros b r L F E. apply (X [] b r L F). exact E.
  Qed.
End Sub.

(** ** Single characters (k = 1): runs of equal characters *)
Lemma times_1 n c : times n [c] = repeat c n.
Proof. induction n as [|n IH]; [reflexivity|]. rewrite times_S, IH. reflexivity. Qed.

Definition shorten (word : N -> bool) (m n : nat) (g : N * nat) : N * nat :=
  if word (fst g) && (S m <=? snd g) then (fst g, n) else g.

Lemma re1_run word m n c r s : (match s with d :: _ => c <> d | [] => True end) ->
  re_repeat_sub word 1 m n (repeat c r ++ s) =
  repeat c (if word c && (S m <=? r) then n else r) ++ re_repeat_sub word 1 m n s.
Proof.
  intros X. destruct (word c && (S m <=? r)) eqn:E.
  - apply andb_true_iff in E as [W L]. apply Nat.leb_le in L.
    replace r with (1 + (r - 1)) by lia. rewrite <- times_1. rewrite (re_repeat_sub_hit word 1 m n [c] (r - 1) s); auto; try lia.
    + rewrite times_1. reflexivity.
    + intros x. simpl. intros ->. congruence.
  - revert E. induction r as [|r IH]; intros E; [reflexivity|].
    simpl. rewrite re_repeat_sub_miss; [|lia|].
    + f_equal. apply IH. destruct (word c); [|reflexivity]. apply Nat.leb_gt in E. apply Nat.leb_gt. lia.
    + intros b r' Lb F Eb. destruct b as [|d [|]]; try discriminate. rewrite times_1 in Eb.
      simpl in Eb. injection Eb as -> Eb. inversion F as [|? ? W _]; subst. rewrite W in E. apply Nat.leb_gt in E.
      clear - X Eb E. (* repeat d r ++ s = repeat d m ++ r', r < m *)
      assert (G : forall i j, repeat d i ++ s = repeat d j ++ r' -> i < j -> False).
      { induction i as [|i IHi]; intros j Ej Lj; (destruct j as [|j]; [lia|]); simpl in Ej.
        - destruct s as [|x s]; [discriminate|]. injection Ej as -> _. congruence.
        - injection Ej as Ej. apply (IHi j Ej). lia. }
      apply (G _ _ Eb). lia.
Qed.

Lemma expand_cons c r t : expand ((c, r) :: t) = repeat c r ++ expand t.
Proof. reflexivity. Qed.
Lemma expand_hd t : match t with (d, _) :: _ => maximal t -> hd_error (expand t) = Some d | [] => hd_error (expand t) = None end.
Proof.
  destruct t as [|[d r] t]; [reflexivity|]. intros (P & _). rewrite expand_cons. destruct r; [lia|]. reflexivity.
Qed.
Lemma expand_cons_hd c r t : maximal ((c, r) :: t) -> match expand t with d :: _ => c <> d | [] => True end.
Proof.
  intros (P & D & M). pose proof (expand_hd t) as H. destruct t as [|[d r'] t].
  - destruct (expand []) eqn:E; [exact I|discriminate].
  - specialize (H M). destruct (expand ((d, r') :: t)); [exact I|]. injection H as ->. exact D.
Qed.

Theorem re1_expand word m n gs : maximal gs ->
  re_repeat_sub word 1 m n (expand gs) = expand (map (shorten word m n) gs).
Proof.
  induction gs as [|[c r] t IH]; intros M; [reflexivity|].
  rewrite expand_cons, re1_run by (eapply expand_cons_hd; exact M).
  simpl map. destruct M as (_ & _ & M). rewrite (IH M). unfold shorten at 2. simpl fst. simpl snd.
  destruct (word c && (S m <=? r)); rewrite expand_cons; reflexivity.
Qed.

Theorem expand_exists s : exists gs, maximal gs /\ expand gs = s.
Proof.
  induction s as [|c s (gs & M & E)]; [exists []; split; [exact I|reflexivity]|].
  destruct gs as [|[d r] t].
  - exists [(c, 1)]. simpl in E. subst s. split; [simpl; auto|reflexivity].
  - destruct (N.eq_dec c d) as [->|NE].
    + exists ((d, S r) :: t). split; [|rewrite expand_cons in *; simpl; congruence].
      destruct M as (P & D & M). simpl. split; [lia|auto].
    + exists ((c, 1) :: (d, r) :: t). split; [simpl in *; intuition lia|]. rewrite expand_cons. simpl. f_equal. exact E.
Qed.

Lemma maximal_shorten word m n gs : 0 < n -> maximal gs -> maximal (map (shorten word m n) gs).
Proof.
  intros P. induction gs as [|[c r] t IH]; intros M; [exact I|].
  destruct M as (R & D & M). simpl. unfold shorten at 1. simpl.
  assert (X : match map (shorten word m n) t with (d, _) :: _ => c <> d | [] => True end).
  { destruct t as [|[d r'] t]; [exact I|]. simpl. unfold shorten. simpl. destruct (word d && _); exact D. }
  destruct (word c && _); simpl; auto.
Qed.

Lemma rev_repeat_eq {A} (c : A) r : rev (repeat c r) = repeat c r.
Proof. induction r as [|r IH]; [reflexivity|]. simpl. rewrite IH. symmetry. apply repeat_cons. Qed.

(** concatenation at a boundary between different characters *)
Lemma re1_app word m n a x b : (match rev a with c :: _ => c <> x | [] => True end) ->
  re_repeat_sub word 1 m n (a ++ x :: b) = re_repeat_sub word 1 m n a ++ re_repeat_sub word 1 m n (x :: b).
Proof.
  intros D. destruct (expand_exists a) as (gs & M & <-). revert M D. induction gs as [|[c r] t IH]; intros M D; [reflexivity|].
  rewrite expand_cons. rewrite <- app_assoc.
  rewrite re1_run. 2:{ pose proof (expand_cons_hd _ _ _ M) as X. destruct (expand t) as [|d e] eqn:E; [|exact X].
    simpl. rewrite expand_cons, E, app_nil_r in D. destruct M as (P & _). destruct r; [lia|].
    rewrite rev_repeat_eq in D. simpl in D. exact D. }
  rewrite re1_run by (eapply expand_cons_hd; exact M). rewrite <- app_assoc. f_equal. apply IH.
  - apply M.
  - rewrite expand_cons, rev_app_distr in D. destruct (rev (expand t)); [exact I|exact D].
Qed.
