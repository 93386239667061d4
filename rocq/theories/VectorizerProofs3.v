(** * Proofs about the word-context matrix *)
From Coq Require Import QArith Qround Lqa.
From Verif Require Import PyBase PyDict PySort PyText PyFile CountLemmas SortLemmas QLemmas UtilsSpec UtilsProofs UtilsProofs3 UtilsProofs5 VectorizerModel VectorizerSpec VectorizerProofs VectorizerProofs2.
Open Scope Z_scope.

(** ** sums *)
Lemma Qsum_cons x l : (Qsum (x :: l) == x + Qsum l)%Q. Proof. reflexivity. Qed.
Lemma Qsum_app l1 l2 : (Qsum (l1 ++ l2) == Qsum l1 + Qsum l2)%Q.
Proof.
  induction l1 as [|x l1 IH]; [change (Qsum l2 == 0 + Qsum l2)%Q; ring|]. change (x + Qsum (l1 ++ l2) == x + Qsum l1 + Qsum l2)%Q. rewrite IH. ring.
Qed.
Lemma Qsum_ext {A} (f g : A -> Q) l : (forall x, In x l -> f x == g x)%Q -> (Qsum (map f l) == Qsum (map g l))%Q.
Proof.
  induction l as [|x l IH]; intros E; [reflexivity|]. cbn [map]. rewrite !Qsum_cons. rewrite (E x (or_introl eq_refl)), IH; [reflexivity|]. intros y I. apply E. right. exact I.
Qed.
Lemma Qsum_zero {A} (f : A -> Q) l : (forall x, In x l -> f x == 0)%Q -> (Qsum (map f l) == 0)%Q.
Proof.
  induction l as [|x l IH]; intros E; [reflexivity|]. cbn [map]. rewrite Qsum_cons, (E x (or_introl eq_refl)), IH; [reflexivity|]. intros y I. apply E. right. exact I.
Qed.
Lemma Qsum_perm l1 l2 : Permutation l1 l2 -> (Qsum l1 == Qsum l2)%Q.
Proof. induction 1 as [|x l l' P IH|x y l|l l' l'' P1 IH1 P2 IH2]; [reflexivity|rewrite !Qsum_cons, IH; reflexivity| |rewrite IH1; exact IH2]. rewrite !Qsum_cons. ring. Qed.
Lemma Qsum_nonneg {A} (f : A -> Q) l : (forall x, In x l -> 0 <= f x)%Q -> (0 <= Qsum (map f l))%Q.
Proof.
  induction l as [|x l IH]; intros E; [apply Qle_refl|]. cbn [map]. rewrite Qsum_cons. pose proof (E x (or_introl eq_refl)). assert (0 <= Qsum (map f l))%Q by (apply IH; intros y I; apply E; right; exact I). lra.
Qed.
Lemma Qsum_extend (f : nat -> Q) n m : (n <= m)%nat -> (forall x, (n <= x)%nat -> f x == 0)%Q -> (Qsum (map f (seq 0 n)) == Qsum (map f (seq 0 m)))%Q.
Proof.
  intros L Z. replace m with (n + (m - n))%nat by lia. rewrite seq_app, map_app, Qsum_app.
  rewrite (Qsum_zero f (seq (0 + n) (m - n))); [ring|]. intros x I. apply in_seq in I. apply Z. lia.
Qed.
Lemma Qsum_rev (f : nat -> Q) n : (Qsum (map f (seq 0 n)) == Qsum (map (fun k => f (n - 1 - k)%nat) (seq 0 n)))%Q.
Proof.
  assert (map (fun k => f (n - 1 - k)%nat) (seq 0 n) = rev (map f (seq 0 n))) as ->; [|apply Qsum_perm, Permutation_rev].
  induction n as [|n IH]; [reflexivity|]. rewrite seq_S at 2. rewrite map_app, rev_app_distr. cbn [map rev app seq].
  f_equal; [f_equal; lia|]. rewrite <- seq_shift, map_map. rewrite <- IH. apply map_ext_in. intros x I. apply in_seq in I. f_equal. lia.
Qed.
Lemma Qsum_shift (f : nat -> Q) s n : Qsum (map f (seq s n)) = Qsum (map (fun k => f (s + k)%nat) (seq 0 n)).
Proof.
  f_equal. revert s. induction n as [|n IH]; intros s; [reflexivity|]. cbn [seq map]. rewrite Nat.add_0_r. f_equal. rewrite IH, <- seq_shift, map_map. apply map_ext. intros k. f_equal. lia.
Qed.
Lemma Qsum_swap {A B} (f : A -> B -> Q) l1 l2 : (Qsum (map (fun a => Qsum (map (fun b => f a b) l2)) l1) == Qsum (map (fun b => Qsum (map (fun a => f a b) l1)) l2))%Q.
Proof.
  induction l1 as [|a l1 IH]; cbn [map].
  - symmetry. apply Qsum_zero. intros; reflexivity.
  - rewrite Qsum_cons, IH. transitivity (Qsum (map (fun b => f a b + Qsum (map (fun a => f a b) l1))%Q l2)); [|apply Qsum_ext; intros; reflexivity].
    clear IH. induction l2 as [|b l2 IH]; cbn [map]; [reflexivity|]. rewrite !Qsum_cons, <- IH. ring.
Qed.

(** ** word_context as a list of events *)
Definition qget (d : dict str (dict str Q)) (a b : str) : option Q := match dget d a with Some x => dget x b | None => None end.
Definition qgetd (d : dict str (dict str Q)) (a b : str) : Q := match qget d a b with Some q => q | None => 0%Q end.
Notation event := (str * str * Q)%type (only parsing).
Definition addev (d : dict str (dict str Q)) (e : event) := add_ctx d (fst (fst e)) (snd (fst e)) (snd e).
Definition is_ev (a b : str) (e : event) : bool := eqb (fst (fst e)) a && eqb (snd (fst e)) b.
Lemma qget_add d a b w a' b' : qget (add_ctx d a b w) a' b' = if eqb a a' && eqb b b' then Some (qgetd d a b + w)%Q else qget d a' b'.
Proof.
  unfold qget, qgetd, qget, add_ctx. rewrite dget_dset. destruct (eqb_spec a a') as [->|]; [|reflexivity]. cbn [andb]. rewrite dget_dset.
  destruct (eqb_spec b b') as [->|]; [|destruct (dget d a'); reflexivity]. unfold dgetd. destruct (dget d a'); reflexivity.
Qed.
Lemma qget_events evs : forall d a b, (qgetd (fold_left addev evs d) a b == qgetd d a b + Qsum (map snd (filter (is_ev a b) evs)))%Q /\
  (qget (fold_left addev evs d) a b <> None <-> qget d a b <> None \/ exists e, In e evs /\ is_ev a b e = true).
Proof.
  induction evs as [|e evs IH]; intros d a b; cbn [fold_left filter].
  - split; [cbn; ring|]. split; [auto|]. intros [H|(e & [] & _)]. exact H.
  - destruct (IH (addev d e) a b) as [IH1 IH2]. split.
    + rewrite IH1. unfold qgetd at 1. unfold addev. rewrite qget_add. unfold is_ev at 2. destruct (eqb (fst (fst e)) a && eqb (snd (fst e)) b) eqn:E.
      * apply andb_true_iff in E as [E1 E2]. apply eqb_eq in E1, E2. subst. cbn [map]. rewrite Qsum_cons. ring.
      * reflexivity.
    + rewrite IH2. unfold addev. rewrite qget_add. fold (is_ev a b e). destruct (is_ev a b e) eqn:E.
      * split; [|intros _; left; discriminate]. intros _. right. exists e. split; [left; reflexivity|exact E].
      * split; [intros [H|(e' & I & H)]; [left; exact H|right; exists e'; split; [right; exact I|exact H]]|].
        intros [H|(e' & [<-|I] & H)]; [left; exact H|congruence|right; exists e'; auto].
Qed.
Definition cwf (P : str -> bool) (d : dict str (dict str Q)) : Prop :=
  dwf d /\ Forall (fun kx => P (fst kx) = true /\ dwf (snd kx) /\ snd kx <> [] /\ Forall (fun cq => P (fst cq) = true) (snd kx)) d.
Lemma cwf_inner P d a x : cwf P d -> dget d a = Some x -> dwf x /\ Forall (fun cq => P (fst cq) = true) x.
Proof. intros [W F] E. apply dget_In in E. eapply Forall_forall in F; [|exact E]. cbn in F. tauto. Qed.
Lemma cwf_add P d a b w : cwf P d -> P a = true -> P b = true -> cwf P (add_ctx d a b w).
Proof.
  intros Cw Pa Pb. pose proof Cw as [W F]. unfold add_ctx. split; [apply dwf_dset, W|]. apply Forall_forall. intros kx I. apply dset_keys_In in I as [->|I]; [|eapply Forall_forall in F; [exact F|exact I]].
  cbn [fst snd]. split; [exact Pa|].
  assert (forall inner : dict str Q, dwf inner -> Forall (fun cq => P (fst cq) = true) inner -> dwf (dset inner b (dgetd inner b 0 + w)%Q) /\ dset inner b (dgetd inner b 0 + w)%Q <> [] /\ Forall (fun cq => P (fst cq) = true) (dset inner b (dgetd inner b 0 + w)%Q)) as A.
  { intros inner Wi Fi. split; [apply dwf_dset, Wi|]. split; [apply dset_nonnil|]. apply Forall_forall. intros cq I. apply dset_keys_In in I as [->|I]; [exact Pb|]. eapply Forall_forall in Fi; [exact Fi|exact I]. }
  destruct (dget d a) as [x|] eqn:E; [apply A; eapply cwf_inner; eauto|apply A; [apply dwf_nil|constructor]].
Qed.
Lemma cwf_events P evs : Forall (fun e : event => P (fst (fst e)) = true /\ P (snd (fst e)) = true) evs -> forall d, cwf P d -> cwf P (fold_left addev evs d).
Proof. induction 1 as [|e evs [A B] F IH]; intros d Cw; [exact Cw|]. cbn [fold_left]. apply IH. apply cwf_add; assumption. Qed.

(** ** the events of one position *)
Definition ev1 (inv : str -> bool) (words : list str) (word : str) (j : option nat) (q : Q) : list event :=
  match j with
  | None => []
  | Some j => match nth_error words j with None => [] | Some c => if negb (inv c) then [] else [(word, c, q)] end
  end.
Definition posL (i w : nat) : option nat := if (w + 1 <=? i)%nat then Some (i - (w + 1))%nat else None.
Definition posR (n i w : nat) : option nat := if (i + w + 1 <? n)%nat then Some (i + w + 1)%nat else None.
Definition events_at (inv : str -> bool) (ws : list Q) (words : list str) (i : nat) : list event :=
  match nth_error words i with
  | None => []
  | Some word =>
    if negb (inv word) then [] else
    let wqs := combine (seq 0 (length ws)) ws in
    concat (map (fun wq => ev1 inv words word (posL i (fst wq)) (snd wq)) wqs) ++ concat (map (fun wq => ev1 inv words word (posR (length words) i (fst wq)) (snd wq)) wqs)
  end.
Lemma fold_events {A} (step : dict str (dict str Q) -> A -> dict str (dict str Q)) (g : A -> list event) l : (forall d x, step d x = fold_left addev (g x) d) ->
  forall d, fold_left step l d = fold_left addev (concat (map g l)) d.
Proof. intros E. induction l as [|x l IH]; intros d; [reflexivity|]. cbn [fold_left map concat]. rewrite fold_left_app, <- E. apply IH. Qed.
Lemma ctx_at_events inv ws words d i : ctx_at inv ws words d i = fold_left addev (events_at inv ws words i) d.
Proof.
  unfold ctx_at, events_at. destruct (nth_error words i) as [word|]; [|reflexivity]. destruct (negb (inv word)); [reflexivity|]. cbv zeta. rewrite fold_left_app.
  assert (forall (pos : nat -> option nat) d wq, match pos (fst wq) with
      | None => d | Some j => match nth_error words j with None => d | Some c => if negb (inv c) then d else add_ctx d word c (snd wq) end end
    = fold_left addev (ev1 inv words word (pos (fst wq)) (snd wq : Q)) d) as E.
  { intros pos d' wq. unfold ev1. destruct (pos (fst wq)) as [j|]; [|reflexivity]. destruct (nth_error words j) as [c|]; [|reflexivity]. destruct (negb (inv c)); reflexivity. }
  rewrite (fold_events _ _ _ (E (posL i)) d). rewrite (fold_events _ _ _ (E (posR (length words) i))). reflexivity.
Qed.
Definition all_events {S} (tok : S -> list str) inv ws (sents : list S) : list event :=
  concat (map (fun s => concat (map (events_at inv ws (tok s)) (seq 0 (length (tok s))))) sents).
Lemma word_context_events {S} (tok : S -> list str) inv ws sents : word_context tok inv ws sents = fold_left addev (all_events tok inv ws sents) [].
Proof.
  unfold word_context, all_events. apply fold_events. intros d s. apply fold_events. intros d' i. apply ctx_at_events.
Qed.
Lemma ev1_ok inv words word j q : inv word = true -> Forall (fun e : event => inv (fst (fst e)) = true /\ inv (snd (fst e)) = true) (ev1 inv words word j q).
Proof.
  intros I. unfold ev1. destruct j as [j|]; [|constructor]. destruct (nth_error words j) as [c|]; [|constructor]. destruct (inv c) eqn:Ic; cbn; [|constructor].
  constructor; [cbn; auto|constructor].
Qed.
Lemma Forall_concat_map {A B} (P : B -> Prop) (f : A -> list B) l : (forall x, In x l -> Forall P (f x)) -> Forall P (concat (map f l)).
Proof. intros H. apply Forall_concat, Forall_map, Forall_forall. exact H. Qed.
Lemma events_ok {S} (tok : S -> list str) inv ws sents : Forall (fun e : event => inv (fst (fst e)) = true /\ inv (snd (fst e)) = true) (all_events tok inv ws sents).
Proof.
  apply Forall_concat_map. intros s _. apply Forall_concat_map. intros i _. unfold events_at. destruct (nth_error (tok s) i) as [w|]; [|constructor].
  destruct (inv w) eqn:I; cbn [negb]; [|constructor]. apply Forall_app. split; apply Forall_concat_map; intros wq _; apply ev1_ok; exact I.
Qed.

(** ** their sum *)
Definition esum (a b : str) (evs : list event) : Q := Qsum (map snd (filter (is_ev a b) evs)).
Lemma esum_app a b e1 e2 : (esum a b (e1 ++ e2) == esum a b e1 + esum a b e2)%Q.
Proof. unfold esum. rewrite filter_app, map_app, Qsum_app. reflexivity. Qed.
Lemma esum_concat {A} a b (g : A -> list event) l : (esum a b (concat (map g l)) == Qsum (map (fun x => esum a b (g x)) l))%Q.
Proof. induction l as [|x l IH]; [reflexivity|]. cbn [map concat]. rewrite esum_app, IH, Qsum_cons. reflexivity. Qed.
Lemma weights_pairs windows dyn : combine (seq 0 (length (weights windows dyn))) (weights windows dyn) =
  map (fun i => (i, if dyn then (inject_Z (windows - Z.of_nat i) / inject_Z windows)%Q else 1%Q)) (seq 0 (Z.to_nat windows)).
Proof.
  unfold weights. rewrite map_length, seq_length. generalize (seq 0 (Z.to_nat windows)) as l. induction l as [|x l IH]; [reflexivity|]. cbn. rewrite IH. reflexivity.
Qed.
Section Sum.
Variables (inv : str -> bool) (windows : Z) (dyn : bool) (words : list str) (a b : str).
Hypothesis Ia : inv a = true.
Hypothesis Ib : inv b = true.
Let T (d : nat) : Q := ctx_weight windows dyn (Z.of_nat d).
Let F (j : nat) (q : Q) : Q := if eqb (nth j words []) b then q else 0%Q.
Lemma T_weight w : (w < Z.to_nat windows)%nat -> (T (S w) == if dyn then inject_Z (windows - Z.of_nat w) / inject_Z windows else 1)%Q.
Proof.
  intros L. unfold T, ctx_weight. destruct (Z.leb_spec 1 (Z.of_nat (S w))); [|lia]. destruct (Z.leb_spec (Z.of_nat (S w)) windows); [|lia]. cbn [andb].
  destruct dyn; [|reflexivity]. replace (windows - Z.of_nat (S w) + 1) with (windows - Z.of_nat w) by lia. reflexivity.
Qed.
Lemma T_zero w : (Z.to_nat windows <= w)%nat -> (T (S w) == 0)%Q.
Proof. intros L. unfold T, ctx_weight. destruct (Z.leb_spec (Z.of_nat (S w)) windows); [lia|]. rewrite andb_false_r. reflexivity. Qed.
Lemma ev1_sum j q : (esum a b (ev1 inv words a (Some j) q) == if (j <? length words)%nat then F j q else 0)%Q.
Proof.
  unfold ev1. destruct (Nat.ltb_spec j (length words)) as [L|L].
  - rewrite (nth_error_nth' words [] L). unfold F. destruct (eqb_spec (nth j words []) b) as [->|N].
    + rewrite Ib. unfold esum, is_ev. cbn [negb filter fst snd]. rewrite !eqb_refl. cbn [andb map snd]. rewrite Qsum_cons. change (Qsum []) with 0%Q. ring.
    + destruct (inv (nth j words [])); cbn [negb]; [|reflexivity]. unfold esum, is_ev. cbn [filter fst snd].
      rewrite (proj2 (eqb_neq _ _) N), andb_false_r. reflexivity.
  - apply nth_error_None in L. rewrite L. reflexivity.
Qed.
Lemma F_ext j q q' : (q == q')%Q -> (F j q == F j q')%Q. Proof. intros E. unfold F. destruct (eqb (nth j words []) b); [exact E|reflexivity]. Qed.
Lemma F_zero j q : (q == 0)%Q -> (F j q == 0)%Q. Proof. intros E. unfold F. destruct (eqb (nth j words []) b); [exact E|reflexivity]. Qed.
Lemma left_sum i : (i < length words)%nat -> (Qsum (map (fun w => esum a b (ev1 inv words a (posL i w) (if dyn then inject_Z (windows - Z.of_nat w) / inject_Z windows else 1))) (seq 0 (Z.to_nat windows))) ==
  Qsum (map (fun j => F j (T (i - j))) (seq 0 i)))%Q.
Proof.
  intros Li. set (G := fun w => if (w <? i)%nat then F (i - 1 - w) (T (S w)) else 0%Q). set (W := Z.to_nat windows).
  transitivity (Qsum (map G (seq 0 W))).
  - apply Qsum_ext. intros w I. apply in_seq in I. unfold posL, G. destruct (Nat.leb_spec (w + 1) i), (Nat.ltb_spec w i); try lia; [|reflexivity].
    rewrite ev1_sum. destruct (Nat.ltb_spec (i - (w + 1)) (length words)); [|lia]. replace (i - (w + 1))%nat with (i - 1 - w)%nat by lia. apply F_ext. symmetry. apply T_weight. unfold W in I. lia.
  - transitivity (Qsum (map G (seq 0 (Nat.max W i)))); [|transitivity (Qsum (map G (seq 0 i)))].
    + apply Qsum_extend; [lia|]. intros w L. unfold G. destruct (Nat.ltb_spec w i); [|reflexivity]. apply F_zero, T_zero, L.
    + symmetry. apply Qsum_extend; [lia|]. intros w L. unfold G. destruct (Nat.ltb_spec w i); [lia|reflexivity].
    + rewrite Qsum_rev. apply Qsum_ext. intros j I. apply in_seq in I. unfold G. destruct (Nat.ltb_spec (i - 1 - j) i); [|lia].
      replace (i - 1 - (i - 1 - j))%nat with j by lia. replace (S (i - 1 - j))%nat with (i - j)%nat by lia. reflexivity.
Qed.
Lemma right_sum i : (i < length words)%nat -> (Qsum (map (fun w => esum a b (ev1 inv words a (posR (length words) i w) (if dyn then inject_Z (windows - Z.of_nat w) / inject_Z windows else 1))) (seq 0 (Z.to_nat windows))) ==
  Qsum (map (fun j => F j (T (j - i))) (seq (S i) (length words - S i))))%Q.
Proof.
  intros Li. set (G := fun w => if (i + w + 1 <? length words)%nat then F (i + w + 1) (T (S w)) else 0%Q). set (W := Z.to_nat windows). set (n := length words) in *.
  transitivity (Qsum (map G (seq 0 W))).
  - apply Qsum_ext. intros w I. apply in_seq in I. unfold posR, G. destruct (Nat.ltb_spec (i + w + 1) n) as [L|L]; [|reflexivity].
    rewrite ev1_sum. fold n. destruct (Nat.ltb_spec (i + w + 1) n); [|lia]. apply F_ext. symmetry. apply T_weight. unfold W in I. lia.
  - transitivity (Qsum (map G (seq 0 (Nat.max W (n - S i))))); [|transitivity (Qsum (map G (seq 0 (n - S i))))].
    + apply Qsum_extend; [lia|]. intros w L. unfold G. destruct (Nat.ltb_spec (i + w + 1) n); [|reflexivity]. apply F_zero, T_zero, L.
    + symmetry. apply Qsum_extend; [lia|]. intros w L. unfold G. destruct (Nat.ltb_spec (i + w + 1) n); [lia|reflexivity].
    + rewrite (Qsum_shift _ (S i)). apply Qsum_ext. intros k I. apply in_seq in I. unfold G. destruct (Nat.ltb_spec (i + k + 1) n); [|lia].
      replace (i + k + 1)%nat with (S i + k)%nat by lia. replace (S i + k - i)%nat with (S k) by lia. reflexivity.
Qed.
Lemma events_at_sum i : (i < length words)%nat -> (esum a b (events_at inv (weights windows dyn) words i) ==
  if eqb (nth i words []) a then Qsum (map (fun j => F j (ctx_weight windows dyn (Z.abs (Z.of_nat i - Z.of_nat j)))) (seq 0 (length words))) else 0)%Q.
Proof.
  intros L. unfold events_at. rewrite (nth_error_nth' words [] L). rewrite weights_pairs. destruct (eqb_spec (nth i words []) a) as [->|N].
  - rewrite Ia. cbn [negb]. cbv zeta. rewrite !map_map. cbn [fst snd]. rewrite esum_app, !esum_concat, (left_sum i L), (right_sum i L).
    assert (seq 0 (length words) = seq 0 i ++ [i] ++ seq (S i) (length words - S i)) as ->.
    { replace (length words) with (i + S (length words - S i))%nat at 1 by lia. rewrite seq_app. reflexivity. }
    rewrite !map_app, !Qsum_app. cbn [map]. rewrite Qsum_cons. change (Qsum []) with 0%Q.
    rewrite (F_zero i (ctx_weight windows dyn (Z.abs (Z.of_nat i - Z.of_nat i)))). 2:{ rewrite Z.sub_diag. reflexivity. }
    assert (Qsum (map (fun j => F j (T (i - j))) (seq 0 i)) == Qsum (map (fun j => F j (ctx_weight windows dyn (Z.abs (Z.of_nat i - Z.of_nat j)))) (seq 0 i)))%Q as ->.
    { apply Qsum_ext. intros j I. apply in_seq in I. unfold T. rewrite Nat2Z.inj_sub by lia. rewrite Z.abs_eq by lia. reflexivity. }
    assert (Qsum (map (fun j => F j (T (j - i))) (seq (S i) (length words - S i))) == Qsum (map (fun j => F j (ctx_weight windows dyn (Z.abs (Z.of_nat i - Z.of_nat j)))) (seq (S i) (length words - S i))))%Q as ->.
    { apply Qsum_ext. intros j I. apply in_seq in I. unfold T. rewrite Nat2Z.inj_sub by lia. rewrite Z.abs_neq by lia. rewrite Z.opp_sub_distr. replace (- Z.of_nat i + Z.of_nat j) with (Z.of_nat j - Z.of_nat i) by lia. reflexivity. }
    ring.
  - destruct (negb (inv (nth i words []))); [reflexivity|]. cbv zeta.
    assert (forall w j q, w <> a -> (esum a b (ev1 inv words w j q) == 0)%Q) as Z.
    { intros w j q Nw. unfold ev1. destruct j as [j|]; [|reflexivity]. destruct (nth_error words j) as [c|]; [|reflexivity]. destruct (negb (inv c)); [reflexivity|].
      unfold esum, is_ev. cbn [filter fst snd]. rewrite (proj2 (eqb_neq _ _) Nw). reflexivity. }
    rewrite !map_map, esum_app, !esum_concat, !Qsum_zero; [ring| |]; intros w _; apply Z; exact N.
Qed.
Lemma sentence_sum : (esum a b (concat (map (events_at inv (weights windows dyn) words) (seq 0 (length words)))) == cooc1 windows dyn words a b)%Q.
Proof.
  rewrite esum_concat. unfold cooc1. apply Qsum_ext. intros i I. apply in_seq in I. rewrite events_at_sum by lia. destruct (eqb (nth i words []) a); cbn [andb]; [reflexivity|].
  symmetry. apply Qsum_zero. intros; reflexivity.
Qed.
End Sum.
Lemma corpus_sum {S} (tok : S -> list str) inv windows dyn sents a b : inv a = true -> inv b = true ->
  (qgetd (word_context tok inv (weights windows dyn) sents) a b == cooc tok windows dyn sents a b)%Q.
Proof.
  intros Ia Ib. rewrite word_context_events. destruct (qget_events (all_events tok inv (weights windows dyn) sents) [] a b) as [E _]. rewrite E.
  change (qgetd [] a b) with 0%Q. fold (esum a b (all_events tok inv (weights windows dyn) sents)). unfold all_events. rewrite esum_concat. unfold cooc.
  rewrite Qplus_0_l. apply Qsum_ext. intros s _. apply sentence_sum; assumption.
Qed.

(** ** symmetry and sign *)
Lemma weight_nonneg windows dyn d : (0 <= ctx_weight windows dyn d)%Q.
Proof.
  unfold ctx_weight. destruct (Z.leb_spec 1 d), (Z.leb_spec d windows); cbn [andb]; try apply Qle_refl. destruct dyn; [|discriminate].
  apply Qle_shift_div_l; [rewrite <- (inject_Z_injective 0 0) || idtac; change 0%Q with (inject_Z 0); rewrite <- Zlt_Qlt; lia|].
  rewrite Qmult_0_l. change 0%Q with (inject_Z 0). rewrite <- Zle_Qle. lia.
Qed.
Lemma cooc1_nonneg windows dyn words a b : (0 <= cooc1 windows dyn words a b)%Q.
Proof.
  apply Qsum_nonneg. intros i _. apply Qsum_nonneg. intros j _. destruct (eqb (nth i words []) a && eqb (nth j words []) b); [apply weight_nonneg|apply Qle_refl].
Qed.
Lemma cooc1_sym windows dyn words a b : (cooc1 windows dyn words a b == cooc1 windows dyn words b a)%Q.
Proof.
  unfold cooc1. rewrite Qsum_swap. apply Qsum_ext. intros i _. apply Qsum_ext. intros j _.
  rewrite andb_comm. replace (Z.abs (Z.of_nat j - Z.of_nat i)) with (Z.abs (Z.of_nat i - Z.of_nat j)) by lia. reflexivity.
Qed.
Lemma cooc_sym {S} (tok : S -> list str) windows dyn sents a b : (cooc tok windows dyn sents a b == cooc tok windows dyn sents b a)%Q.
Proof. apply Qsum_ext. intros s _. apply cooc1_sym. Qed.
