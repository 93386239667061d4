(** * The effect of every operation on every Dictionary *)
From Coq Require Import Permutation Lia.
From Verif Require Import PyBase PyDict PySort PyText TaggerModel TaggerSpec TaggerProofs TaggerDictProofs TaggerProofs3 TagShareModel TagShareSpec TagShareProofs.
Open Scope nat_scope.

Definition effect (W W' : dworld) (o : wop) (e : option exn) : Prop :=
  forall i, i < length (w_objs W) -> i < length (w_objs W') /\
    ref_of W' i = match o with WLoad j _ => if i =? j then length (w_dicts W) else ref_of W i | _ => ref_of W i end /\
    max_length_of W' i = max_after o e i (max_length_of W i) /\
    tags_of W' i = tags_after W o e i (tags_of W i) /\
    forall w t, is_tag W' i w t = tag_after W o e i w t (is_tag W i w t).
Lemma tags_of_keys (W : dworld) i : tags_of W i = keys W (ref_of W i). Proof. reflexivity. Qed.
Lemma objs_same (W W' : dworld) more : w_objs W' = w_objs W ++ more -> forall i, i < length (w_objs W) -> i < length (w_objs W') /\ ref_of W' i = ref_of W i /\ max_length_of W' i = max_length_of W i.
Proof. intros E i L. unfold ref_of, max_length_of. rewrite E, app_length, app_nth1 by exact L. split; [lia|split; reflexivity]. Qed.
Lemma objs_upd (W W' : dworld) j x : w_objs W' = upd (w_objs W) j x -> j < length (w_objs W) -> forall i, i < length (w_objs W) ->
  i < length (w_objs W') /\ ref_of W' i = (if i =? j then fst x else ref_of W i) /\ max_length_of W' i = if i =? j then snd x else max_length_of W i.
Proof.
  intros E Lj i L. unfold ref_of, max_length_of. rewrite E, upd_length, upd_nth, (proj2 (Nat.ltb_lt _ _) Lj), andb_true_r, (Nat.eqb_sym j i). split; [exact L|]. destruct (i =? j); split; reflexivity.
Qed.
(** an operation that leaves the contents and the tags of every dict in use as they are, and adds objects at most *)
Lemma effect_nothing (W W' : dworld) o e more : w_objs W' = w_objs W ++ more -> (forall j p, o <> WLoad j p) ->
  (forall i, i < length (w_objs W) -> (forall w t, content W' (ref_of W i) w t = content W (ref_of W i) w t) /\ keys W' (ref_of W i) = keys W (ref_of W i)) ->
  (forall i old, max_after o e i old = old) -> (forall i old, i < length (w_objs W) -> tags_after W o e i old = old) -> (forall i w t old, i < length (w_objs W) -> tag_after W o e i w t old = old) -> effect W W' o e.
Proof.
  intros EO NL C M T G i L. destruct (objs_same W W' more EO i L) as (L' & R & X). destruct (C i L) as [C1 C2]. split; [exact L'|]. split; [|split; [|split]].
  - destruct o; try exact R. exfalso. eapply NL. reflexivity.
  - rewrite M. exact X.
  - rewrite T by exact L. rewrite !tags_of_keys, R. exact C2.
  - intros w t. rewrite G by exact L. rewrite !is_tag_content, R. apply C1.
Qed.
Lemma fresh_sets_at {A} (l : list (str * A)) (f : A -> obj) i t k : dget (number_from i l) t = Some k -> (forall v, exists s, f v = OSet s) -> exists s, nth (k - i) (map (fun kv => f (snd kv)) l) (OSet []) = OSet s.
Proof. intros G HF. destruct (number_content l f i t k G) as (v & _ & ->). apply HF. Qed.

Lemma step_dict (W : dworld) kvs : winv W -> plain (WDict kvs) -> let W' := fst (wstep W (WDict kvs)) in winv W' /\ effect W W' (WDict kvs) None.
Proof.
  intros H P W'. unfold W'. cbn [wstep fst plain] in *. split.
  - eapply (inv_new_dict W _ (map snd kvs) (number_from (length (w_sets W)) kvs) H); try reflexivity; [rewrite number_fst; exact P|]. intros t k G. apply number_range in G as [R U]. rewrite map_length. split; [exact R|exact U].
  - eapply (effect_nothing W _ _ _ []); [cbn [w_objs]; rewrite app_nil_r; reflexivity|discriminate| |reflexivity|reflexivity|reflexivity].
    intros i L. eapply (content_new_dict W _ (map snd kvs)); [exact H|reflexivity|reflexivity|]. apply (inv_objs W H), L.
Qed.
Lemma step_new (W : dworld) r : winv W -> let '(W', e) := wstep W (WNew r) in winv W' /\ effect W W' (WNew r) e.
Proof.
  intros H. cbn [wstep]. destruct (Nat.ltb_spec r (length (w_dicts W))) as [L|L].
  2:{ split; [exact H|]. eapply (effect_nothing W _ _ _ []); [rewrite app_nil_r; reflexivity|discriminate|split; reflexivity|reflexivity|reflexivity|reflexivity]. }
  unfold wnew. cbv zeta. set (kvs := words_at W r). set (W1 := mkDW _ (upd (w_dicts W) r _) (w_objs W)).
  assert (ND : NoDup (map fst kvs)) by (unfold kvs; rewrite words_at_keys; apply (inv_keys W H)).
  assert (LM : length (map (fun kv : str * list str => OSet (set_of (snd kv))) kvs) = length kvs) by apply map_length.
  assert (FN : forall t k, dget (number_from (length (w_sets W)) kvs) t = Some k -> exists s, nth (k - length (w_sets W)) (map (fun kv : str * list str => OSet (set_of (snd kv))) kvs) (OSet []) = OSet s).
  { intros t k G. eapply (fresh_sets_at kvs (fun l => OSet (set_of l))); [exact G|]. intros v. eexists. reflexivity. }
  assert (H1 : winv W1).
  { eapply (inv_dict W W1 r (map (fun kv : str * list str => OSet (set_of (snd kv))) kvs) (number_from (length (w_sets W)) kvs) H L); try reflexivity.
    - rewrite LM. apply fresh_number, ND.
    - intros i t k _ _ G _. eapply FN, G. }
  pose proof (dict_at_upd W W1 r (number_from (length (w_sets W)) kvs) L eq_refl) as DA.
  assert (C1 : forall r' w t, content W1 r' w t = content W r' w t).
  { intros r' w t. unfold content. rewrite DA. destruct (Nat.eqb_spec r' r) as [->|NR].
    - destruct (dget (number_from (length (w_sets W)) kvs) t) as [k|] eqn:G.
      + destruct (number_content kvs (fun l => OSet (set_of l)) _ _ _ G) as (v & D & E). pose proof (number_range _ _ _ _ G) as (R & _). unfold set_at at 1, W1. cbn [w_sets]. rewrite app_nth2 by lia. rewrite E. cbn [elems].
        unfold kvs in D. rewrite words_at_dget in D. destruct (dget (dict_at W r) t) as [k0|]; [|discriminate]. cbn [option_map] in D. injection D as <-. apply mem_set_of.
      + apply number_dget in G. unfold kvs in G. rewrite words_at_dget in G. destruct (dget (dict_at W r) t); [discriminate|reflexivity].
    - destruct (dget (dict_at W r') t) as [k|] eqn:G; [|reflexivity]. unfold set_at, W1. cbn [w_sets]. rewrite app_nth1 by (eapply (inv_valid W H); eauto). reflexivity. }
  assert (K1 : forall r', keys W1 r' = keys W r').
  { intros r'. unfold keys. rewrite DA. destruct (Nat.eqb_spec r' r) as [->|]; [|reflexivity]. rewrite number_fst. apply words_at_keys. }
  destruct (concat (map snd kvs)) as [|w0 ws].
  - split; [exact H1|]. eapply (effect_nothing W W1 _ _ []); [rewrite app_nil_r; reflexivity|discriminate| |reflexivity|reflexivity|reflexivity]. intros i _. split; [intros; apply C1|apply K1].
  - set (x := (r, _)). set (W2 := mkDW (w_sets W1) (w_dicts W1) (w_objs W1 ++ [x])). split.
    + eapply (inv_objs_change W1 W2 H1); [reflexivity|reflexivity|]. intros i Li. unfold W2 in Li. cbn [w_objs] in Li. rewrite app_length in Li. cbn [length] in Li.
      destruct (Nat.ltb_spec i (length (w_objs W1))) as [Lo|Lo].
      * destruct (objs_same W1 W2 [x] eq_refl i Lo) as (_ & -> & _). split; [apply (inv_objs W1 H1), Lo|]. intros t k. apply (inv_sets W1 H1), Lo.
      * assert (ref_of W2 i = r) as -> by (unfold ref_of, W2; cbn [w_objs]; replace i with (length (w_objs W1)) by lia; rewrite app_nth2, Nat.sub_diag by lia; reflexivity).
        split; [unfold W1; cbn [w_dicts]; rewrite upd_length; exact L|]. intros t k. rewrite DA, Nat.eqb_refl. intros G. pose proof (number_range _ _ _ _ G) as (R & _). unfold set_at, W1. cbn [w_sets]. rewrite app_nth2 by lia. eapply FN, G.
    + eapply (effect_nothing W W2 _ _ [x]); [reflexivity|discriminate| |reflexivity|reflexivity|reflexivity]. intros i _. split; [intros; apply C1|apply K1].
Qed.
Lemma step_load (W : dworld) j p : winv W -> plain (WLoad j p) -> let '(W', e) := wstep W (WLoad j p) in j < length (w_objs W) -> winv W' /\ effect W W' (WLoad j p) e.
Proof.
  intros H P. cbn [wstep plain] in *. destruct (Nat.ltb_spec j (length (w_objs W))) as [Lj|Lj]; intros Hj; [|lia]. unfold wload. set (W2 := mkDW _ _ _).
  set (W1 := mkDW (w_sets W2) (w_dicts W2) (w_objs W)).
  assert (LM : length (map (fun kv : str * list str => OSet (set_of (snd kv))) (snd p)) = length (snd p)) by apply map_length.
  assert (H1 : winv W1).
  { eapply (inv_new_dict W W1 (map (fun kv : str * list str => OSet (set_of (snd kv))) (snd p)) (number_from (length (w_sets W)) (snd p)) H); try reflexivity; [rewrite number_fst; exact P|].
    intros t k G. apply number_range in G as [R U]. rewrite LM. split; [exact R|exact U]. }
  assert (DN : dict_at W1 (length (w_dicts W)) = number_from (length (w_sets W)) (snd p)) by (unfold dict_at, W1, W2; cbn [w_dicts]; rewrite app_nth2, Nat.sub_diag by lia; reflexivity).
  assert (CN : forall w t, content W1 (length (w_dicts W)) w t = match dget (snd p) t with Some ws => mem w ws | None => false end).
  { intros w t. unfold content. rewrite DN. destruct (dget (number_from (length (w_sets W)) (snd p)) t) as [k|] eqn:G.
    - destruct (number_content (snd p) (fun l => OSet (set_of l)) _ _ _ G) as (v & D & E). pose proof (number_range _ _ _ _ G) as (R & _). rewrite D. unfold set_at, W1, W2. cbn [w_sets]. rewrite app_nth2 by lia. rewrite E. cbn [elems]. apply mem_set_of.
    - apply number_dget in G. rewrite G. reflexivity. }
  pose proof (objs_upd W W2 j (length (w_dicts W), fst p) eq_refl Lj) as OU. cbn [fst snd] in OU.
  split.
  - eapply (inv_objs_change W1 W2 H1); [reflexivity|reflexivity|]. intros i Li. unfold W2 in Li. cbn [w_objs] in Li. rewrite upd_length in Li. destruct (OU i Li) as (_ & -> & _). destruct (Nat.eqb_spec i j) as [->|NE].
    + split; [unfold W1, W2; cbn [w_dicts]; rewrite app_length; cbn [length]; lia|]. intros t k. rewrite DN. intros G. pose proof (number_range _ _ _ _ G) as (R & _). unfold set_at, W1, W2. cbn [w_sets]. rewrite app_nth2 by lia. eapply (fresh_sets_at (snd p) (fun l => OSet (set_of l))); [exact G|]. intros v. eexists. reflexivity.
    + assert (RO : ref_of W i = ref_of W1 i) by reflexivity. rewrite RO. split; [apply (inv_objs W1 H1), Li|]. intros t k. apply (inv_sets W1 H1), Li.
  - intros i L. destruct (OU i L) as (L' & R & M). split; [exact L'|]. split; [exact R|]. split; [rewrite M; reflexivity|].
    assert (CK : forall r w t, content W2 r w t = content W1 r w t) by reflexivity. assert (KK : forall r, keys W2 r = keys W1 r) by reflexivity.
    split.
    + rewrite !tags_of_keys, R. cbn [tags_after]. rewrite KK. destruct (i =? j); [unfold keys; rewrite DN; apply number_fst|].
      apply (content_new_dict W W1 (map (fun kv : str * list str => OSet (set_of (snd kv))) (snd p)) (number_from (length (w_sets W)) (snd p)) H eq_refl eq_refl). apply (inv_objs W H), L.
    + intros w t. rewrite !is_tag_content, R. cbn [tag_after]. rewrite CK. destruct (i =? j); [apply CN|].
      apply (content_new_dict W W1 (map (fun kv : str * list str => OSet (set_of (snd kv))) (snd p)) (number_from (length (w_sets W)) (snd p)) H eq_refl eq_refl). apply (inv_objs W H), L.
Qed.

(** the caller's own operations *)
Lemma step_cadd (W : dworld) r tag word : winv W -> let '(W', e) := wstep W (WCAdd r tag word) in winv W' /\ effect W W' (WCAdd r tag word) e.
Proof.
  intros H. cbn [wstep].
  assert (NOP : forall x, winv W /\ effect W W (WCAdd r tag word) (Some x)).
  { intros x. split; [exact H|]. eapply (effect_nothing W W _ _ []); [rewrite app_nil_r; reflexivity|discriminate|split; reflexivity|reflexivity|reflexivity|]. intros i w t old _. cbn [tag_after done]. rewrite andb_false_r. reflexivity. }
  destruct (dget (dict_at W r) tag) as [k|] eqn:G; [|apply NOP]. destruct (nth k (w_sets W) (OSet [])) as [s|l] eqn:S0; [|apply NOP].
  set (W' := mkDW _ _ _). split; [eapply (inv_set W W' k (sadd s word)); try reflexivity; exact H|].
  destruct (content_upd_set W W' r tag k (sadd s word) H eq_refl eq_refl G) as [C K]. intros i L. destruct (objs_same W W' [] ltac:(rewrite app_nil_r; reflexivity) i L) as (L' & R & M).
  split; [exact L'|]. split; [exact R|]. split; [exact M|]. split; [rewrite !tags_of_keys, R; apply K|]. intros w t. rewrite !is_tag_content, R, C. cbn [tag_after done]. rewrite andb_true_r.
  destruct (Nat.eqb_spec (ref_of W i) r) as [->|]; cbn [andb]; [|reflexivity]. destruct (eqb_spec tag t) as [<-|]; [|reflexivity].
  unfold content. rewrite G. unfold set_at. rewrite S0. cbn [elems]. apply eq_true_iff_eq. rewrite orb_true_iff, !mem_In, eqb_eq, sadd_In. split; intros [X|X]; auto.
Qed.
Lemma step_cset (W : dworld) r tag words : winv W -> let '(W', e) := wstep W (WCSet r tag words) in r < length (w_dicts W) -> winv W' /\ effect W W' (WCSet r tag words) e.
Proof.
  intros H. cbn [wstep]. destruct (Nat.ltb_spec r (length (w_dicts W))) as [L0|L0]; intros Hr; [|lia]. set (W' := mkDW _ _ _). split.
  - eapply (inv_dict W W' r [OSet (set_of words)] (dset (dict_at W r) tag (length (w_sets W))) H L0); try reflexivity; [apply fresh_dset, H|].
    intros i t k _ _ G Lk. apply (proj2 (fresh_dset W r tag H)) in G. cbn [length] in *. replace (k - length (w_sets W)) with 0 by lia. eexists. reflexivity.
  - destruct (content_set_tag W W' r tag (set_of words) H L0 eq_refl eq_refl) as [C K]. intros i L. destruct (objs_same W W' [] ltac:(rewrite app_nil_r; reflexivity) i L) as (L' & R & M).
    split; [exact L'|]. split; [exact R|]. split; [exact M|]. split; [rewrite !tags_of_keys, R; apply K|]. intros w t. rewrite !is_tag_content, R, C. cbn [tag_after]. rewrite mem_set_of. reflexivity.
Qed.
Lemma step_cdel (W : dworld) r tag : winv W -> let '(W', e) := wstep W (WCDel r tag) in winv W' /\ effect W W' (WCDel r tag) e.
Proof.
  intros H. cbn [wstep]. unfold dmem. destruct (dget (dict_at W r) tag) as [k|] eqn:G.
  - pose proof (dget_in_range _ _ _ _ G) as L0. set (W' := mkDW _ _ _). split.
    + eapply (inv_dict W W' r [] (dpop (dict_at W r) tag) H L0); try reflexivity; [symmetry; apply app_nil_r|apply fresh_dpop, H|].
      intros i t k' _ _ G' Lk. apply (proj2 (fresh_dpop W r tag H)) in G'. lia.
    + destruct (content_del_tag W W' r tag H L0 eq_refl eq_refl) as [C K]. intros i L. destruct (objs_same W W' [] ltac:(rewrite app_nil_r; reflexivity) i L) as (L' & R & M).
      split; [exact L'|]. split; [exact R|]. split; [exact M|]. split; [rewrite !tags_of_keys, R; apply K|]. intros w t. rewrite !is_tag_content, R, C. reflexivity.
  - split; [exact H|]. intros i L. split; [exact L|]. split; [reflexivity|]. split; [reflexivity|]. cbn [tags_after tag_after]. split.
    + destruct (Nat.eqb_spec (ref_of W i) r) as [E|]; [|reflexivity]. unfold without_tag, tags_of. apply dget_None in G. symmetry. rewrite E.
      unfold dkeys in G. revert G. induction (map fst (dict_at W r)) as [|x l IH]; intros NI; [reflexivity|]. cbn [filter]. rewrite (proj2 (eqb_neq tag x)) by (intros ->; apply NI; left; reflexivity). cbn [negb]. f_equal. apply IH. intros I. apply NI. right. exact I.
    + intros w t. destruct (Nat.eqb_spec (ref_of W i) r) as [E|]; cbn [andb]; [|reflexivity]. destruct (eqb_spec tag t) as [<-|]; [|reflexivity]. rewrite is_tag_content, E. unfold content. rewrite G. reflexivity.
Qed.
(** the methods of a Dictionary *)
Lemma put_objs (W : dworld) j (d : tdict) : j < length (w_objs W) -> forall i, i < length (w_objs W) ->
  i < length (w_objs (put W j d)) /\ ref_of (put W j d) i = ref_of W i /\ max_length_of (put W j d) i = if i =? j then maxlen d else max_length_of W i.
Proof.
  intros Lj i L. destruct (objs_upd W (put W j d) j (ref_of W j, maxlen d) eq_refl Lj i L) as (L' & R & M). cbn [fst snd] in *. split; [exact L'|]. split; [|exact M]. rewrite R. destruct (Nat.eqb_spec i j) as [->|]; reflexivity.
Qed.
Lemma put_inv (W : dworld) j (d : tdict) : j < length (w_objs W) -> winv (mkDW (heap d) (upd (w_dicts W) (ref_of W j) (tags d)) (w_objs W)) -> winv (put W j d).
Proof.
  intros Lj H1. set (W1 := mkDW _ _ _) in H1. eapply (inv_objs_change W1 (put W j d) H1); [reflexivity|reflexivity|]. intros i Li. unfold put in Li. cbn [w_objs] in Li. rewrite upd_length in Li.
  destruct (put_objs W j d Lj i Li) as (_ & -> & _). assert (RO : ref_of W i = ref_of W1 i) by reflexivity. rewrite RO. split; [apply (inv_objs W1 H1), Li|]. intros t k. apply (inv_sets W1 H1), Li.
Qed.
Lemma put_effect (W : dworld) j (d : tdict) o e (f : str -> str -> bool -> bool) (g : list str -> list str) : j < length (w_objs W) ->
  (forall i p, o <> WLoad i p) -> let W1 := mkDW (heap d) (upd (w_dicts W) (ref_of W j) (tags d)) (w_objs W) in
  (forall i, max_after o e i (max_length_of W i) = if i =? j then maxlen d else max_length_of W i) ->
  (forall i w t old, tag_after W o e i w t old = if ref_of W i =? ref_of W j then f w t old else old) ->
  (forall i old, tags_after W o e i old = if ref_of W i =? ref_of W j then g old else old) ->
  (forall i w t, i < length (w_objs W) -> content W1 (ref_of W i) w t = if ref_of W i =? ref_of W j then f w t (content W (ref_of W i) w t) else content W (ref_of W i) w t) ->
  (forall i, keys W1 (ref_of W i) = if ref_of W i =? ref_of W j then g (keys W (ref_of W i)) else keys W (ref_of W i)) ->
  effect W (put W j d) o e.
Proof.
  intros Lj NL W1 M T G C K i L. destruct (put_objs W j d Lj i L) as (L' & R & X). split; [exact L'|]. split; [|split; [|split]].
  - destruct o; try exact R. exfalso. eapply NL. reflexivity.
  - rewrite X, M. reflexivity.
  - rewrite !tags_of_keys, R, G. exact (K i).
  - intros w t. rewrite !is_tag_content, R, T. exact (C i w t L).
Qed.
Lemma view_same_dicts (W : dworld) j (d : tdict) : tags d = tags (view W j) -> upd (w_dicts W) (ref_of W j) (tags d) = w_dicts W.
Proof. intros ->. unfold view. cbn [tags]. apply upd_same. Qed.
Lemma step_add (W : dworld) j tag s force : winv W -> let '(W', e) := wstep W (WAdd j tag (AStr s) force) in j < length (w_objs W) ->
  winv W' /\ effect W W' (WAdd j tag (AStr s) force) e /\ (e = None \/ e = Some ValueError) /\ (e = Some ValueError <-> (force = false /\ ~ In tag (tags_of W j)) \/ split s = []).
Proof.
  intros H. cbn [wstep]. destruct (Nat.ltb_spec j (length (w_objs W))) as [Lj|Lj]; [|intros; lia]. destruct (add_words (view W j) tag (AStr s) force) as [d e] eqn:E. intros _.
  destruct (add_shape _ _ _ _ _ _ E (view_unshared W j H) (view_sets W j tag H Lj)) as (ML & EE & EI & SH).
  assert (TI : dget (tags (view W j)) tag = None <-> ~ In tag (tags_of W j)) by (apply dget_None).
  rewrite TI in EI. assert (Lr : ref_of W j < length (w_dicts W)) by (apply (inv_objs W H), Lj).
  assert (MA : forall i, max_after (WAdd j tag (AStr s) force) e i (max_length_of W i) = if i =? j then maxlen d else max_length_of W i).
  { intros i. cbn [max_after]. rewrite ML. destruct (Nat.eqb_spec i j) as [->|]; cbn [andb]; [|reflexivity]. destruct (done e); reflexivity. }
  set (f := fun w t (old : bool) => if eqb tag t && done e then old || mem w (split s) else old). set (g := fun old : list str => if done e then with_tag tag old else old).
  assert (TA : forall i w t old, tag_after W (WAdd j tag (AStr s) force) e i w t old = if ref_of W i =? ref_of W j then f w t old else old).
  { intros i w t old. cbn [tag_after]. unfold f. destruct (ref_of W i =? ref_of W j); reflexivity. }
  assert (GA : forall i old, tags_after W (WAdd j tag (AStr s) force) e i old = if ref_of W i =? ref_of W j then g old else old).
  { intros i old. cbn [tags_after]. unfold g. destruct (ref_of W i =? ref_of W j); reflexivity. }
  set (W1 := mkDW (heap d) (upd (w_dicts W) (ref_of W j) (tags d)) (w_objs W)).
  enough (winv W1 /\ (forall i w t, i < length (w_objs W) -> content W1 (ref_of W i) w t = if ref_of W i =? ref_of W j then f w t (content W (ref_of W i) w t) else content W (ref_of W i) w t) /\
    (forall i, keys W1 (ref_of W i) = if ref_of W i =? ref_of W j then g (keys W (ref_of W i)) else keys W (ref_of W i))) as (I1 & C1 & K1).
  { split; [apply put_inv; assumption|]. split; [|split; assumption]. eapply put_effect; [exact Lj|discriminate|exact MA|exact TA|exact GA|exact C1|exact K1]. }
  destruct SH as [(NE & ->)|[(-> & G & HH & HT)|(-> & k & l & G & D & HT & HH)]].
  - assert (W1 = W) as -> by (unfold W1; rewrite (view_same_dicts W j _ eq_refl); destruct W; reflexivity).
    assert (DE : done e = false) by (destruct e; [reflexivity|congruence]). unfold f, g. rewrite DE. split; [exact H|]. split; [intros i w t _; rewrite andb_false_r; destruct (_ =? _); reflexivity|]. intros i. destruct (_ =? _); reflexivity.
  - cbn [done] in *. assert (S1 : w_sets W1 = w_sets W ++ [OSet (set_of (split s))]) by exact HH.
    assert (D1 : w_dicts W1 = upd (w_dicts W) (ref_of W j) (dset (dict_at W (ref_of W j)) tag (length (w_sets W)))) by (unfold W1; cbn [w_dicts]; rewrite HT; reflexivity).
    split.
    + eapply (inv_dict W W1 (ref_of W j) [OSet (set_of (split s))] _ H Lr S1 D1 eq_refl); [apply fresh_dset, H|]. intros i t k _ _ G' Lk. apply (proj2 (fresh_dset W (ref_of W j) tag H)) in G'. replace (k - length (w_sets W)) with 0 by lia. eexists. reflexivity.
    + destruct (content_set_tag W W1 (ref_of W j) tag (set_of (split s)) H Lr S1 D1) as [C K]. split.
      * intros i w t _. rewrite C. unfold f. destruct (Nat.eqb_spec (ref_of W i) (ref_of W j)) as [->|]; cbn [andb]; [|reflexivity]. rewrite andb_true_r. destruct (eqb_spec tag t) as [<-|]; [|reflexivity].
        rewrite mem_set_of. unfold content. cbn [view tags] in G. rewrite G. reflexivity.
      * intros i. rewrite K. reflexivity.
  - cbn [done] in *. cbn [view tags] in G, HT. unfold deref, view in D. cbn [heap] in D. assert (S1 : w_sets W1 = upd (w_sets W) k (OSet (fold_left sadd (set_of (split s)) l))) by exact HH.
    assert (D1 : w_dicts W1 = w_dicts W) by (apply (view_same_dicts W j d HT)).
    split; [eapply (inv_set W W1 k _ H S1 D1 eq_refl)|]. destruct (content_upd_set W W1 (ref_of W j) tag k _ H S1 D1 G) as [C K]. split.
    + intros i w t _. rewrite C. unfold f. destruct (Nat.eqb_spec (ref_of W i) (ref_of W j)) as [->|]; cbn [andb]; [|reflexivity]. rewrite andb_true_r. destruct (eqb_spec tag t) as [<-|]; [|reflexivity].
      unfold content. rewrite G. unfold set_at. rewrite D. cbn [elems]. apply eq_true_iff_eq. rewrite orb_true_iff, !mem_In, fold_sadd_In, set_of_In. reflexivity.
    + intros i. rewrite K. unfold g, with_tag. destruct (Nat.eqb_spec (ref_of W i) (ref_of W j)) as [->|]; [|reflexivity]. unfold keys. rewrite mem_keys. unfold dmem. rewrite G. reflexivity.
Qed.
Lemma step_remove (W : dworld) j tag a : winv W -> plain (WRemove j tag a) -> let '(W', e) := wstep W (WRemove j tag a) in j < length (w_objs W) ->
  winv W' /\ effect W W' (WRemove j tag a) e /\ (e = None \/ e = Some ValueError) /\ (e = Some ValueError <-> ~ In tag (tags_of W j)).
Proof.
  intros H P. cbn [wstep]. destruct (Nat.ltb_spec j (length (w_objs W))) as [Lj|Lj]; [|intros; lia]. destruct (remove_words (view W j) tag a) as [d e] eqn:E. intros _.
  destruct (remove_shape _ _ _ _ _ E P (view_sets W j tag H Lj)) as (ML & SH).
  assert (TI : dget (tags (view W j)) tag = None <-> ~ In tag (tags_of W j)) by (apply dget_None).
  assert (Lr : ref_of W j < length (w_dicts W)) by (apply (inv_objs W H), Lj).
  assert (MA : forall i, max_after (WRemove j tag a) e i (max_length_of W i) = if i =? j then maxlen d else max_length_of W i).
  { intros i. cbn [max_after]. rewrite ML. destruct (Nat.eqb_spec i j) as [->|]; reflexivity. }
  set (f := fun w t (old : bool) => if eqb tag t then match a with Some (AStr s) => old && negb (mem w (split s)) | _ => false end else old).
  set (g := fun old : list str => match a with None => without_tag tag old | _ => old end).
  assert (TA : forall i w t old, tag_after W (WRemove j tag a) e i w t old = if ref_of W i =? ref_of W j then f w t old else old).
  { intros i w t old. cbn [tag_after]. unfold f. destruct a as [x|]; [destruct (P x eq_refl) as [s ->]|]; destruct (ref_of W i =? ref_of W j); reflexivity. }
  assert (GA : forall i old, tags_after W (WRemove j tag a) e i old = if ref_of W i =? ref_of W j then g old else old).
  { intros i old. cbn [tags_after]. unfold g. destruct a; destruct (ref_of W i =? ref_of W j); reflexivity. }
  set (W1 := mkDW (heap d) (upd (w_dicts W) (ref_of W j) (tags d)) (w_objs W)).
  enough (winv W1 /\ ((forall i w t, i < length (w_objs W) -> content W1 (ref_of W i) w t = if ref_of W i =? ref_of W j then f w t (content W (ref_of W i) w t) else content W (ref_of W i) w t) /\
    (forall i, keys W1 (ref_of W i) = if ref_of W i =? ref_of W j then g (keys W (ref_of W i)) else keys W (ref_of W i))) /\ (e = None \/ e = Some ValueError) /\ (e = Some ValueError <-> ~ In tag (tags_of W j))) as (I1 & (C1 & K1) & EE).
  { split; [apply put_inv; assumption|]. split; [|exact EE]. eapply put_effect; [exact Lj|discriminate|exact MA|exact TA|exact GA|exact C1|exact K1]. }
  destruct SH as [(-> & G & ->)|[(-> & -> & HH & HT & G)|(-> & s & k & l & -> & G & D & HT & HH)]].
  - assert (W1 = W) as -> by (unfold W1; rewrite (view_same_dicts W j _ eq_refl); destruct W; reflexivity).
    split; [exact H|]. split; [|split; [auto|tauto]]. cbn [view tags] in G. split.
    + intros i w t _. unfold f. destruct (Nat.eqb_spec (ref_of W i) (ref_of W j)) as [->|]; [|reflexivity]. destruct (eqb_spec tag t) as [<-|]; [|reflexivity]. unfold content. rewrite G. destruct a as [[s|r]|]; reflexivity.
    + intros i. unfold g. destruct (Nat.eqb_spec (ref_of W i) (ref_of W j)) as [->|]; [|reflexivity]. destruct a; [reflexivity|]. unfold keys. rewrite <- dpop_without_tag.
      unfold dpop. f_equal. apply dget_None in G. unfold dkeys in G. revert G. induction (dict_at W (ref_of W j)) as [|[x v] l IH]; intros NI; [reflexivity|]. cbn [filter fst]. rewrite (proj2 (eqb_neq x tag)) by (intros ->; apply NI; left; reflexivity). cbn [negb]. f_equal. apply IH. intros I. apply NI. right. exact I.
  - assert (S1 : w_sets W1 = w_sets W) by exact HH.
    assert (D1 : w_dicts W1 = upd (w_dicts W) (ref_of W j) (dpop (dict_at W (ref_of W j)) tag)) by (unfold W1; cbn [w_dicts]; rewrite HT; reflexivity).
    split; [|split; [|split; [auto|split; [discriminate|intros X; apply TI in X; congruence]]]].
    + eapply (inv_dict W W1 (ref_of W j) [] _ H Lr); [rewrite app_nil_r; exact S1|exact D1|reflexivity|apply fresh_dpop, H|]. intros i t k _ _ G' Lk. apply (proj2 (fresh_dpop W (ref_of W j) tag H)) in G'. lia.
    + destruct (content_del_tag W W1 (ref_of W j) tag H Lr S1 D1) as [C K]. split.
      * intros i w t _. rewrite C. unfold f. destruct (ref_of W i =? ref_of W j); reflexivity.
      * intros i. rewrite K. reflexivity.
  - cbn [view tags] in G, HT. unfold deref, view in D. cbn [heap] in D. assert (S1 : w_sets W1 = upd (w_sets W) k (OSet (filter (fun x => negb (mem x (set_of (split s)))) l))) by exact HH.
    assert (D1 : w_dicts W1 = w_dicts W) by (apply (view_same_dicts W j d HT)).
    split; [eapply (inv_set W W1 k _ H S1 D1 eq_refl)|]. destruct (content_upd_set W W1 (ref_of W j) tag k _ H S1 D1 G) as [C K]. split; [|split; [auto|split; [discriminate|intros X; apply TI in X; cbn [view tags] in X; congruence]]]. split.
    + intros i w t _. rewrite C. unfold f. destruct (Nat.eqb_spec (ref_of W i) (ref_of W j)) as [->|]; cbn [andb]; [|reflexivity]. destruct (eqb_spec tag t) as [<-|]; [|reflexivity].
      unfold content. rewrite G. unfold set_at. rewrite D. cbn [elems]. apply eq_true_iff_eq. rewrite andb_true_iff, !mem_In, filter_In, mem_set_of. reflexivity.
    + intros i. rewrite K. unfold g. destruct (_ =? _); reflexivity.
Qed.
