(** * Proofs about TagShareModel.v *)
From Coq Require Import Permutation Lia.
From Verif Require Import PyBase PyDict PySort PyText TaggerModel TaggerSpec TaggerProofs TaggerDictProofs TaggerProofs3 TagShareModel TagShareSpec.
Open Scope nat_scope.

Definition set_at (W : dworld) (k : nat) : obj := nth k (w_sets W) (OSet []).
Record winv (W : dworld) : Prop := {
  inv_refs : forall r1 t1 r2 t2 k, dget (dict_at W r1) t1 = Some k -> dget (dict_at W r2) t2 = Some k -> r1 = r2 /\ t1 = t2;
  inv_valid : forall r t k, dget (dict_at W r) t = Some k -> k < length (w_sets W);
  inv_keys : forall r, NoDup (map fst (dict_at W r));
  inv_objs : forall i, i < length (w_objs W) -> ref_of W i < length (w_dicts W);
  inv_sets : forall i t k, i < length (w_objs W) -> dget (dict_at W (ref_of W i)) t = Some k -> exists s, set_at W k = OSet s }.
Definition content (W : dworld) (r : nat) (w t : str) : bool :=
  match dget (dict_at W r) t with Some k => mem w (elems (set_at W k)) | None => false end.
Lemma is_tag_content (W : dworld) i w t : is_tag W i w t = content W (ref_of W i) w t. Proof. reflexivity. Qed.

Lemma nth_upd_dict (l : list (dict str nat)) r d r' : r < length l -> nth r' (upd l r d) [] = if r' =? r then d else nth r' l [].
Proof. intros L. rewrite upd_nth, (proj2 (Nat.ltb_lt _ _) L), andb_true_r, Nat.eqb_sym. reflexivity. Qed.
Lemma dict_at_out (W : dworld) r : length (w_dicts W) <= r -> dict_at W r = []. Proof. intros L. apply nth_overflow, L. Qed.
Lemma dget_in_range (W : dworld) r t k : dget (dict_at W r) t = Some k -> r < length (w_dicts W).
Proof. intros G. destruct (Nat.ltb_spec r (length (w_dicts W))); [assumption|]. rewrite dict_at_out in G by assumption. discriminate. Qed.

(** shape 1: one dict object is replaced; each of its references is either an old one of the same tag or a new one, distinct for distinct tags *)
Definition fresh_dict (W : dworld) (n : nat) (old d : dict str nat) : Prop :=
  NoDup (map fst d) /\ forall t k, dget d t = Some k ->
    k < length (w_sets W) + n /\ (k < length (w_sets W) -> dget old t = Some k) /\ (forall t', dget d t' = Some k -> t' = t).
Lemma inv_dict (W W' : dworld) r news d : winv W -> r < length (w_dicts W) ->
  w_sets W' = w_sets W ++ news -> w_dicts W' = upd (w_dicts W) r d -> w_objs W' = w_objs W ->
  fresh_dict W (length news) (dict_at W r) d ->
  (forall i t k, i < length (w_objs W) -> ref_of W i = r -> dget d t = Some k -> length (w_sets W) <= k -> exists s, nth (k - length (w_sets W)) news (OSet []) = OSet s) -> winv W'.
Proof.
  intros H L ES ED EO [FK FD] FS.
  assert (DA : forall r', dict_at W' r' = if r' =? r then d else dict_at W r') by (intros r'; unfold dict_at; rewrite ED; apply nth_upd_dict, L).
  assert (RO : forall i, ref_of W' i = ref_of W i) by (intros i; unfold ref_of; rewrite EO; reflexivity).
  assert (OLD : forall r' t k, dget (dict_at W' r') t = Some k -> k < length (w_sets W) -> dget (dict_at W r') t = Some k).
  { intros r' t k. rewrite DA. destruct (Nat.eqb_spec r' r) as [->|]; [|auto]. intros G Lk. apply (proj2 (FD _ _ G)), Lk. }
  assert (NEW : forall r' t k, dget (dict_at W' r') t = Some k -> length (w_sets W) <= k -> r' = r).
  { intros r' t k. rewrite DA. destruct (Nat.eqb_spec r' r) as [->|]; [auto|]. intros G Lk. apply (inv_valid W H) in G. lia. }
  constructor.
  - intros r1 t1 r2 t2 k G1 G2. destruct (Nat.ltb_spec k (length (w_sets W))) as [Lk|Lk].
    + eapply (inv_refs W H); eapply OLD; eauto.
    + pose proof (NEW _ _ _ G1 Lk) as ->. pose proof (NEW _ _ _ G2 Lk) as ->. split; [reflexivity|]. rewrite DA, Nat.eqb_refl in G1, G2. symmetry. apply (proj2 (proj2 (FD _ _ G1))), G2.
  - intros r' t k. rewrite DA, ES, app_length. destruct (Nat.eqb_spec r' r) as [->|]; intros G; [apply FD in G; lia|apply (inv_valid W H) in G; lia].
  - intros r'. rewrite DA. destruct (r' =? r); [exact FK|apply (inv_keys W H)].
  - intros i Li. rewrite EO in Li. rewrite RO, ED, upd_length. apply (inv_objs W H), Li.
  - intros i t k Li G. rewrite EO in Li. rewrite RO in G. unfold set_at. rewrite ES. destruct (Nat.ltb_spec k (length (w_sets W))) as [Lk|Lk].
    + rewrite app_nth1 by exact Lk. apply (inv_sets W H i t k Li). eapply OLD; eauto.
    + rewrite app_nth2 by lia. pose proof (NEW _ _ _ G Lk) as E. rewrite DA, (proj2 (Nat.eqb_eq _ _) E) in G. eapply FS; eauto.
Qed.
(** shape 2: one collection that is a set is changed *)
Lemma inv_set (W W' : dworld) k s : winv W -> w_sets W' = upd (w_sets W) k (OSet s) -> w_dicts W' = w_dicts W -> w_objs W' = w_objs W -> winv W'.
Proof.
  intros H ES ED EO. assert (DA : forall r', dict_at W' r' = dict_at W r') by (intros r'; unfold dict_at; rewrite ED; reflexivity).
  assert (RO : forall i, ref_of W' i = ref_of W i) by (intros i; unfold ref_of; rewrite EO; reflexivity).
  constructor.
  - intros r1 t1 r2 t2 k'. rewrite !DA. apply (inv_refs W H).
  - intros r t k'. rewrite DA, ES, upd_length. apply (inv_valid W H).
  - intros r. rewrite DA. apply (inv_keys W H).
  - intros i. rewrite EO, RO, ED. apply (inv_objs W H).
  - intros i t k'. rewrite EO, RO, DA. intros Li G. unfold set_at. rewrite ES, upd_nth. destruct (_ && _); [eexists; reflexivity|]. eapply (inv_sets W H); eauto.
Qed.
(** shape 3: a new dict object of new collections *)
Lemma inv_new_dict (W W' : dworld) news d : winv W -> w_sets W' = w_sets W ++ news -> w_dicts W' = w_dicts W ++ [d] -> w_objs W' = w_objs W ->
  NoDup (map fst d) -> (forall t k, dget d t = Some k -> length (w_sets W) <= k < length (w_sets W) + length news /\ forall t', dget d t' = Some k -> t' = t) -> winv W'.
Proof.
  intros H ES ED EO ND FD.
  assert (DA : forall r', dict_at W' r' = if r' =? length (w_dicts W) then d else dict_at W r').
  { intros r'. unfold dict_at. rewrite ED. destruct (Nat.eqb_spec r' (length (w_dicts W))) as [->|]; [rewrite app_nth2, Nat.sub_diag by lia; reflexivity|].
    destruct (Nat.ltb_spec r' (length (w_dicts W))); [rewrite app_nth1 by assumption; reflexivity|]. rewrite app_nth2, (nth_overflow (w_dicts W)) by lia. destruct (r' - length (w_dicts W)) as [|[|?]] eqn:E; [lia|reflexivity|reflexivity]. }
  assert (RO : forall i, ref_of W' i = ref_of W i) by (intros i; unfold ref_of; rewrite EO; reflexivity).
  constructor.
  - intros r1 t1 r2 t2 k. rewrite !DA. destruct (Nat.eqb_spec r1 (length (w_dicts W))) as [->|], (Nat.eqb_spec r2 (length (w_dicts W))) as [->|]; intros G1 G2.
    + split; [reflexivity|]. symmetry. apply (proj2 (FD _ _ G1)), G2.
    + apply FD in G1. apply (inv_valid W H) in G2. lia.
    + apply FD in G2. apply (inv_valid W H) in G1. lia.
    + eapply (inv_refs W H); eauto.
  - intros r t k. rewrite DA, ES, app_length. destruct (r =? _); intros G; [apply FD in G; lia|apply (inv_valid W H) in G; lia].
  - intros r. rewrite DA. destruct (r =? _); [exact ND|apply (inv_keys W H)].
  - intros i Li. rewrite EO in Li. rewrite RO, ED, app_length. pose proof (inv_objs W H i Li). lia.
  - intros i t k Li G. rewrite EO in Li. rewrite RO, DA in G. pose proof (inv_objs W H i Li) as Lr. rewrite (proj2 (Nat.eqb_neq _ _)) in G by lia.
    unfold set_at. rewrite ES, app_nth1 by (eapply (inv_valid W H); eauto). eapply (inv_sets W H); eauto.
Qed.
(** shape 4: the list of Dictionary objects changes *)
Lemma inv_objs_change (W W' : dworld) : winv W -> w_sets W' = w_sets W -> w_dicts W' = w_dicts W ->
  (forall i, i < length (w_objs W') -> ref_of W' i < length (w_dicts W) /\ forall t k, dget (dict_at W (ref_of W' i)) t = Some k -> exists s, set_at W k = OSet s) -> winv W'.
Proof.
  intros H ES ED HO. assert (DA : forall r', dict_at W' r' = dict_at W r') by (intros r'; unfold dict_at; rewrite ED; reflexivity). constructor.
  - intros r1 t1 r2 t2 k. rewrite !DA. apply (inv_refs W H).
  - intros r t k. rewrite DA, ES. apply (inv_valid W H).
  - intros r. rewrite DA. apply (inv_keys W H).
  - intros i Li. rewrite ED. apply HO, Li.
  - intros i t k Li. rewrite DA. unfold set_at. rewrite ES. apply HO, Li.
Qed.

(** ** the new references of a numbered dict *)
Lemma number_dget {A} (l : list (str * A)) i t : dget (number_from i l) t = None <-> dget l t = None.
Proof. revert i. induction l as [|[k v] l IH]; intros i; [tauto|]. cbn [number_from dget]. destruct (eqb k t); [split; discriminate|apply IH]. Qed.
Lemma number_range {A} (l : list (str * A)) i t k : dget (number_from i l) t = Some k -> i <= k < i + length l /\ forall t', dget (number_from i l) t' = Some k -> t' = t.
Proof.
  revert i t k. induction l as [|[k0 v] l IH]; intros i t k; [discriminate|]. cbn [number_from dget length]. destruct (eqb_spec k0 t) as [<-|NE].
  - intros [= <-]. split; [lia|]. intros t'. destruct (eqb_spec k0 t'); [auto|]. intros G. apply IH in G. lia.
  - intros G. pose proof (IH _ _ _ G) as (R & U). split; [lia|]. intros t'. destruct (eqb_spec k0 t'); [intros [= E]; lia|apply U].
Qed.
Lemma number_content {A} (l : list (str * A)) (f : A -> obj) i t k : dget (number_from i l) t = Some k -> exists v, dget l t = Some v /\ nth (k - i) (map (fun kv => f (snd kv)) l) (OSet []) = f v.
Proof.
  revert i. induction l as [|[k0 v] l IH]; intros i; [discriminate|]. cbn [number_from dget map]. destruct (eqb_spec k0 t) as [<-|NE].
  - intros [= <-]. exists v. rewrite Nat.sub_diag. split; reflexivity.
  - intros G. pose proof (number_range _ _ _ _ G) as (R & _). destruct (IH _ G) as (v' & D & E). exists v'. split; [exact D|]. destruct (k - i) as [|m] eqn:K; [lia|]. cbn [nth]. replace m with (k - S i) by lia. exact E.
Qed.
Lemma words_at_dget (W : dworld) r t : dget (words_at W r) t = option_map (fun k => elems (set_at W k)) (dget (dict_at W r) t).
Proof. unfold words_at, set_at. induction (dict_at W r) as [|[k v] l IH]; [reflexivity|]. cbn [map dget fst snd]. destruct (eqb k t); [reflexivity|exact IH]. Qed.
Lemma words_at_keys (W : dworld) r : map fst (words_at W r) = map fst (dict_at W r). Proof. unfold words_at. rewrite map_map. reflexivity. Qed.
Lemma words_at_length (W : dworld) r : length (words_at W r) = length (dict_at W r). Proof. apply map_length. Qed.

(** ** the shapes of the operations on one Dictionary *)
Lemma add_shape (d d' : tdict) tag s force e : add_words d tag (AStr s) force = (d', e) -> unshared d -> (forall r l, dget (tags d) tag = Some r -> deref d r <> OList l) ->
  maxlen d' = (if done e then Nat.max (maxlen d) (max_of (map (@length N) (split s))) else maxlen d) /\
  (e = None \/ e = Some ValueError) /\ (e = Some ValueError <-> (force = false /\ dget (tags d) tag = None) \/ split s = []) /\
  ((e <> None /\ d' = d) \/
   (e = None /\ dget (tags d) tag = None /\ heap d' = heap d ++ [OSet (set_of (split s))] /\ tags d' = dset (tags d) tag (length (heap d))) \/
   (e = None /\ exists k l, dget (tags d) tag = Some k /\ deref d k = OSet l /\ tags d' = tags d /\ heap d' = upd (heap d) k (OSet (fold_left sadd (set_of (split s)) l)))).
Proof.
  intros E U HS. pose proof (add_words_spec d tag (AStr s) force U ltac:(discriminate) HS) as SP0. cbv zeta in SP0. cbn [arg_obj elems] in SP0.
  assert (ML : max_of (map (@length N) (set_of (split s))) = max_of (map (@length N) (split s))).
  { apply Nat.le_antisymm.
    - destruct (set_of (split s)) as [|w0 ws] eqn:Q; [cbn; lia|]. rewrite <- Q. pose proof (max_of_in (map (@length N) (set_of (split s)))) as M. rewrite Q in M at 1. specialize (M ltac:(discriminate)).
      apply in_map_iff in M as (w & <- & I). apply max_of_ge, in_map. apply set_of_In, I.
    - destruct (split s) as [|w0 ws] eqn:Q; [cbn; lia|]. rewrite <- Q. pose proof (max_of_in (map (@length N) (split s))) as M. rewrite Q in M at 1. specialize (M ltac:(discriminate)).
      apply in_map_iff in M as (w & <- & I). apply max_of_ge, in_map. apply set_of_In, I. }
  assert (C : (negb force && negb (known d tag)) || (length (set_of (split s)) =? 0) = true <-> (force = false /\ dget (tags d) tag = None) \/ split s = []).
  { rewrite orb_true_iff, andb_true_iff, !negb_true_iff, Nat.eqb_eq. unfold known, dmem. split; intros [H|H].
    - left. destruct (dget (tags d) tag); [destruct H; discriminate|tauto].
    - right. apply set_of_nil. destruct (set_of (split s)); [reflexivity|discriminate].
    - left. destruct H as [-> ->]. auto.
    - right. rewrite H. reflexivity. }
  destruct ((negb force && negb (known d tag)) || (length (set_of (split s)) =? 0)) eqn:B.
  - rewrite SP0 in E. injection E as <- <-. cbn [done]. split; [reflexivity|]. split; [auto|]. split; [tauto|]. left. split; [discriminate|reflexivity].
  - destruct SP0 as (d1 & E1 & _ & _ & M & _). rewrite E in E1. injection E1 as <- ->. rewrite M, ML. cbn [done]. split; [reflexivity|]. split; [auto|]. split; [split; [discriminate|intros H; apply C in H; discriminate]|]. right.
    apply orb_false_iff in B as [B1 B2]. assert (set_of (split s) <> []) as NE by (intros Q; rewrite Q in B2; discriminate).
    rewrite (add_words_unfold d tag (AStr s) force B1 NE) in E. cbv zeta in E. cbn [arg_obj elems] in E.
    set (d1 := if maxlen d <? _ then _ else d) in E. assert (heap d1 = heap d /\ tags d1 = tags d) as [H1 H2] by (unfold d1; destruct (_ <? _); split; reflexivity).
    rewrite H1, H2 in E. destruct (dget (tags d) tag) as [k|] eqn:G.
    + right. split; [reflexivity|]. replace (deref d1 k) with (deref d k) in E by (unfold deref; rewrite H1; reflexivity).
      destruct (deref d k) as [l|l] eqn:D; [|discriminate]. exists k, l. split; [reflexivity|]. split; [exact D|]. rewrite (dset_same _ _ _ G) in E. injection E as <-. split; reflexivity.
    + left. split; [reflexivity|]. split; [reflexivity|]. injection E as <-. cbn [heap tags arg_obj]. split; reflexivity.
Qed.
Lemma remove_shape (d d' : tdict) tag a e : remove_words d tag a = (d', e) -> (forall x, a = Some x -> exists s, x = AStr s) -> (forall r l, dget (tags d) tag = Some r -> deref d r <> OList l) ->
  maxlen d' = maxlen d /\
  ((e = Some ValueError /\ dget (tags d) tag = None /\ d' = d) \/
   (e = None /\ a = None /\ heap d' = heap d /\ tags d' = dpop (tags d) tag /\ dget (tags d) tag <> None) \/
   (e = None /\ exists s k l, a = Some (AStr s) /\ dget (tags d) tag = Some k /\ deref d k = OSet l /\ tags d' = tags d /\ heap d' = upd (heap d) k (OSet (filter (fun x => negb (mem x (set_of (split s)))) l)))).
Proof.
  intros E HA HS. unfold remove_words in E. destruct (dget (tags d) tag) as [k|] eqn:G.
  - destruct a as [a|].
    + destruct (HA a eq_refl) as [s ->]. cbn [arg_obj] in E. destruct (deref d k) as [l|l] eqn:D; [|exfalso; eapply HS; [reflexivity|exact D]]. injection E as <- <-. cbn [maxlen heap tags]. split; [reflexivity|]. right. right.
      split; [reflexivity|]. exists s, k, l. auto.
    + injection E as <- <-. cbn [maxlen heap tags]. split; [reflexivity|]. right. left. repeat split; auto. discriminate.
  - injection E as <- <-. split; [reflexivity|]. left. auto.
Qed.
Lemma view_unshared (W : dworld) i : winv W -> unshared (view W i).
Proof.
  intros H. unfold unshared, view. cbn [tags heap]. pose proof (inv_keys W H (ref_of W i)) as ND. split; [exact ND|].
  assert (R : forall t k, In (t, k) (dict_at W (ref_of W i)) -> dget (dict_at W (ref_of W i)) t = Some k) by (intros t k I; apply dget_In_iff; assumption).
  split.
  - pose proof (inv_refs W H (ref_of W i)) as IR. assert (IR' : forall t1 t2 k, In (t1, k) (dict_at W (ref_of W i)) -> In (t2, k) (dict_at W (ref_of W i)) -> t1 = t2).
    { intros t1 t2 k I1 I2. apply (dget_In_iff _ _ _ ND) in I1, I2. exact (proj2 (IR _ _ _ _ I1 I2)). }
    clear IR. revert IR' ND R. induction (dict_at W (ref_of W i)) as [|[t k] l IH]; intros IR ND R; [constructor|]. cbn [map fst snd] in *. inversion ND as [|? ? NI ND']; subst. constructor.
    + intros I. apply in_map_iff in I as ([t' k'] & E & I). cbn [snd] in E. subst k'. assert (t' = t) as -> by (apply (IR t' t k); [right; exact I|left; reflexivity]). apply NI. apply in_map_iff. exists (t, k). auto.
    + apply IH; [intros t1 t2 k1 I1 I2; apply (IR t1 t2 k1); right; assumption|exact ND'|]. intros t1 k1 I1. apply dget_In_iff; assumption.
  - apply Forall_forall. intros [t k] I. cbn [snd]. apply R in I. eapply (inv_valid W H); eauto.
Qed.
Lemma view_sets (W : dworld) i tag : winv W -> i < length (w_objs W) -> forall r l, dget (tags (view W i)) tag = Some r -> deref (view W i) r <> OList l.
Proof. intros H L r l G E. destruct (inv_sets W H i tag r L G) as [s Q]. unfold set_at in Q. unfold deref, view in E. cbn [heap] in E. congruence. Qed.

(** ** what the shapes do to the contents and the tags *)
Definition keys (W : dworld) (r : nat) : list str := map fst (dict_at W r).
Lemma upd_same {A} (l : list A) i (d : A) : upd l i (nth i l d) = l.
Proof.
  unfold upd. destruct (skipn i l) as [|x t] eqn:E; [rewrite app_nil_r; rewrite <- (firstn_skipn i l) at 2; rewrite E, app_nil_r; reflexivity|].
  assert (nth i l d = x) as ->; [|rewrite <- E; apply firstn_skipn].
  rewrite <- (firstn_skipn i l), E. assert (i < length l) by (destruct (Nat.ltb_spec i (length l)); [assumption|rewrite skipn_all2 in E by assumption; discriminate]).
  rewrite app_nth2; rewrite firstn_length, Nat.min_l by lia; [|lia]. rewrite Nat.sub_diag. reflexivity.
Qed.
Lemma mem_keys (d : dict str nat) t : mem t (map fst d) = dmem d t.
Proof. unfold dmem. destruct (dget d t) as [k|] eqn:G; [apply mem_In, in_map_iff; exists (t, k); split; [reflexivity|apply dget_In, G]|apply mem_In_false, dget_None, G]. Qed.
Lemma dset_with_tag (d : dict str nat) tag k : map fst (dset d tag k) = with_tag tag (map fst d).
Proof. unfold with_tag. rewrite mem_keys. exact (dset_keys d tag k). Qed.
Lemma dpop_without_tag (d : dict str nat) tag : map fst (dpop d tag) = without_tag tag (map fst d).
Proof.
  unfold dpop, without_tag. induction d as [|[k v] d IH]; [reflexivity|]. cbn [filter map fst]. destruct (eqb_spec k tag) as [->|NE].
  - rewrite (proj2 (eqb_eq tag tag) eq_refl). cbn [negb]. exact IH.
  - rewrite (proj2 (eqb_neq tag k)) by congruence. cbn [negb map fst]. f_equal. exact IH.
Qed.
Lemma content_upd_set (W W' : dworld) r tag k s : winv W -> w_sets W' = upd (w_sets W) k (OSet s) -> w_dicts W' = w_dicts W -> dget (dict_at W r) tag = Some k ->
  (forall r' w t, content W' r' w t = if (r' =? r) && eqb tag t then mem w s else content W r' w t) /\ forall r', keys W' r' = keys W r'.
Proof.
  intros H ES ED G. assert (DA : forall r', dict_at W' r' = dict_at W r') by (intros r'; unfold dict_at; rewrite ED; reflexivity).
  split; [|intros r'; unfold keys; rewrite DA; reflexivity]. intros r' w t. unfold content. rewrite DA. pose proof (inv_valid W H _ _ _ G) as Lk.
  destruct (Nat.eqb_spec r' r) as [->|NR]; cbn [andb].
  - destruct (eqb_spec tag t) as [<-|NT].
    + rewrite G. unfold set_at. rewrite ES, upd_nth, Nat.eqb_refl, (proj2 (Nat.ltb_lt _ _) Lk). reflexivity.
    + destruct (dget (dict_at W r) t) as [k'|] eqn:G'; [|reflexivity]. unfold set_at. rewrite ES, upd_nth. destruct (Nat.eqb_spec k k') as [<-|]; [|reflexivity]. exfalso. apply NT. exact (proj2 (inv_refs W H _ _ _ _ _ G G')).
  - destruct (dget (dict_at W r') t) as [k'|] eqn:G'; [|reflexivity]. unfold set_at. rewrite ES, upd_nth. destruct (Nat.eqb_spec k k') as [<-|]; [|reflexivity]. exfalso. apply NR. exact (proj1 (inv_refs W H _ _ _ _ _ G' G)).
Qed.
Lemma dict_at_upd (W W' : dworld) r d : r < length (w_dicts W) -> w_dicts W' = upd (w_dicts W) r d -> forall r', dict_at W' r' = if r' =? r then d else dict_at W r'.
Proof. intros L ED r'. unfold dict_at. rewrite ED. apply nth_upd_dict, L. Qed.
Lemma content_set_tag (W W' : dworld) r tag s : winv W -> r < length (w_dicts W) -> w_sets W' = w_sets W ++ [OSet s] -> w_dicts W' = upd (w_dicts W) r (dset (dict_at W r) tag (length (w_sets W))) ->
  (forall r' w t, content W' r' w t = if (r' =? r) && eqb tag t then mem w s else content W r' w t) /\
  forall r', keys W' r' = if r' =? r then with_tag tag (keys W r') else keys W r'.
Proof.
  intros H L ES ED. pose proof (dict_at_upd W W' r _ L ED) as DA. split.
  - assert (O : forall r' w t k, dget (dict_at W r') t = Some k -> mem w (elems (set_at W' k)) = mem w (elems (set_at W k))).
    { intros r' w t k G. unfold set_at. rewrite ES, app_nth1; [reflexivity|]. eapply (inv_valid W H); eauto. }
    intros r' w t. unfold content. rewrite DA. destruct (Nat.eqb_spec r' r) as [->|]; cbn [andb].
    + rewrite dget_dset. destruct (eqb_spec tag t) as [<-|]; [|destruct (dget (dict_at W r) t) eqn:G; [eapply O; eauto|reflexivity]].
      unfold set_at. rewrite ES, app_nth2, Nat.sub_diag by lia. reflexivity.
    + destruct (dget (dict_at W r') t) eqn:G; [eapply O; eauto|reflexivity].
  - intros r'. unfold keys. rewrite DA. destruct (Nat.eqb_spec r' r) as [->|]; [apply dset_with_tag|reflexivity].
Qed.
Lemma content_del_tag (W W' : dworld) r tag : winv W -> r < length (w_dicts W) -> w_sets W' = w_sets W -> w_dicts W' = upd (w_dicts W) r (dpop (dict_at W r) tag) ->
  (forall r' w t, content W' r' w t = if (r' =? r) && eqb tag t then false else content W r' w t) /\
  forall r', keys W' r' = if r' =? r then without_tag tag (keys W r') else keys W r'.
Proof.
  intros H L ES ED. pose proof (dict_at_upd W W' r _ L ED) as DA. split.
  - intros r' w t. unfold content, set_at. rewrite DA, ES. destruct (Nat.eqb_spec r' r) as [->|]; cbn [andb]; [|reflexivity]. rewrite dget_dpop. destruct (eqb tag t); reflexivity.
  - intros r'. unfold keys. rewrite DA. destruct (Nat.eqb_spec r' r) as [->|]; [apply dpop_without_tag|reflexivity].
Qed.
Lemma content_new_dict (W W' : dworld) news d : winv W -> w_sets W' = w_sets W ++ news -> w_dicts W' = w_dicts W ++ [d] ->
  forall r', r' < length (w_dicts W) -> (forall w t, content W' r' w t = content W r' w t) /\ keys W' r' = keys W r'.
Proof.
  intros H ES ED r' L. assert (DA : dict_at W' r' = dict_at W r') by (unfold dict_at; rewrite ED, app_nth1 by exact L; reflexivity).
  split; [|unfold keys; rewrite DA; reflexivity]. intros w t. unfold content, set_at. rewrite DA, ES. destruct (dget (dict_at W r') t) as [k|] eqn:G; [|reflexivity]. rewrite app_nth1 by (eapply (inv_valid W H); eauto). reflexivity.
Qed.
Lemma content_same (W W' : dworld) : w_sets W' = w_sets W -> w_dicts W' = w_dicts W -> (forall r w t, content W' r w t = content W r w t) /\ forall r, keys W' r = keys W r.
Proof. intros ES ED. unfold content, keys, set_at, dict_at. rewrite ES, ED. split; reflexivity. Qed.
(** fresh references *)
Lemma fresh_dset (W : dworld) r tag : winv W -> fresh_dict W 1 (dict_at W r) (dset (dict_at W r) tag (length (w_sets W))).
Proof.
  intros H. split.
  - rewrite dset_with_tag. unfold with_tag. destruct (mem tag (map fst (dict_at W r))) eqn:M; [apply (inv_keys W H)|]. apply mem_In_false in M.
    apply (Permutation_NoDup (l := tag :: map fst (dict_at W r))); [apply Permutation_cons_append|constructor; [exact M|apply (inv_keys W H)]].
  - intros t k. rewrite dget_dset. destruct (eqb_spec tag t) as [<-|NT].
    + intros [= <-]. split; [lia|]. split; [lia|]. intros t'. rewrite dget_dset. destruct (eqb_spec tag t'); [auto|]. intros G. apply (inv_valid W H) in G. lia.
    + intros G. pose proof (inv_valid W H _ _ _ G) as Lk. split; [lia|]. split; [auto|]. intros t'. rewrite dget_dset. destruct (eqb_spec tag t') as [<-|]; [intros [= <-]; lia|]. intros G'. exact (proj2 (inv_refs W H _ _ _ _ _ G' G)).
Qed.
Lemma fresh_dpop (W : dworld) r tag : winv W -> fresh_dict W 0 (dict_at W r) (dpop (dict_at W r) tag).
Proof.
  intros H. split.
  - rewrite dpop_without_tag. apply NoDup_filter, (inv_keys W H).
  - intros t k. rewrite dget_dpop. destruct (eqb_spec tag t) as [<-|NT]; [discriminate|]. intros G. pose proof (inv_valid W H _ _ _ G) as Lk. split; [lia|]. split; [auto|]. intros t'. rewrite dget_dpop. destruct (eqb_spec tag t'); [discriminate|]. intros G'. exact (proj2 (inv_refs W H _ _ _ _ _ G' G)).
Qed.
Lemma fresh_number (W : dworld) r {A} (l : list (str * A)) : NoDup (map fst l) -> fresh_dict W (length l) (dict_at W r) (number_from (length (w_sets W)) l).
Proof. intros ND. split; [rewrite number_fst; exact ND|]. intros t k G. apply number_range in G as [R U]. split; [lia|]. split; [lia|exact U]. Qed.
