(** The all-words tables agree with the single-word functions *)
From Coq Require Import Reals QArith.
From Verif Require Import PyBase PyDict PySort PyText CountLemmas UtilsProofs WordModel WordSpec WordProofs WordProofs2 WordProofs3 WordProofs4.
Open Scope Z_scope.

Lemma dwf_append_to {V} (d : dict str (list V)) k v : dwf d -> dwf (append_to d k v).
Proof. apply dwf_dset. Qed.
Lemma group_get {V} (key : V -> str) (ws : list V) : forall (e : dict str (list V)) r, dwf e ->
  dwf (fold_left (fun e w => append_to e (key w) w) ws e) /\
  dget (fold_left (fun e w => append_to e (key w) w) ws e) r =
    match dget e r, filter (fun w => eqb (key w) r) ws with None, [] => None | None, l => Some l | Some a, l => Some (a ++ l) end.
Proof.
  induction ws as [|w ws IH]; intros e r W; cbn [fold_left filter].
  - split; [exact W|]. destruct (dget e r); [rewrite app_nil_r|]; reflexivity.
  - destruct (IH (append_to e (key w) w) r (dwf_append_to _ _ _ W)) as [W' E']. split; [exact W'|]. rewrite E'. unfold append_to. rewrite dget_dset.
    destruct (eqb_spec (key w) r) as [->|N]; [|reflexivity]. destruct (dget e r); cbn [app]; [rewrite <- app_assoc|]; reflexivity.
Qed.
Lemma fold_dset_get {K V V'} `{EqB K} (g : V -> V') (exts : dict K V) : dwf exts -> forall (be : dict K V') r,
  dget (fold_left (fun be re => dset be (fst re) (g (snd re))) exts be) r = match dget exts r with Some l => Some (g l) | None => dget be r end.
Proof.
  unfold dwf, dkeys. induction exts as [|[k v] exts IH]; intros W be r; cbn [fold_left dget fst snd]; [reflexivity|]. inversion W as [|? ? Hn W']; subst. rewrite IH by exact W'. rewrite dget_dset.
  destruct (eqb_spec k r) as [->|N]; [|reflexivity]. replace (dget exts r) with (@None V); [reflexivity|]. symmetry. apply dget_None. exact Hn.
Qed.
Lemma dget_tail_none {K V} `{EqB K} (d : dict K V) k v k' : dwf ((k, v) :: d) -> dget d k' <> None -> eqb k k' = false.
Proof. intros W M. inversion W as [|? ? Hn W']; subst. apply eqb_neq. intros ->. apply Hn. apply dget_keys. exact M. Qed.
(** reading a sub-dictionary back through its keys *)
Lemma read_back (d : dict str Z) (P : str -> bool) : dwf d -> map (fun k => (k, dgetd d k 0)) (filter P (dkeys d)) = dfilter (fun k _ => P k) d.
Proof.
  intros W. unfold dkeys, dfilter. rewrite filter_map_comm, map_map.
  transitivity (map (fun kv : str * Z => kv) (filter (fun kv => P (fst kv)) d)); [|apply map_id]. apply map_ext_in. intros [k v] I. apply filter_In in I. destruct I as [I _].
  cbn [fst]. unfold dgetd. rewrite (In_dget d k v W I). reflexivity.
Qed.

Section Table.
Context {T : Type} (get_score : dict str Z -> T) (parse : str -> str) (sel1 sel2 : str -> str -> Z -> bool) (c ca : dict str Z).
Hypothesis Wc : dwf c. Hypothesis Wa : dwf ca.
Hypothesis Sp1 : forall k, In k (dkeys c) -> has_sp k = false.
Hypothesis Sp2 : forall k, In k (dkeys ca) -> has_sp k = true.
Hypothesis Len1 : forall k, length (parse k) = (length k - 1)%nat.
Hypothesis Len2 : forall k, In k (dkeys ca) -> length (parse (remove_sp k)) = (length k - 2)%nat.
Hypothesis Sel1 : forall r k v, sel1 r k v = (length k =? length r + 1)%nat && eqb (parse k) r.
Hypothesis Sel2 : forall r k v, In k (dkeys ca) -> sel2 r k v = (length k =? length r + 2)%nat && eqb (parse (remove_sp k)) r.
Hypothesis NEa : forall k, In k (dkeys ca) -> (2 <= length k)%nat.
Definition exts_of (r : str) : dict str Z := dfilter (sel1 r) c ++ dfilter (sel2 r) ca.
Hypothesis Disj : forall r, dwf (exts_of r).

Lemma filter_none {A} (p : A -> bool) l : (forall x, In x l -> p x = false) -> filter p l = [].
Proof. induction l as [|x l IH]; intros H; cbn; [reflexivity|]. rewrite (H x (or_introl eq_refl)). apply IH. intros; apply H; right; assumption. Qed.
Lemma length_table_get n be r : (2 <= n)%nat ->
  dget (length_table get_score parse c ca n be) r =
  if (n =? length r + 1)%nat then (match exts_of r with [] => dget be r | _ => Some (get_score (exts_of r)) end) else dget be r.
Proof.
  intros Hn. unfold length_table.
  set (words := filter (fun w => length w =? n)%nat (dkeys c)). set (words_ := filter (fun w => length w =? n + 1)%nat (dkeys ca)).
  destruct (group_get parse words [] r dwf_nil) as [W1 E1]. cbn [dget] in E1.
  set (e1 := fold_left (fun e w => append_to e (parse w) w) words []) in *.
  destruct (group_get (fun w => parse (remove_sp w)) words_ e1 r W1) as [W2 E2]. cbv beta in E2, W2.
  set (e2 := fold_left (fun e w => append_to e (parse (remove_sp w)) w) words_ e1) in *.
  rewrite (fold_dset_get (fun l => get_score (dict_of (map (fun ext => (ext, if has_sp ext then dgetd ca ext 0 else dgetd c ext 0)) l))) e2 W2). rewrite E2, E1. clear E1 E2.
  destruct (Nat.eqb_spec n (length r + 1)) as [En|En].
  - assert (X1 : map (fun ext => (ext, if has_sp ext then dgetd ca ext 0 else dgetd c ext 0)) (filter (fun w => eqb (parse w) r) words) = dfilter (sel1 r) c).
    { unfold words. rewrite filter_filter_comm. transitivity (map (fun k => (k, dgetd c k 0)) (filter (fun x => (length x =? n)%nat && eqb (parse x) r) (dkeys c))).
      - apply map_ext_in. intros k I. apply filter_In in I. destruct I as [I _]. rewrite (Sp1 k I). reflexivity.
      - rewrite read_back by exact Wc. apply filter_ext. intros [k v]. cbn [fst snd]. rewrite Sel1, En. reflexivity. }
    assert (X2 : map (fun ext => (ext, if has_sp ext then dgetd ca ext 0 else dgetd c ext 0)) (filter (fun w => eqb (parse (remove_sp w)) r) words_) = dfilter (sel2 r) ca).
    { unfold words_. rewrite filter_filter_comm. transitivity (map (fun k => (k, dgetd ca k 0)) (filter (fun x => (length x =? n + 1)%nat && eqb (parse (remove_sp x)) r) (dkeys ca))).
      - apply map_ext_in. intros k I. apply filter_In in I. destruct I as [I _]. rewrite (Sp2 k I). reflexivity.
      - rewrite read_back by exact Wa. apply filter_ext_in. intros [k v] I. cbn [fst snd]. rewrite Sel2 by (apply (in_map fst) in I; exact I). rewrite En. replace (length r + 1 + 1)%nat with (length r + 2)%nat by lia. reflexivity. }
    set (l1 := filter (fun w => eqb (parse w) r) words) in *. set (l2 := filter (fun w => eqb (parse (remove_sp w)) r) words_) in *.
    assert (X : dict_of (map (fun ext => (ext, if has_sp ext then dgetd ca ext 0 else dgetd c ext 0)) (l1 ++ l2)) = exts_of r).
    { rewrite map_app, X1, X2. apply dict_of_wf. apply Disj. }
    unfold exts_of at 1. rewrite <- X1, <- X2. destruct l1 as [|a l1], l2 as [|b l2]; cbn [map app] in *; try reflexivity; rewrite ?app_nil_r in X |- *; rewrite <- X; reflexivity.
  - rewrite (filter_none _ words), (filter_none _ words_); [reflexivity| |].
    + intros k I. unfold words_ in I. apply filter_In in I. destruct I as [I L]. apply Nat.eqb_eq in L. apply eqb_neq. intros E. apply (f_equal (@length N)) in E. rewrite (Len2 k I) in E. pose proof (NEa k I). lia.
    + intros k I. unfold words in I. apply filter_In in I. destruct I as [I L]. apply Nat.eqb_eq in L. apply eqb_neq. intros E. apply (f_equal (@length N)) in E. rewrite Len1 in E. lia.
Qed.
Lemma entropy_table_get mx r :
  dget (entropy_table get_score parse c ca mx) r =
  if (1 <=? length r)%nat && (Z.of_nat (length r) + 1 <? mx) then (match exts_of r with [] => None | _ => Some (get_score (exts_of r)) end) else None.
Proof.
  unfold entropy_table, range.
  assert (G : forall m a be, (2 <= a)%nat -> dget (fold_left (fun be n => length_table get_score parse c ca n be) (seq a m) be) r =
    if (a <=? length r + 1)%nat && (length r + 1 <? a + m)%nat then (match exts_of r with [] => dget be r | _ => Some (get_score (exts_of r)) end) else dget be r).
  { induction m as [|m IH]; intros a be Ha; cbn [seq fold_left].
    - destruct (Nat.leb_spec a (length r + 1)), (Nat.ltb_spec (length r + 1) (a + 0)); cbn [andb]; try reflexivity. lia.
    - rewrite IH by lia. rewrite length_table_get by exact Ha.
      destruct (Nat.eqb_spec a (length r + 1)); destruct (Nat.leb_spec (S a) (length r + 1)), (Nat.ltb_spec (length r + 1) (S a + m)), (Nat.leb_spec a (length r + 1)), (Nat.ltb_spec (length r + 1) (a + S m)); cbn [andb]; try lia; try reflexivity. }
  rewrite G by lia. cbn [dget].
  destruct (Nat.leb_spec 2 (length r + 1)), (Nat.leb_spec 1 (length r)), (Z.ltb_spec (Z.of_nat (length r) + 1) mx), (Nat.ltb_spec (length r + 1) (2 + (Z.to_nat mx - 2))); cbn [andb]; try lia; reflexivity.
Qed.
End Table.

Lemma has_sp_spec k : has_sp k = true <-> In SP k.
Proof. unfold has_sp. rewrite existsb_exists. split; [intros (y & I & E); apply N.eqb_eq in E; subst; exact I|intros I; exists SP; split; [exact I|apply N.eqb_refl]]. Qed.
Lemma nosp_has_sp w : nosp w -> has_sp w = false.
Proof. intros F. destruct (has_sp w) eqn:E; [|reflexivity]. apply has_sp_spec in E. unfold nosp in F. rewrite Forall_forall in F. specialize (F _ E). discriminate. Qed.
Lemma nosp_remove w : nosp w -> remove_sp w = w.
Proof.
  induction 1 as [|c w Hc F IH]; [reflexivity|]. unfold remove_sp in *. cbn [filter]. destruct (N.eqb_spec c SP) as [->|]; [discriminate|]. cbn [negb]. rewrite IH. reflexivity.
Qed.
Lemma remove_sp_app a b : remove_sp (a ++ b) = remove_sp a ++ remove_sp b. Proof. apply filter_app. Qed.
Lemma remove_one c : nonspace c = true -> remove_sp [SP; c] = [c].
Proof. intros H. unfold remove_sp. cbn [filter]. rewrite N.eqb_refl. cbn [negb]. destruct (N.eqb_spec c SP) as [->|]; [discriminate|reflexivity]. Qed.
Lemma remove_one' c w : nonspace c = true -> nosp w -> remove_sp (c :: SP :: w) = c :: w.
Proof. intros H F. change (c :: SP :: w) with ([c; SP] ++ w). rewrite remove_sp_app, (nosp_remove w F). unfold remove_sp. cbn [filter]. destruct (N.eqb_spec c SP) as [->|]; [discriminate|reflexivity]. Qed.

Lemma table_left {T} (g : dict str Z -> T) x r : Inv x ->
  dget (entropy_table g (fun e => skipn 1 e) (wR x) (waR x) (max_right x + 1)) r =
  if (1 <=? length r)%nat && (Z.of_nat (length r) <? max_right x) then (match ext_left x r with [] => None | _ => Some (g (ext_left x r)) end) else None.
Proof.
  intros I. rewrite (entropy_table_get g (fun e => skipn 1 e) sel_l1 sel_l2 (wR x) (waR x)).
  - unfold exts_of. rewrite <- ext_left_app by exact I.
    destruct (Z.ltb_spec (Z.of_nat (length r) + 1) (max_right x + 1)), (Z.ltb_spec (Z.of_nat (length r)) (max_right x)); try reflexivity; lia.
  - apply I. - apply I.
  - intros k K. apply nosp_has_sp. apply (I_keyR x I k K).
  - intros k K. destruct (I_keyaR x I k K) as (w & c & -> & _). apply has_sp_spec. right; left; reflexivity.
  - intros k. apply skipn_length.
  - intros k K. destruct (I_keyaR x I k K) as (w & c & -> & _ & Hw & Hc). rewrite remove_one' by assumption. cbn. lia.
  - intros; reflexivity.
  - intros r' k v K. unfold sel_l2. destruct (I_keyaR x I k K) as (w & c & -> & _ & Hw & Hc). rewrite remove_one' by assumption. reflexivity.
  - intros k K. destruct (I_keyaR x I k K) as (w & c & -> & _). cbn. lia.
  - intros r'. unfold exts_of. rewrite <- ext_left_app by exact I. apply ctr_ext_left, I.
Qed.
Lemma firstn_all1 (w : str) c : firstn (length (w ++ [c]) - 1) (w ++ [c]) = w.
Proof. rewrite app_length. cbn [length]. replace (length w + 1 - 1)%nat with (length w) by lia. rewrite firstn_app, firstn_all, Nat.sub_diag, firstn_O, app_nil_r. reflexivity. Qed.
Lemma table_right {T} (g : dict str Z -> T) x r : Inv x ->
  dget (entropy_table g (fun e => firstn (length e - 1) e) (wL x) (waL x) (max_left x + 1)) r =
  if (1 <=? length r)%nat && (Z.of_nat (length r) <? max_left x) then (match ext_right x r with [] => None | _ => Some (g (ext_right x r)) end) else None.
Proof.
  intros I. rewrite (entropy_table_get g (fun e => firstn (length e - 1) e) sel_r1 sel_r2 (wL x) (waL x)).
  - unfold exts_of. rewrite <- ext_right_app by exact I.
    destruct (Z.ltb_spec (Z.of_nat (length r) + 1) (max_left x + 1)), (Z.ltb_spec (Z.of_nat (length r)) (max_left x)); try reflexivity; lia.
  - apply I. - apply I.
  - intros k K. apply nosp_has_sp. apply (I_keyL x I k K).
  - intros k K. destruct (I_keyaL x I k K) as (w & c & -> & _). apply has_sp_spec. apply in_or_app. right; left; reflexivity.
  - intros k. rewrite firstn_length. lia.
  - intros k K. destruct (I_keyaL x I k K) as (w & c & -> & _ & Hw & Hc). rewrite remove_sp_app, nosp_remove, remove_one, firstn_all1, app_length by assumption. cbn. lia.
  - intros; reflexivity.
  - intros r' k v K. unfold sel_r2. destruct (I_keyaL x I k K) as (w & c & -> & _ & Hw & Hc). rewrite remove_sp_app, nosp_remove, remove_one, firstn_all1, firstn_app2 by assumption. reflexivity.
  - intros k K. destruct (I_keyaL x I k K) as (w & c & -> & _). rewrite app_length. cbn. lia.
  - intros r'. unfold exts_of. rewrite <- ext_right_app by exact I. apply ctr_ext_right, I.
Qed.
Lemma dwf_entropy_table {T} (g : dict str Z -> T) parse c ca mx : dwf (entropy_table g parse c ca mx).
Proof.
  unfold entropy_table. assert (G : forall ns be, dwf be -> dwf (fold_left (fun be n => length_table g parse c ca n be) ns be)); [|apply G, dwf_nil].
  induction ns as [|n ns IH]; intros be W; cbn [fold_left]; [exact W|]. apply IH. unfold length_table.
  match goal with |- dwf (fold_left _ ?e be) => generalize e end. intros e. revert be W. induction e as [|re e IHe]; intros be W; cbn [fold_left]; [exact W|]. apply IHe, dwf_dset, W.
Qed.
Lemma merge_get {T} (zero : T) (bl br : dict str T) w : dwf bl -> dwf br ->
  dget (merge zero bl br) w = match dget bl w, dget br w with None, None => None | Some l, None => Some (l, zero) | None, Some r => Some (zero, r) | Some l, Some r => Some (l, r) end.
Proof.
  intros Wl Wr. unfold merge. rewrite dict_of_wf by (rewrite map_map; exact Wl).
  assert (B : forall w, dget (map (fun wv => (fst wv, (snd wv, dgetd br (fst wv) zero))) bl) w = match dget bl w with Some l => Some (l, dgetd br w zero) | None => None end).
  { intros w0. clear Wl. induction bl as [|[k v] bl IH]; cbn [map dget fst snd]; [reflexivity|]. destruct (eqb_spec k w0) as [->|]; [reflexivity|exact IH]. }
  assert (G : forall (l : dict str T) (acc : dict str (T * T)), dwf l -> dget (fold_left (fun be wv => if dmem bl (fst wv) then be else dset be (fst wv) (zero, snd wv)) l acc) w =
    if dmem bl w then dget acc w else match dget l w with Some r => Some (zero, r) | None => dget acc w end).
  { induction l as [|[k v] l IH]; intros acc W; cbn [fold_left dget fst snd]; [destruct (dmem bl w); reflexivity|]. inversion W as [|? ? Hn W']; subst. rewrite IH by exact W'.
    destruct (eqb_spec k w) as [->|N].
    - destruct (dmem bl w) eqn:M; [reflexivity|]. replace (dget l w) with (@None T) by (symmetry; apply dget_None; exact Hn). rewrite dget_dset, eqb_refl. reflexivity.
    - destruct (dmem bl w); destruct (dmem bl k); try reflexivity; rewrite dget_dset; destruct (eqb_spec k w); try congruence; reflexivity. }
  rewrite G by exact Wr. rewrite B. unfold dmem, dgetd. destruct (dget bl w), (dget br w); reflexivity.
Qed.
Lemma all_scores_get {T} (zero : T) (g : dict str Z -> T) x w : Inv x -> g [] = zero ->
  dgetd (all_scores zero g x) w (zero, zero) =
    (if (1 <=? length w)%nat && (Z.of_nat (length w) <? max_right x) then g (ext_left x w) else zero,
     if (1 <=? length w)%nat && (Z.of_nat (length w) <? max_left x) then g (ext_right x w) else zero) /\
  (dget (all_scores zero g x) w <> None <->
    (1 <= length w)%nat /\ ((Z.of_nat (length w) < max_right x /\ ext_left x w <> []) \/ (Z.of_nat (length w) < max_left x /\ ext_right x w <> []))).
Proof.
  intros I Z0. unfold dgetd, all_scores. rewrite merge_get by apply dwf_entropy_table. rewrite table_left, table_right by exact I.
  destruct (Nat.leb_spec 1 (length w)) as [L|L]; cbn [andb].
  - destruct (Z.ltb_spec (Z.of_nat (length w)) (max_right x)) as [A|A], (Z.ltb_spec (Z.of_nat (length w)) (max_left x)) as [B|B]; cbn [andb];
    destruct (ext_left x w) eqn:El, (ext_right x w) eqn:Er; rewrite ?Z0; (split; [reflexivity|]); split; try congruence; intros; try (split; [exact L|]); try lia; try (left; split; [assumption|discriminate]); try (right; split; [assumption|discriminate]); intuition (try lia; congruence).
  - split; [reflexivity|]. split; [congruence|]. intros [H _]. lia.
Qed.
