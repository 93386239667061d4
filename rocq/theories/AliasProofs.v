From Coq Require Import List ZArith Lia Bool.
Import ListNotations.
From Verif Require Import PyBase PyDict UtilsModel UtilsSpec UtilsProofs AliasModel AliasSpec.
Open Scope Z_scope.

Definition refs (h : heap) (o : nat) : list nat := map snd (outv h o).
Definition disj (a b : list nat) : Prop := forall i, In i a -> ~ In i b.

Lemma read_ext h h' o : outv h' o = outv h o -> (forall i, In i (refs h o) -> rowv h' i = rowv h i) -> read h' o = read h o.
Proof. intros E R. unfold read. rewrite E. apply map_ext_in. intros [k i] I. cbn [fst snd]. rewrite R; [reflexivity|]. apply (in_map snd) in I. exact I. Qed.
Lemma read_keys h o : map fst (read h o) = map fst (outv h o).
Proof. unfold read. rewrite map_map. reflexivity. Qed.
Lemma read_dget h o a : dget (read h o) a = option_map (rowv h) (dget (outv h o) a).
Proof.
  unfold read. induction (outv h o) as [|[k i] d IH]; [reflexivity|]. cbn [map dget fst snd]. destruct (eqb k a); [reflexivity|exact IH].
Qed.
Lemma dget_ref (d : dict str nat) a i : dget d a = Some i -> In i (map snd d).
Proof. induction d as [|[k j] d IH]; [discriminate|]. cbn [dget map snd]. destruct (eqb k a); [intros [= ->]; left; reflexivity|right; auto]. Qed.
(** writing a row in place is writing the dict of dicts *)
Lemma read_set_row h o a i v : NoDup (refs h o) -> dget (outv h o) a = Some i -> read (set_row h i v) o = dset (read h o) a v.
Proof.
  unfold refs, read, set_row. cbn [rowv outv]. induction (outv h o) as [|[k j] d IH]; intros ND G; [discriminate|]. cbn [map snd] in ND. inversion ND as [|? ? NI ND']; subst.
  cbn [dget] in G. cbn [map fst snd dset]. destruct (eqb_spec k a) as [->|NE].
  - assert (j = i) as -> by congruence. rewrite Nat.eqb_refl. f_equal. apply map_ext_in. intros [k' j'] I. cbn [fst snd]. destruct (Nat.eqb_spec j' i) as [->|]; [|reflexivity]. exfalso. apply NI. apply (in_map snd) in I. exact I.
  - destruct (Nat.eqb_spec j i) as [->|]; [exfalso; apply NI, (dget_ref _ _ _ G)|]. f_equal. apply IH; assumption.
Qed.
Lemma read_frame h o i v : ~ In i (refs h o) -> read (set_row h i v) o = read h o.
Proof. intros N. apply read_ext; [reflexivity|]. intros j J. cbn [set_row rowv]. destruct (Nat.eqb_spec j i) as [->|]; [contradiction|reflexivity]. Qed.
Lemma read_pop h o a i v : NoDup (refs h o) -> NoDup (map fst (outv h o)) -> dget (outv h o) a = Some i -> read (set_out (set_row h i v) o (dpop (outv h o) a)) o = dpop (read h o) a.
Proof.
  unfold refs, read, set_row, set_out. cbn [rowv outv]. rewrite Nat.eqb_refl. unfold dpop. induction (outv h o) as [|[k j] d IH]; intros ND NK G; [discriminate|]. cbn [map fst snd] in *. inversion ND as [|? ? NI ND']; subst. inversion NK as [|? ? KI NK']; subst.
  cbn [dget] in G. cbn [filter fst]. destruct (eqb_spec k a) as [->|NE]; cbn [negb map fst snd filter].
  - assert (j = i) as -> by congruence.
    assert (NA : filter (fun kv : str * nat => negb (eqb (fst kv) a)) d = d).
    { clear -KI. induction d as [|[k' j'] d IH]; [reflexivity|]. cbn [filter fst map] in *. destruct (eqb_spec k' a) as [->|]; [exfalso; apply KI; left; reflexivity|]. cbn [negb]. f_equal. apply IH. intros I. apply KI. right. exact I. }
    rewrite NA. assert (NB : filter (fun kv : str * dict str Z => negb (eqb (fst kv) a)) (map (fun p : str * nat => (fst p, rowv h (snd p))) d) = map (fun p : str * nat => (fst p, rowv h (snd p))) d).
    { clear -KI. induction d as [|[k' j'] d IH]; [reflexivity|]. cbn [filter fst map] in *. destruct (eqb_spec k' a) as [->|]; [exfalso; apply KI; left; reflexivity|]. cbn [negb]. f_equal. apply IH. intros I. apply KI. right. exact I. }
    rewrite NB. apply map_ext_in. intros [k' j'] I. cbn [fst snd]. destruct (Nat.eqb_spec j' i) as [->|]; [|reflexivity]. exfalso. apply NI. apply (in_map snd) in I. exact I.
  - destruct (Nat.eqb_spec j i) as [->|]; [exfalso; apply NI, (dget_ref _ _ _ G)|]. f_equal. apply IH; assumption.
Qed.

(** ** allocation *)
Lemma alloc_read h d : read (fst (alloc h d)) (nout h) = d.
Proof.
  unfold alloc, read. cbn [fst outv rowv]. rewrite Nat.eqb_refl.
  assert (X : forall n (f : nat -> dict str Z), (forall k, (k < length d)%nat -> f (n + k)%nat = nth k (map snd d) []) -> map (fun p : str * nat => (fst p, f (snd p))) (combine (map fst d) (seq n (length d))) = d).
  { induction d as [|[k v] d IH]; intros n f H; [reflexivity|]. cbn [map length seq combine fst snd]. f_equal.
    - pose proof (H 0%nat) as H0. rewrite Nat.add_0_r in H0. cbn [map nth length snd] in H0. rewrite H0 by lia. reflexivity.
    - apply IH. intros j L. pose proof (H (S j)) as HS. cbn [map nth length] in HS. rewrite <- HS by lia. f_equal. lia. }
  apply (X (nrow h) (fun j => if (nrow h <=? j)%nat && (j <? nrow h + length d)%nat then nth (j - nrow h) (map snd d) [] else rowv h j)). intros k L. replace ((nrow h <=? nrow h + k)%nat && (nrow h + k <? nrow h + length d)%nat) with true by (symmetry; apply andb_true_intro; split; [apply Nat.leb_le|apply Nat.ltb_lt]; lia).
  f_equal. lia.
Qed.
Lemma alloc_refs h d : refs (fst (alloc h d)) (nout h) = seq (nrow h) (length d).
Proof.
  unfold alloc, refs. cbn [fst outv]. rewrite Nat.eqb_refl.
  assert (X : forall n, map snd (combine (map fst d) (seq n (length d))) = seq n (length d)) by (induction d as [|x d IH]; intros n; [reflexivity|cbn [map length seq combine snd]; f_equal; apply IH]). apply X.
Qed.
Lemma alloc_old_out h d o : (o < nout h)%nat -> outv (fst (alloc h d)) o = outv h o.
Proof. intros L. unfold alloc. cbn [fst outv]. destruct (Nat.eqb_spec o (nout h)); [lia|reflexivity]. Qed.
Lemma alloc_old_row h d i : (i < nrow h)%nat -> rowv (fst (alloc h d)) i = rowv h i.
Proof. intros L. unfold alloc. cbn [fst rowv]. replace (nrow h <=? i)%nat with false by (symmetry; apply Nat.leb_gt; lia). reflexivity. Qed.
Definition bounded (h : heap) (o : nat) : Prop := (o < nout h)%nat /\ forall i, In i (refs h o) -> (i < nrow h)%nat.
Lemma alloc_old_read h d o : bounded h o -> read (fst (alloc h d)) o = read h o.
Proof. intros [B R]. apply read_ext; [apply alloc_old_out, B|]. intros i I. apply alloc_old_row, R, I. Qed.
Lemma alloc_old_refs h d o : bounded h o -> refs (fst (alloc h d)) o = refs h o.
Proof. intros [B _]. unfold refs. rewrite alloc_old_out by exact B. reflexivity. Qed.
Lemma alloc_bounded h d o : bounded h o -> bounded (fst (alloc h d)) o.
Proof. intros B. split; [destruct B as [B _]; unfold alloc; cbn [fst nout]; lia|]. rewrite alloc_old_refs by exact B. intros i I. destruct B as [_ B]. specialize (B i I). unfold alloc. cbn [fst nrow]. lia. Qed.
Lemma alloc_new_bounded h d : bounded (fst (alloc h d)) (nout h).
Proof. split; [unfold alloc; cbn [fst nout]; lia|]. rewrite alloc_refs. intros i I. apply in_seq in I. unfold alloc. cbn [fst nrow]. lia. Qed.
Lemma alloc_new_disj h d o : bounded h o -> disj (refs (fst (alloc h d)) o) (refs (fst (alloc h d)) (nout h)).
Proof. intros B i I J. rewrite alloc_old_refs in I by exact B. rewrite alloc_refs in J. apply in_seq in J. destruct B as [_ B]. specialize (B i I). lia. Qed.
Lemma alloc_keys h d : map fst (outv (fst (alloc h d)) (nout h)) = map fst d.
Proof. rewrite <- (read_keys (fst (alloc h d))), alloc_read. reflexivity. Qed.

(** ** the invariant of the object, [c] being the caller's dict *)
Record owned (h : heap) (g : obj) : Prop := {
  ow_lr : bounded h (o_lr g); ow_rl : bounded h (o_rl g);
  ow_nlr : NoDup (refs h (o_lr g)); ow_nrl : NoDup (refs h (o_rl g));
  ow_klr : NoDup (map fst (outv h (o_lr g))); ow_krl : NoDup (map fst (outv h (o_rl g)));
  ow_ne : o_lr g <> o_rl g; ow_dj : disj (refs h (o_lr g)) (refs h (o_rl g));
  ow_or : match o_or g with None => True | Some o => bounded h o /\ o <> o_lr g /\ o <> o_rl g /\ disj (refs h (o_lr g)) (refs h o) /\ disj (refs h (o_rl g)) (refs h o) /\ NoDup (map fst (outv h o)) end }.

(** what a write in place through the outer dict [o] can change *)
Record touches (o : nat) (h h' : heap) : Prop := {
  to_nrow : nrow h' = nrow h; to_nout : nout h' = nout h;
  to_out : forall o', o' <> o -> outv h' o' = outv h o';
  to_row : forall i, ~ In i (refs h o) -> rowv h' i = rowv h i;
  to_sub : forall a i, In (a, i) (outv h' o) -> In (a, i) (outv h o);
  to_nd : NoDup (refs h o) -> NoDup (refs h' o);
  to_ndk : NoDup (map fst (outv h o)) -> NoDup (map fst (outv h' o)) }.
Lemma touches_refl o h : touches o h h.
Proof. constructor; auto. Qed.
Lemma to_refs o h h' : touches o h h' -> forall i, In i (refs h' o) -> In i (refs h o).
Proof. intros T i I. apply in_map_iff in I as ([a j] & <- & I). apply (in_map snd (outv h o) (a, j)), (to_sub _ _ _ T), I. Qed.
Lemma touches_trans o h h1 h2 : touches o h h1 -> touches o h1 h2 -> touches o h h2.
Proof.
  intros T1 T2. pose proof (to_refs _ _ _ T1) as R1. constructor.
  - rewrite (to_nrow _ _ _ T2). apply T1.
  - rewrite (to_nout _ _ _ T2). apply T1.
  - intros o' N. rewrite (to_out _ _ _ T2) by exact N. apply T1, N.
  - intros i N. rewrite (to_row _ _ _ T2); [apply T1, N|]. intros I. apply N, R1, I.
  - intros a i I. apply (to_sub _ _ _ T1), (to_sub _ _ _ T2), I.
  - intros N. apply (to_nd _ _ _ T2), (to_nd _ _ _ T1), N.
  - intros N. apply (to_ndk _ _ _ T2), (to_ndk _ _ _ T1), N.
Qed.
Lemma touches_set_row o h a i v : dget (outv h o) a = Some i -> touches o h (set_row h i v).
Proof.
  intros G. constructor; cbn [set_row nrow nout outv rowv]; auto. intros j N. destruct (Nat.eqb_spec j i) as [->|]; [|reflexivity]. exfalso. apply N, (dget_ref _ _ _ G).
Qed.
Lemma NoDup_map_filter {A B} (f : A -> B) (p : A -> bool) l : NoDup (map f l) -> NoDup (map f (filter p l)).
Proof.
  induction l as [|x l IH]; [constructor|]. cbn [map filter]. intros N. inversion N as [|? ? NI ND]; subst. destruct (p x); [|apply IH, ND]. cbn [map]. constructor; [|apply IH, ND].
  intros I. apply NI. apply in_map_iff in I as (y & E & I). apply filter_In in I as [I _]. apply in_map_iff. exists y. auto.
Qed.
Lemma touches_pop o h a i v : dget (outv h o) a = Some i -> touches o h (set_out (set_row h i v) o (dpop (outv h o) a)).
Proof.
  intros G. eapply touches_trans; [apply (touches_set_row o h a i v G)|]. constructor; cbn [set_out set_row nrow nout outv rowv]; auto.
  - intros o' N. destruct (Nat.eqb_spec o' o); [congruence|reflexivity].
  - intros b j. rewrite Nat.eqb_refl. intros I. apply filter_In in I. tauto.
  - unfold refs. cbn [set_out outv]. rewrite Nat.eqb_refl. apply NoDup_map_filter.
  - rewrite Nat.eqb_refl. apply NoDup_map_filter.
Qed.
Lemma hadd2_touches h o a b c h' : hadd2 h o a b c = Ok h' -> touches o h h'.
Proof.
  unfold hadd2. destruct (dget (outv h o) a) as [i|] eqn:G; [|discriminate]. destruct (dget (rowv h i) b) as [v|]; [|discriminate]. intros E. assert (h' = set_row h i (dset (rowv h i) b (v + c))) as -> by congruence. apply (touches_set_row _ _ a), G.
Qed.
Lemma hdec2_touches h o a b c : touches o h (hdec2 h o a b c).
Proof.
  unfold hdec2. destruct (dget (outv h o) a) as [i|] eqn:G; [|apply touches_refl]. destruct (dget (rowv h i) b) as [v|]; [|apply touches_refl].
  destruct (v - c <=? 0); [|apply (touches_set_row _ _ a), G]. destruct (dpop (rowv h i) b) eqn:D; [apply touches_pop, G|apply (touches_set_row _ _ a), G].
Qed.
(** the simulation *)
Lemma hadd2_read h o a b c : NoDup (refs h o) -> add2 (read h o) a b c = match hadd2 h o a b c with Ok h' => Ok (read h' o) | Err e => Err e end.
Proof.
  intros ND. unfold add2, hadd2. rewrite read_dget. destruct (dget (outv h o) a) as [i|] eqn:G; cbn [option_map]; [|reflexivity]. destruct (dget (rowv h i) b) as [v|]; [|reflexivity]. rewrite (read_set_row h o a i _ ND G). reflexivity.
Qed.
Lemma hdec2_read h o a b c : NoDup (refs h o) -> NoDup (map fst (outv h o)) -> read (hdec2 h o a b c) o = dec2 (read h o) a b c.
Proof.
  intros ND NK. unfold dec2, hdec2. rewrite read_dget. destruct (dget (outv h o) a) as [i|] eqn:G; cbn [option_map]; [|reflexivity]. destruct (dget (rowv h i) b) as [v|]; [|reflexivity].
  destruct (v - c <=? 0); [|apply (read_set_row h o a i _ ND G)]. destruct (dpop (rowv h i) b) as [|x rd] eqn:D; [apply (read_pop h o a i _ ND NK G)|]. apply (read_set_row h o a i _ ND G).
Qed.
Lemma touches_read o h h' o' : touches o h h' -> o' <> o -> disj (refs h o) (refs h o') -> read h' o' = read h o'.
Proof. intros T N D. apply read_ext; [apply T, N|]. intros i I. apply (to_row _ _ _ T). intros J. exact (D i J I). Qed.
Lemma touches_bounded o h h' o' : touches o h h' -> bounded h o' -> bounded h' o'.
Proof.
  intros T [B R]. split; [rewrite (to_nout _ _ _ T); exact B|]. rewrite (to_nrow _ _ _ T). intros i I. apply R. destruct (Nat.eq_dec o' o) as [->|N]; [apply (to_refs _ _ _ T), I|]. unfold refs in I. rewrite (to_out _ _ _ T) in I by exact N. exact I.
Qed.
Lemma touches_subrefs o h h' o' : touches o h h' -> forall i, In i (refs h' o') -> In i (refs h o').
Proof. intros T i I. destruct (Nat.eq_dec o' o) as [->|N]; [apply (to_refs _ _ _ T), I|]. unfold refs in *. rewrite (to_out _ _ _ T) in I by exact N. exact I. Qed.
Lemma touches_disj o h h' a b : touches o h h' -> disj (refs h a) (refs h b) -> disj (refs h' a) (refs h' b).
Proof. intros T D i I J. apply (D i); [apply (touches_subrefs _ _ _ _ T), I|apply (touches_subrefs _ _ _ _ T), J]. Qed.
Lemma touches_keys o h h' o' : touches o h h' -> NoDup (map fst (outv h o')) -> NoDup (map fst (outv h' o')).
Proof. intros T ND. destruct (Nat.eq_dec o' o) as [->|N]; [apply (to_ndk _ _ _ T), ND|rewrite (to_out _ _ _ T) by exact N; exact ND]. Qed.
Lemma touches_nd o h h' o' : touches o h h' -> NoDup (refs h o') -> NoDup (refs h' o').
Proof. intros T ND. destruct (Nat.eq_dec o' o) as [->|N]; [apply (to_nd _ _ _ T), ND|unfold refs; rewrite (to_out _ _ _ T) by exact N; exact ND]. Qed.
Lemma touches_owned o h h' g : touches o h h' -> owned h g -> owned h' g.
Proof.
  intros T [A B C D E F G H I]. constructor; try (eapply touches_bounded; eassumption); try (eapply touches_nd; eassumption); try (eapply touches_keys; eassumption); try assumption.
  - eapply touches_disj; eassumption.
  - destruct (o_or g) as [q|]; [|exact Logic.I]. destruct I as (I1 & I2 & I3 & I4 & I5 & I6). repeat split; try assumption; try (eapply touches_bounded; eassumption); try (eapply touches_disj; eassumption); try (eapply touches_keys; eassumption).
Qed.
