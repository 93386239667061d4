(** * LRGraph: eojeol operations, reset, ranking, conversion, files *)
From Verif Require Import PyBase PyDict PySort PyText PyFile SortLemmas UtilsModel UtilsSpec UtilsProofs.
Open Scope Z_scope.

(** ** splits of an eojeol *)
Definition is_split (e : str) (is : list nat) (l r : str) : bool := eqb (l ++ r) e && mem (length l) is.
Lemma split_eq (e : str) (i : nat) (l r : str) : (i <= length e)%nat -> eqb (firstn i e) l && eqb (skipn i e) r = eqb (l ++ r) e && (length l =? i)%nat.
Proof.
  intros L. apply eq_true_iff_eq. rewrite !andb_true_iff, Nat.eqb_eq, !eqb_eq. split.
  - intros [<- <-]. rewrite firstn_skipn, firstn_length. split; [reflexivity|lia].
  - intros [<- <-]. rewrite firstn_app, skipn_app, Nat.sub_diag, firstn_all, skipn_all. cbn. rewrite app_nil_r. auto.
Qed.
Lemma is_split_cons (e : str) i is (l r : str) : (i <= length e)%nat -> is_split e (i :: is) l r = (eqb (firstn i e) l && eqb (skipn i e) r) || is_split e is l r.
Proof.
  intros L. unfold is_split. rewrite split_eq by exact L. unfold mem. cbn [existsb].
  change (eqb (length l) i) with (length l =? i)%nat. destruct (eqb (l ++ r) e), (length l =? i)%nat; reflexivity.
Qed.
Lemma is_split_self e i is : (i <= length e)%nat -> ~ In i is -> is_split e is (firstn i e) (skipn i e) = false.
Proof.
  intros L NI. unfold is_split. rewrite firstn_skipn, eqb_refl, firstn_length, Nat.min_l by exact L. cbn [andb]. apply mem_In_false. exact NI.
Qed.

Lemma remove_splits_spec e c is : NoDup is -> Forall (fun i => (i <= length e)%nat) is -> forall g, Inv g ->
  let g' := fold_left (fun g i => remove_lr_pair g (firstn i e) (skipn i e) c) is g in
  Inv g' /\ origin g' = origin g /\
  forall l r, pget (lr g') l r = if is_split e is l r then dec (pget (lr g) l r) c else pget (lr g) l r.
Proof.
  intros ND F. induction F as [|i is L F IH]; intros g I; cbn [fold_left].
  - split; [exact I|]. split; [reflexivity|]. intros l r. unfold is_split, mem. cbn [existsb]. rewrite andb_false_r. reflexivity.
  - inversion ND as [|? ? NI ND']; subst. destruct (remove_pair_spec g (firstn i e) (skipn i e) c I) as (I' & O' & _ & P).
    destruct (IH ND' _ I') as (J1 & J2 & J3). cbn zeta. split; [exact J1|]. split; [congruence|]. intros l r.
    rewrite J3, P, (is_split_cons e i is l r L).
    destruct (eqb (firstn i e) l && eqb (skipn i e) r) eqn:E; cbn [orb]; [|reflexivity].
    apply andb_true_iff in E as [E1 E2]. apply eqb_eq in E1, E2. subst l r. rewrite is_split_self by assumption. reflexivity.
Qed.
Lemma seq_le n : Forall (fun i => (i <= n)%nat) (seq 1 n).
Proof. apply Forall_forall. intros i I. apply in_seq in I. lia. Qed.
Lemma is_split_seq e l r : is_split e (seq 1 (length e)) l r = true <-> l <> [] /\ l ++ r = e.
Proof.
  unfold is_split. rewrite andb_true_iff, eqb_eq, mem_In, in_seq. split.
  - intros [<- L]. split; [|reflexivity]. destruct l; [cbn in L; lia|discriminate].
  - intros [NE <-]. split; [reflexivity|]. rewrite app_length. destruct l; [congruence|cbn; lia].
Qed.

Definition inco (o : option Z) (c : Z) : option Z := match o with Some v => Some (v + c) | None => None end.
Lemma add_splits_spec e c is : NoDup is -> Forall (fun i => (i <= length e)%nat) is -> forall g, Inv g ->
  exists g' is1, fst (add_splits g e is c) = g' /\ Inv g' /\ origin g' = origin g /\
  (forall l r, pget (lr g') l r = if is_split e is1 l r then inco (pget (lr g) l r) c else pget (lr g) l r) /\
  (forall i, In i is1 -> pget (lr g) (firstn i e) (skipn i e) <> None) /\
  ((snd (add_splits g e is c) = None /\ is1 = is) \/
   (snd (add_splits g e is c) = Some KeyError /\ exists j is2, is = is1 ++ j :: is2 /\ pget (lr g) (firstn j e) (skipn j e) = None)).
Proof.
  intros ND F. induction F as [|i is L F IH]; intros g I; cbn [add_splits].
  - exists g, []. split; [reflexivity|]. split; [exact I|]. split; [reflexivity|]. split; [|split; [intros i []|left; split; reflexivity]].
    intros l r. unfold is_split, mem. cbn [existsb]. rewrite andb_false_r. reflexivity.
  - inversion ND as [|? ? NI ND']; subst. pose proof (add_pair_spec g (firstn i e) (skipn i e) c I) as A.
    destruct (pget (lr g) (firstn i e) (skipn i e)) as [v|] eqn:Ev.
    + destruct A as (g1 & -> & I1 & O1 & _ & _ & P & _).
      destruct (IH ND' g1 I1) as (g' & is1 & E1 & I' & O' & Q & Pr & R). exists g', (i :: is1).
      assert (NI1 : ~ In i is1). { intros X. apply NI. destruct R as [[_ ->]|[_ (j & is2 & -> & _)]]; [exact X|]. apply in_or_app. auto. }
      split; [exact E1|]. split; [exact I'|]. split; [congruence|]. split; [|split].
      * intros l r. rewrite Q, !P, (is_split_cons e i is1 l r L).
        destruct (eqb (firstn i e) l && eqb (skipn i e) r) eqn:E; cbn [orb]; [|reflexivity].
        apply andb_true_iff in E as [X1 X2]. apply eqb_eq in X1, X2. subst l r. rewrite is_split_self by assumption. rewrite Ev. reflexivity.
      * assert (Lall : forall k, In k is1 -> (k <= length e)%nat).
        { intros k Hk. rewrite Forall_forall in F. apply F. destruct R as [[_ ->]|[_ (j & is2 & -> & _)]]; [exact Hk|]. apply in_or_app. auto. }
        intros k [<-|Ik]; [congruence|]. pose proof (Pr k Ik) as Pk. rewrite P in Pk. 
        assert (k <> i) by (intros ->; contradiction).
        rewrite split_eq in Pk by exact L. rewrite firstn_skipn, eqb_refl, firstn_length, Nat.min_l in Pk by (apply Lall; exact Ik).
        replace (k =? i)%nat with false in Pk by (symmetry; apply Nat.eqb_neq; assumption). exact Pk.
      * destruct R as [[R1 ->]|[R1 (j & is2 & -> & R2)]]; [left; auto|right]. split; [exact R1|]. exists j, is2. split; [reflexivity|].
        assert (Lj : (j <= length e)%nat) by (rewrite Forall_forall in F; apply F, in_or_app; right; left; reflexivity).
        assert (j <> i) by (intros ->; apply NI, in_or_app; right; left; reflexivity).
        rewrite P in R2. rewrite split_eq in R2 by exact L. rewrite firstn_skipn, eqb_refl, firstn_length, Nat.min_l in R2 by exact Lj.
        replace (j =? i)%nat with false in R2 by (symmetry; apply Nat.eqb_neq; assumption). exact R2.
    + rewrite A. exists g, []. split; [reflexivity|]. split; [exact I|]. split; [reflexivity|]. split; [|split; [intros k []|right]].
      * intros l r. unfold is_split, mem. cbn [existsb]. rewrite andb_false_r. reflexivity.
      * split; [reflexivity|]. exists i, is. split; [reflexivity|exact Ev].
Qed.

Lemma add_then_remove g e c g1 : Inv g -> positive (lr g) -> add_eojeol g e c = (g1, None) ->
  let g2 := remove_eojeol g1 e c in Inv g2 /\ forall l r, pget (lr g2) l r = pget (lr g) l r.
Proof.
  intros I P A. unfold add_eojeol in A.
  destruct (add_splits_spec e c _ (seq_NoDup _ _) (seq_le (length e)) g I) as (g' & is1 & E1 & I1 & _ & Q & _ & R).
  rewrite A in E1, R. cbn [fst snd] in E1, R. subst g'. destruct R as [[_ ->]|[R _]]; [|discriminate].
  destruct (remove_splits_spec e c _ (seq_NoDup (length e) 1) (seq_le (length e)) g1 I1) as (I2 & _ & Q2).
  cbn zeta. split; [exact I2|]. intros l r. unfold remove_eojeol. rewrite Q2, Q.
  destruct (is_split e (seq 1 (length e)) l r); [|reflexivity].
  destruct (pget (lr g) l r) as [v|] eqn:E; [|reflexivity]. cbn [inco dec]. specialize (P _ _ _ E).
  replace (v + c - c <=? 0) with false by lia. f_equal. lia.
Qed.

(** ** reset and freeze *)
Lemma step_empty o g : lr g = [] -> rl g = [] -> (origin g = Some [] \/ origin g = None) ->
  lr (step g o) = [] /\ rl (step g o) = [] /\ (origin (step g o) = Some [] \/ origin (step g o) = None).
Proof.
  assert (AP : forall g l r c, lr g = [] -> add_lr_pair g l r c = (g, Some KeyError)) by (intros; unfold add_lr_pair; rewrite H; reflexivity).
  assert (RM : forall g l r c, lr g = [] -> rl g = [] -> remove_lr_pair g l r c = g).
  { intros [a b o' lm rm] l r c; cbn; intros -> ->. reflexivity. }
  intros A B O. destruct o; cbn [step].
  - rewrite AP by exact A. auto.
  - unfold add_eojeol. destruct (seq 1 (length e)); cbn [add_splits]; [auto|]. rewrite AP by exact A. auto.
  - rewrite RM by assumption. auto.
  - unfold remove_eojeol. replace (fold_left _ _ g) with g; [auto|]. induction (seq 1 (length e)) as [|i is IH]; [reflexivity|].
    cbn [fold_left]. rewrite RM by assumption. exact IH.
  - unfold reset_lrgraph. destruct O as [E|E]; rewrite E; cbn [check_lrgraph]; auto.
  - cbn [freeze lr rl origin]. auto.
Qed.
Lemma history_empty ops : forall g, lr g = [] -> rl g = [] -> (origin g = Some [] \/ origin g = None) ->
  lr (history g ops) = [] /\ rl (history g ops) = [].
Proof.
  induction ops as [|o ops IH]; intros g A B O; [auto|]. destruct (step_empty o g A B O) as (A' & B' & O').
  apply (IH (step g o)); assumption.
Qed.
Lemma step_origin o g : Inv g -> o <> OpFreeze -> origin (step g o) = origin g /\ l_max (step g o) = l_max g /\ r_max (step g o) = r_max g.
Proof.
  assert (AP : forall g l r c, origin (fst (add_lr_pair g l r c)) = origin g /\ l_max (fst (add_lr_pair g l r c)) = l_max g /\ r_max (fst (add_lr_pair g l r c)) = r_max g).
  { intros g0 l r c. unfold add_lr_pair. destruct (add2 (lr g0) l r c); [|auto]. destruct r; [auto|]. destruct (add2 (rl _) _ l c); auto. }
  intros I NF. destruct o; cbn [step]; try congruence.
  - apply AP.
  - unfold add_eojeol. generalize (seq 1 (length e)) as is. intros is. clear I. revert g. induction is as [|i is IH]; intros g; cbn [add_splits]; [auto|].
    pose proof (AP g (firstn i e) (skipn i e) c) as H. destruct (add_lr_pair g (firstn i e) (skipn i e) c) as [g' [x|]]; cbn [fst] in *; [exact H|].
    destruct (IH g') as (X & Y & Z). destruct H as (P & Q & R). repeat split; congruence.
  - auto.
  - unfold remove_eojeol. generalize (seq 1 (length e)) as is. intros is. clear I. revert g. induction is as [|i is IH]; intros g; cbn [fold_left]; [auto|].
    destruct (IH (remove_lr_pair g (firstn i e) (skipn i e) c)) as (X & Y & Z). auto.
  - unfold reset_lrgraph. destruct (origin g) as [[|p o]|] eqn:E; cbn [check_lrgraph]; rewrite ?E; auto.
Qed.
Lemma history_origin ops : Forall (fun o => o <> OpFreeze) ops -> forall g, Inv g ->
  origin (history g ops) = origin g /\ l_max (history g ops) = l_max g /\ r_max (history g ops) = r_max g.
Proof.
  induction 1 as [|o ops NF F IH]; intros g I; [auto|]. destruct (step_origin o g I NF) as (A & B & C).
  destruct (IH (step g o) (step_Inv o g I)) as (X & Y & Z). cbn [history fold_left] in *. unfold history in *. cbn [fold_left]. repeat split; congruence.
Qed.
Lemma reset_history d sents lm rm g ops : is_graph d -> lrg_new d sents lm rm = Ok g ->
  Forall (fun o => o <> OpFreeze) ops -> reset_lrgraph (history g ops) = g.
Proof.
  intros G N F. destruct (new_Inv _ _ _ _ _ G N) as (I & _ & O & R). destruct (history_origin ops F g I) as (A & B & C).
  unfold reset_lrgraph. rewrite A, O. destruct (lr g) as [|p x] eqn:E.
  - cbn [check_lrgraph]. assert (R' : rl g = []) by (rewrite R; reflexivity).
    destruct (history_empty ops g E R' (or_introl O)) as [X Y].
    destruct (history g ops) as [a b o lm' rm'], g as [a' b' o' lm'' rm'']. cbn in *. subst. reflexivity.
  - cbn [check_lrgraph]. rewrite B, C. destruct g as [a' b' o' lm'' rm'']. cbn in *. subst. reflexivity.
Qed.
Lemma step_None o g : origin g = None -> origin (step g o) = None.
Proof.
  assert (AP : forall g l r c, origin (fst (add_lr_pair g l r c)) = origin g).
  { intros g0 l r c. unfold add_lr_pair. destruct (add2 (lr g0) l r c); [|auto]. destruct r; [auto|]. destruct (add2 (rl _) _ l c); auto. }
  intros E. destruct o; cbn [step].
  - rewrite AP. exact E.
  - unfold add_eojeol. generalize (seq 1 (length e)) as is. intros is. revert g E. induction is as [|i is IH]; intros g E; cbn [add_splits]; [auto|].
    pose proof (AP g (firstn i e) (skipn i e) c) as H. destruct (add_lr_pair g (firstn i e) (skipn i e) c) as [g' [x|]]; cbn [fst] in *; [congruence|].
    apply IH. congruence.
  - exact E.
  - unfold remove_eojeol. generalize (seq 1 (length e)) as is. intros is. revert g E. induction is as [|i is IH]; intros g E; cbn [fold_left]; [auto|].
    apply IH. exact E.
  - unfold reset_lrgraph. rewrite E. exact E.
  - reflexivity.
Qed.
Lemma frozen_reset g ops : reset_lrgraph (history (freeze g) ops) = history (freeze g) ops.
Proof.
  assert (E : origin (history (freeze g) ops) = None).
  { assert (H : forall g, origin g = None -> origin (history g ops) = None); [|apply H; reflexivity].
    induction ops as [|o ops IH]; intros g0 E; [exact E|]. apply (IH (step g0 o)), step_None, E. }
  unfold reset_lrgraph. rewrite E. reflexivity.
Qed.

(** ** ranking *)
Lemma sort_desc_sorted (l : list (str * Z)) :
  StronglySorted (fun x y => snd y <= snd x) (sort (fun x y : str * Z => (- snd x <=? - snd y)) l).
Proof.
  eapply StronglySorted_impl; [|apply sort_sorted].
  - intros x y H. cbv beta in H. lia.
  - intros x y. destruct (- snd x <=? - snd y) eqn:E; [auto|right]. lia.
  - intros x y z A B. lia.
Qed.
Lemma sort_desc_stable (l : list (str * Z)) v :
  filter (fun p => snd p =? v) (sort (fun x y : str * Z => (- snd x <=? - snd y)) l) = filter (fun p => snd p =? v) l.
Proof.
  pose proof (sort_stable (fun x y : str * Z => (- snd x <=? - snd y))) as S.
  specialize (S ltac:(intros x y; cbv beta; destruct (- snd x <=? - snd y) eqn:E; [auto|right; lia]) ltac:(intros x y z A B; cbv beta in *; lia) ([], v) l).
  rewrite (filter_ext _ (equivb (fun x y : str * Z => - snd x <=? - snd y) ([], v))).
  - rewrite S. apply filter_ext. intros p. unfold equivb. cbn [snd]. lia.
  - intros p. unfold equivb. cbn [snd]. lia.
Qed.

(** ** EojeolCounter -> LRGraph *)
Definition word_trips (lm rm : Z) (f : nat -> Z) (w : str) : list (str * str * Z) :=
  map (fun e => (firstn e w, skipn e w, f e)) (filter (fun e => negb (Z.of_nat (length (skipn e w)) >? rm)) (seq 1 (Nat.min (Z.to_nat lm) (length w)))).
Lemma fold_word_incs rm (f : nat -> Z) w es : forall d,
  fold_left (fun d e => let l := firstn e w in let r := skipn e w in if Z.of_nat (length r) >? rm then d else inc2 d l r (f e)) es d =
  incs (map (fun e => (firstn e w, skipn e w, f e)) (filter (fun e => negb (Z.of_nat (length (skipn e w)) >? rm)) es)) d.
Proof.
  induction es as [|e es IH]; intros d; [reflexivity|]. cbn [fold_left filter]. rewrite IH.
  destruct (Z.of_nat (length (skipn e w)) >? rm); reflexivity.
Qed.
Lemma word_trips_at lm rm f w l r : filter (at_pair l r) (word_trips lm rm f w) =
  if eqb (l ++ r) w && (1 <=? length l)%nat && (length l <=? Z.to_nat lm)%nat && (Z.of_nat (length r) <=? rm) then [(l, r, f (length l))] else [].
Proof.
  unfold word_trips. rewrite filter_map_comm, filter_filter_comm.
  rewrite (filter_ext_in _ (fun e => (eqb (l ++ r) w && (Z.of_nat (length r) <=? rm)) && (e =? length l)%nat)).
  2:{ intros e He. apply in_seq in He. unfold at_pair. cbn [fst snd]. rewrite split_eq by lia.
      destruct (eqb_spec (l ++ r) w) as [<-|n]; cbn [andb]; [|apply andb_false_r].
      rewrite (Nat.eqb_sym e). destruct (Nat.eqb_spec (length l) e) as [<-|n]; [|rewrite !andb_false_r; reflexivity].
      rewrite skipn_app, skipn_all, Nat.sub_diag, app_nil_l, andb_true_r. cbn [skipn]. lia. }
  destruct (eqb_spec (l ++ r) w) as [<-|n]; cbn [andb]; [|rewrite filter_false; reflexivity].
  destruct (Z.of_nat (length r) <=? rm); cbn [andb]; [|rewrite andb_false_r, filter_false; reflexivity]. rewrite andb_true_r.
  assert (SF : forall k a n, filter (fun e => (e =? k)%nat) (seq a n) = if ((a <=? k) && (k <? a + n))%nat then [k] else []).
  { intros k a n. revert a. induction n as [|n IH]; intros a; cbn [seq filter].
    - destruct (Nat.leb_spec a k), (Nat.ltb_spec k (a + 0)); try reflexivity; lia.
    - rewrite IH. destruct (Nat.eqb_spec a k) as [->|n0].
      + destruct (Nat.leb_spec (S k) k), (Nat.leb_spec k k), (Nat.ltb_spec k (k + S n)); try lia; reflexivity.
      + destruct (Nat.leb_spec (S a) k), (Nat.leb_spec a k), (Nat.ltb_spec k (a + S n)), (Nat.ltb_spec k (S a + n)); try lia; reflexivity. }
  rewrite SF, app_length.
  replace ((1 <=? length l) && (length l <? 1 + Nat.min (Z.to_nat lm) (length l + length r)))%nat with ((1 <=? length l) && (length l <=? Z.to_nat lm))%nat
    by (destruct (Nat.leb_spec 1 (length l)), (Nat.leb_spec (length l) (Z.to_nat lm)), (Nat.ltb_spec (length l) (1 + Nat.min (Z.to_nat lm) (length l + length r))); try lia; reflexivity).
  destruct ((1 <=? length l) && (length l <=? Z.to_nat lm))%nat; [|reflexivity]. cbn [map].
  rewrite firstn_app, skipn_app, Nat.sub_diag, firstn_all, skipn_all. cbn [firstn skipn app]. rewrite app_nil_r. reflexivity.
Qed.
Lemma to_lrgraph_incs lm rm d : fold_left (lrgraph_word lm rm) d [] = incs (concat (map (fun ec => word_trips lm rm (fun _ => snd ec) (fst ec)) d)) [].
Proof.
  generalize (@nil (str * dict str Z)) as g. induction d as [|ec d IH]; intros g; [reflexivity|]. cbn [fold_left map concat].
  rewrite incs_app, IH. f_equal. unfold lrgraph_word, word_trips. apply (fold_word_incs rm (fun _ => snd ec) (fst ec)).
Qed.
Lemma to_lrgraph_pget lm rm d l r : is_dict d ->
  pget (fold_left (lrgraph_word lm rm) d []) l r = if in_window lm rm l r then dget d (l ++ r) else None.
Proof.
  intros D. rewrite to_lrgraph_incs, pget_incs, pget_nil, filter_concat, map_map.
  rewrite (concat_map_select d _ (l ++ r) D).
  2:{ intros p Ip n. rewrite word_trips_at. destruct (eqb_spec (l ++ r) (fst p)) as [e|]; [congruence|reflexivity]. }
  destruct (dget d (l ++ r)) as [v|]; [|destruct (in_window lm rm l r); reflexivity]. cbn [fst snd].
  rewrite word_trips_at, eqb_refl. unfold in_window. cbn [andb].
  destruct ((1 <=? length l)%nat && (length l <=? Z.to_nat lm)%nat && (Z.of_nat (length r) <=? rm)); [|reflexivity].
  cbn. f_equal. lia.
Qed.
Lemma to_lrgraph_wf lm rm d : is_graph (fold_left (lrgraph_word lm rm) d []) /\ full (fold_left (lrgraph_word lm rm) d []).
Proof. rewrite to_lrgraph_incs. split; [apply gwf_incs, gwf_nil|apply full_incs; constructor]. Qed.
Lemma to_lrgraph_ok c lm rm ig : (1 < lm)%Z -> (0 < rm)%Z -> exists g, to_lrgraph c lm rm ig = Ok g /\
  lr g = fold_left (lrgraph_word lm rm) (ec_counter c) [] /\ origin g = Some (lr g) /\ rl g = make_rl (lr g) /\ l_max g = lm /\ r_max g = rm.
Proof.
  intros A B. unfold to_lrgraph, lrg_new. replace (negb (lm >? 1)) with false by lia. replace (negb (rm >? 0)) with false by lia. cbn [bind].
  destruct (fold_left (lrgraph_word lm rm) (ec_counter c) []) as [|p d]; [eexists; split; [reflexivity|repeat split]|].
  cbn [check_lrgraph bind fst snd]. eexists; split; [reflexivity|repeat split].
Qed.

(** ** flattening a graph *)
Definition flat_list (d : dict str (dict str Z)) : list (str * Z) :=
  concat (map (fun p => map (fun rc => (fst p ++ fst rc, snd rc)) (snd p)) d).
Lemma flat_counter_dict_of d : flat_counter d = dict_of (flat_list d).
Proof.
  unfold flat_counter, dict_of, flat_list. generalize (@nil (str * Z)) as ct. induction d as [|[l rd] d IH]; intros ct; [reflexivity|].
  cbn [fold_left map concat fst snd]. rewrite fold_left_app, <- IH. f_equal. clear IH. revert ct.
  induction rd as [|[r c] rd IH]; intros ct; [reflexivity|]. cbn [fold_left map fst snd]. apply IH.
Qed.
Lemma dict_of_same (L : list (str * Z)) k v : (forall p, In p L -> fst p = k -> snd p = v) -> In k (map fst L) -> dget (dict_of L) k = Some v.
Proof.
  unfold dict_of. intros H I.
  assert (G : forall d, (dget d k = Some v \/ In k (map fst L)) -> dget (fold_left (fun d kv => dset d (fst kv) (snd kv)) L d) k = Some v).
  { clear I. induction L as [|[k0 v0] L IH]; intros d D; cbn [fold_left].
    - destruct D as [D|[]]; exact D.
    - apply IH; [intros p Ip; apply H; right; exact Ip|]. cbn [fst snd]. rewrite dget_dset.
      destruct (eqb_spec k0 k) as [->|n].
      + left. f_equal. apply (H (k, v0)); [left; reflexivity|reflexivity].
      + destruct D as [D|[D|D]]; [left; exact D|cbn in D; congruence|right; exact D]. }
  apply G. auto.
Qed.
Lemma dict_of_none (L : list (str * Z)) k : ~ In k (map fst L) -> dget (dict_of L) k = None.
Proof.
  unfold dict_of. intros NI.
  assert (G : forall d, dget d k = None -> dget (fold_left (fun d kv => dset d (fst kv) (snd kv)) L d) k = None).
  { induction L as [|[k0 v0] L IH]; intros d D; cbn [fold_left]; [exact D|]. apply IH; [intros I; apply NI; right; exact I|].
    cbn [fst snd]. rewrite dget_dset. destruct (eqb_spec k0 k) as [->|n]; [|exact D]. exfalso. apply NI. left. reflexivity. }
  apply G. reflexivity.
Qed.
Lemma flat_list_In d w c : is_graph d -> (In (w, c) (flat_list d) <-> exists l r, w = l ++ r /\ pget d l r = Some c).
Proof.
  intros G. unfold flat_list. rewrite in_concat. split.
  - intros (x & Ix & I). apply in_map_iff in Ix as ([l rd] & <- & Ip). apply in_map_iff in I as ([r c'] & E & Ir). cbn [fst snd] in *.
    injection E as <- <-. exists l, r. split; [reflexivity|]. apply pget_holds; [exact G|]. exists rd. auto.
  - intros (l & r & -> & P). apply pget_holds in P as (rd & I1 & I2); [|exact G]. eexists. split.
    + apply in_map_iff. exists (l, rd). split; [reflexivity|exact I1].
    + cbn [fst snd]. apply in_map_iff. exists (r, c). auto.
Qed.
Lemma window_exists lm rm w : (1 < lm)%Z -> (0 < rm)%Z -> ((exists l r, w = l ++ r /\ in_window lm rm l r = true) <-> w <> [] /\ Z.of_nat (length w) <= lm + rm).
Proof.
  intros A B. unfold in_window. split.
  - intros (l & r & -> & H). apply andb_true_iff in H as [H1 H3]. apply andb_true_iff in H1 as [H1 H2].
    apply Nat.leb_le in H1, H2. apply Z.leb_le in H3. rewrite app_length. split; [destruct l; [cbn in H1; lia|discriminate]|lia].
  - intros [NE L]. exists (firstn (Nat.min (length w) (Z.to_nat lm)) w), (skipn (Nat.min (length w) (Z.to_nat lm)) w). rewrite firstn_skipn. split; [reflexivity|].
    rewrite firstn_length, skipn_length. assert (length w <> 0)%nat by (destruct w; [congruence|discriminate]).
    rewrite !andb_true_iff, !Nat.leb_le, Z.leb_le. lia.
Qed.
Lemma roundtrip_counter lm rm d w : is_dict d -> (1 < lm)%Z -> (0 < rm)%Z ->
  dget (flat_counter (fold_left (lrgraph_word lm rm) d [])) w =
  if negb (length w =? 0)%nat && (Z.of_nat (length w) <=? lm + rm) then dget d w else None.
Proof.
  intros D A B. rewrite flat_counter_dict_of. destruct (to_lrgraph_wf lm rm d) as [G _].
  set (gr := fold_left (lrgraph_word lm rm) d []) in *.
  assert (C : forall p, In p (flat_list gr) -> fst p = w -> dget d w = Some (snd p)).
  { intros [w' c] I E. cbn in E. subst w'. apply (flat_list_In gr w c G) in I as (l & r & -> & P). subst gr.
    rewrite to_lrgraph_pget in P by exact D. destruct (in_window lm rm l r); [exact P|discriminate]. }
  destruct (negb (length w =? 0)%nat && (Z.of_nat (length w) <=? lm + rm)) eqn:E.
  - apply andb_true_iff in E as [E1 E2]. apply negb_true_iff, Nat.eqb_neq in E1. apply Z.leb_le in E2.
    destruct (proj2 (window_exists lm rm w A B)) as (l & r & Ew & W); [split; [intros ->; apply E1; reflexivity|exact E2]|].
    destruct (dget d w) as [v|] eqn:V.
    + apply dict_of_same; [intros p I F; specialize (C p I F); congruence|].
      change w with (fst (w, v)). apply in_map. apply flat_list_In; [exact G|]. exists l, r. split; [exact Ew|].
      unfold gr. rewrite to_lrgraph_pget by exact D. rewrite W, <- Ew. exact V.
    + apply dict_of_none. intros I. apply in_map_iff in I as (p & F & I). specialize (C p I F). congruence.
  - apply dict_of_none. intros I. apply in_map_iff in I as ([w' c] & F & I). cbn in F. subst w'.
    apply (flat_list_In gr w c G) in I as (l & r & -> & P). unfold gr in P. rewrite to_lrgraph_pget in P by exact D.
    destruct (in_window lm rm l r) eqn:W; [|discriminate].
    assert (X : (l ++ r) <> [] /\ Z.of_nat (length (l ++ r)) <= lm + rm) by (apply (window_exists lm rm _ A B); eauto).
    destruct X as [X1 X2]. apply andb_false_iff in E as [E|E]; [|lia]. apply negb_false_iff, Nat.eqb_eq in E.
    apply X1. destruct (l ++ r); [reflexivity|discriminate].
Qed.
