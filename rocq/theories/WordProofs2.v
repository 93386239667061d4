(** Proofs about WordExtractor.train: invariants over all histories *)
From Coq Require Import Reals QArith.
From Verif Require Import PyBase PyDict PySort PyText CountLemmas UtilsProofs WordModel WordSpec WordProofs.
Open Scope Z_scope.

Definition before (mr : Z) (w : str) (c : N) (p : str * str) : bool :=
  (eqb (fst p) w || (len_in w mr && (length w <? length (fst p))%nat && ends_with w (fst p))) && (hd 0 (snd p) =? c)%N.
Definition after (ml : Z) (w : str) (c : N) (p : str * str) : bool :=
  (eqb (snd p) w || (len_in w ml && (length w <? length (snd p))%nat && starts_with w (snd p))) && (last (fst p) 0 =? c)%N.

Lemma eqb_app2 (w e : str) a b c d : eqb (w ++ [a; b]) (e ++ [c; d]) = eqb w e && N.eqb a c && N.eqb b d.
Proof.
  destruct (eqb_spec (w ++ [a; b]) (e ++ [c; d])) as [E|E].
  - change [a; b] with ([a] ++ [b]) in E. change [c; d] with ([c] ++ [d]) in E. rewrite !app_assoc in E.
    apply app_inj_tail in E. destruct E as [E ->]. apply app_inj_tail in E. destruct E as [-> ->]. rewrite eqb_refl, !N.eqb_refl. reflexivity.
  - destruct (eqb_spec w e) as [->|]; [|reflexivity]. destruct (N.eqb_spec a c) as [->|]; [|reflexivity]. destruct (N.eqb_spec b d) as [->|]; [|reflexivity]. congruence.
Qed.
Lemma eqb_cons2 (w e : str) a b c d : eqb (a :: b :: w) (c :: d :: e) = N.eqb a c && N.eqb b d && eqb w e.
Proof.
  destruct (eqb_spec (a :: b :: w) (c :: d :: e)) as [E|E].
  - injection E as -> -> ->. rewrite eqb_refl, !N.eqb_refl. reflexivity.
  - destruct (N.eqb_spec a c) as [->|]; [|reflexivity]. destruct (N.eqb_spec b d) as [->|]; [|reflexivity]. destruct (eqb_spec w e) as [->|]; [congruence|reflexivity].
Qed.

Lemma occ_keys_aL mr w c t : occ (w ++ [SP; c]) (keys_aL mr t) = if before mr w c (snd (fst t), snd t) then 1 else 0.
Proof.
  destruct t as [[l e] r]. unfold keys_aL, before, range, first_char. cbn [fst snd].
  unfold occ. cbn [Zsum]. fold (occ (w ++ [SP; c]) (map (fun i => lastn i e ++ [SP; hd 0%N r]) (seq 1 (Z.to_nat (Z.min (mr + 1) (Z.of_nat (length e))) - 1)))).
  rewrite (occ_range (fun i => lastn i e ++ [SP; hd 0%N r]) _ 2).
  - rewrite !eqb_app2, app_length, N.eqb_refl. cbn [length]. replace (length w + 2 - 2)%nat with (length w) by lia. rewrite !andb_true_r.
    rewrite (N.eqb_sym c), (eqb_sym w e), (eqb_sym w (lastn _ _)), <- ends_with_lastn.
    destruct (hd 0 r =? c)%N; [|rewrite !andb_false_r; reflexivity]. rewrite !andb_true_r.
    destruct (eqb_spec e w) as [->|N]; cbn [orb].
    + destruct (Nat.leb_spec (1 + 2) (length w + 2)); [|reflexivity]. destruct (Nat.ltb_spec (length w + 2) (1 + (Z.to_nat (Z.min (mr + 1) (Z.of_nat (length w))) - 1) + 2)); [lia|reflexivity].
    + unfold len_in. destruct (ends_with w e) eqn:E; [|rewrite !andb_false_r; reflexivity]. rewrite !andb_true_r.
      destruct (Nat.leb_spec 1 (length w)), (Nat.leb_spec (1 + 2) (length w + 2)), (Nat.ltb_spec (length w + 2) (1 + (Z.to_nat (Z.min (mr + 1) (Z.of_nat (length e))) - 1) + 2)),
        (Z.leb_spec (Z.of_nat (length w)) mr), (Nat.ltb_spec (length w) (length e)); try reflexivity; lia.
  - intros i Hi. rewrite app_length, lastn_length by lia. reflexivity.
Qed.
Lemma occ_keys_aR ml w c t : occ (c :: SP :: w) (keys_aR ml t) = if after ml w c (fst (fst t), snd (fst t)) then 1 else 0.
Proof.
  destruct t as [[l e] r]. unfold keys_aR, after, range, last_char. cbn [fst snd].
  unfold occ. cbn [Zsum]. fold (occ (c :: SP :: w) (map (fun i => last l 0%N :: SP :: firstn i e) (seq 1 (Z.to_nat (Z.min (ml + 1) (Z.of_nat (length e))) - 1)))).
  rewrite (occ_range (fun i => last l 0%N :: SP :: firstn i e) _ 2).
  - rewrite !eqb_cons2, N.eqb_refl. cbn [length]. replace (S (S (length w)) - 2)%nat with (length w) by lia. rewrite !andb_true_r.
    rewrite (N.eqb_sym c), (eqb_sym w e), (eqb_sym w (firstn _ _)). change (eqb (firstn (length w) e) w) with (starts_with w e).
    destruct (last l 0 =? c)%N; [|rewrite !andb_false_r; reflexivity]. rewrite !andb_true_r. cbn [andb].
    destruct (eqb_spec e w) as [->|N]; cbn [orb].
    + destruct (Nat.leb_spec (1 + 2) (S (S (length w)))); [|reflexivity]. destruct (Nat.ltb_spec (S (S (length w))) (1 + (Z.to_nat (Z.min (ml + 1) (Z.of_nat (length w))) - 1) + 2)); [lia|reflexivity].
    + unfold len_in. destruct (starts_with w e) eqn:E; [|rewrite !andb_false_r; reflexivity]. rewrite !andb_true_r.
      destruct (Nat.leb_spec 1 (length w)), (Nat.leb_spec (1 + 2) (S (S (length w)))), (Nat.ltb_spec (S (S (length w))) (1 + (Z.to_nat (Z.min (ml + 1) (Z.of_nat (length e))) - 1) + 2)),
        (Z.leb_spec (Z.of_nat (length w)) ml), (Nat.ltb_spec (length w) (length e)); try reflexivity; lia.
  - intros i Hi. cbn [length]. rewrite firstn_length. lia.
Qed.

Lemma ring_next_triples ws : (1 < length ws)%nat -> ring_next ws = map (fun t => (snd (fst t), snd t)) (triples ws).
Proof.
  intros L. unfold ring_next. destruct (Nat.leb_spec (length ws) 1); [lia|]. rewrite triples_ring by (intros ->; cbn in L; lia).
  rewrite map_map. reflexivity.
Qed.
Lemma count_perm {A} (p : A -> bool) l1 l2 : Permutation l1 l2 -> count p l1 = count p l2.
Proof. intros P. rewrite !count_Zsum. apply Zsum_perm, P. Qed.
Lemma count_map {A B} (p : B -> bool) (f : A -> B) l : count p (map f l) = count (fun x => p (f x)) l.
Proof. rewrite !count_Zsum, Zsum_map. reflexivity. Qed.
Lemma sent_aL mr w c ws : (1 < length ws)%nat -> occ (w ++ [SP; c]) (concat (map (keys_aL mr) (triples ws))) = count (before mr w c) (ring_next ws).
Proof.
  intros L. rewrite occ_concat, ring_next_triples, count_map, count_Zsum by exact L. apply Zsum_ext. intros t _. apply occ_keys_aL.
Qed.
Lemma sent_aR ml w c ws : (1 < length ws)%nat -> occ (c :: SP :: w) (concat (map (keys_aR ml) (triples ws))) = count (after ml w c) (ring_next ws).
Proof.
  intros L. assert (N : ws <> []) by (intros ->; cbn in L; lia).
  rewrite occ_concat, ring_next_triples, <- (count_perm _ _ _ (ring_shift ws N)), count_map, count_Zsum by exact L. apply Zsum_ext. intros t _. apply occ_keys_aR.
Qed.

(** ** one sentence, without pruning *)
Definition dL (ml : Z) (w : str) (s : str) : Z := if len_in w (ml + 1) then count (fun e => (2 <=? length e)%nat && starts_with w e) (split s) else 0.
Definition dR (mr : Z) (w : str) (s : str) : Z := if len_in w mr then count (fun e => (2 <=? length e)%nat && (length w <? length e)%nat && ends_with w e) (split s) else 0.
Lemma sent_L ml w ws : occ w (concat (map (keys_L ml) ws)) = if len_in w (ml + 1) then count (fun e => (2 <=? length e)%nat && starts_with w e) ws else 0.
Proof.
  rewrite occ_concat. destruct (len_in w (ml + 1)) eqn:E.
  - rewrite count_Zsum. apply Zsum_ext. intros e _. rewrite occ_keys_L, E, andb_true_r. reflexivity.
  - apply Zsum_zero. intros e _. rewrite occ_keys_L, E, andb_false_r. reflexivity.
Qed.
Lemma sent_R mr w ws : occ w (concat (map (keys_R mr) ws)) = if len_in w mr then count (fun e => (2 <=? length e)%nat && (length w <? length e)%nat && ends_with w e) ws else 0.
Proof.
  rewrite occ_concat. destruct (len_in w mr) eqn:E.
  - rewrite count_Zsum. apply Zsum_ext. intros e _. rewrite occ_keys_R, E, andb_true_r. reflexivity.
  - apply Zsum_zero. intros e _. rewrite occ_keys_R, E, andb_false_r. reflexivity.
Qed.

Definition params (x : wx) := (max_left x, max_right x, min_freq x).
Lemma train_sent_params nfp x i s : params (train_sent nfp x i s) = params x.
Proof. unfold train_sent. destruct (length (split s) <=? 1)%nat; [reflexivity|]. destruct (_ && _); reflexivity. Qed.
Lemma train_loop_params nfp ss : forall x i, params (train_loop nfp x i ss) = params x.
Proof. induction ss as [|s ss IH]; intros x i; cbn [train_loop]; [reflexivity|]. rewrite IH. apply train_sent_params. Qed.
Lemma train_params x ss nfp cm y : train x ss nfp cm = Ok y -> params y = params x.
Proof.
  unfold train. destruct ss as [|s ss]; [discriminate|].
  set (x0 := if cm then x else mkWx [] [] [] [] (max_left x) (max_right x) (min_freq x)). intros E. injection E as <-.
  pose proof (train_loop_params nfp (s :: ss) x0 0) as P. transitivity (params (train_loop nfp x0 0 (s :: ss))); [reflexivity|]. rewrite P. unfold x0. destruct cm; reflexivity.
Qed.
Lemma thistory_params cs : forall x, params (thistory x cs) = params x.
Proof.
  unfold thistory. induction cs as [|c cs IH]; intros x; cbn [fold_left]; [reflexivity|]. rewrite IH. unfold tstep.
  destruct (train x _ _ _) eqn:E; [|reflexivity]. exact (train_params _ _ _ _ _ E).
Qed.

(** ** invariant *)
Definition nosp (w : str) : Prop := Forall (fun c => nonspace c = true) w.
Record Inv (x : wx) : Prop := {
  I_L : ctr (wL x); I_R : ctr (wR x); I_aL : ctr (waL x); I_aR : ctr (waR x);
  I_monoL : forall p w, p <> [] -> starts_with p w = true -> dgetd (wL x) w 0 <= dgetd (wL x) p 0;
  I_monoR : forall p w, p <> [] -> ends_with p w = true -> dgetd (wR x) w 0 <= dgetd (wR x) p 0;
  I_keyL : forall w, In w (dkeys (wL x)) -> nosp w /\ len_in w (max_left x + 1) = true;
  I_keyR : forall w, In w (dkeys (wR x)) -> nosp w /\ len_in w (max_right x) = true;
  I_keyaL : forall k, In k (dkeys (waL x)) -> exists w c, k = w ++ [SP; c] /\ w <> [] /\ nosp w /\ nonspace c = true;
  I_keyaR : forall k, In k (dkeys (waR x)) -> exists w c, k = c :: SP :: w /\ w <> [] /\ nosp w /\ nonspace c = true }.

Lemma bump_keys {K} `{EqB K} ks : forall (d : dict K Z) k, In k (dkeys (bump_all ks d)) -> In k (dkeys d) \/ In k ks.
Proof.
  unfold bump_all. induction ks as [|k' ks IH]; intros d k I; cbn [fold_left] in I; [auto|].
  apply IH in I. destruct I as [I|I]; [|right; right; exact I]. unfold dincr in I. rewrite dset_keys in I.
  destruct (dmem d k'); [auto|]. rewrite in_app_iff in I. destruct I as [I|[->|[]]]; [auto|right; left; reflexivity].
Qed.
Lemma split_ok s e : In e (split s) -> e <> [] /\ nosp e.
Proof. intros I. pose proof (runs_Forall nonspace s) as F. rewrite Forall_forall in F. exact (F e I). Qed.
Lemma nosp_app a b : nosp (a ++ b) <-> nosp a /\ nosp b.
Proof. apply Forall_app. Qed.
Lemma nosp_firstn i w : nosp w -> nosp (firstn i w).
Proof. intros F. rewrite <- (firstn_skipn i w) in F. apply nosp_app in F. tauto. Qed.
Lemma nosp_lastn i w : nosp w -> nosp (lastn i w).
Proof. intros F. unfold lastn. rewrite <- (firstn_skipn (length w - i) w) in F. apply nosp_app in F. tauto. Qed.
Lemma nosp_hd w : w <> [] -> nosp w -> nonspace (hd 0%N w) = true.
Proof. intros N F. destruct w; [congruence|]. inversion F; subst. assumption. Qed.
Lemma nosp_last w : w <> [] -> nosp w -> nonspace (last w 0%N) = true.
Proof. intros N F. destruct w as [|a w] using rev_ind; [congruence|]. rewrite last_last. apply nosp_app in F. destruct F as [_ F]. inversion F; subst; assumption. Qed.
Lemma starts_with_trans p w e : starts_with p w = true -> starts_with w e = true -> starts_with p e = true.
Proof. rewrite !starts_with_spec. intros [t ->] [t' ->]. exists (t ++ t'). rewrite app_assoc. reflexivity. Qed.
Lemma ends_with_trans p w e : ends_with p w = true -> ends_with w e = true -> ends_with p e = true.
Proof. rewrite !ends_with_spec. intros [t ->] [t' ->]. exists (t' ++ t). rewrite app_assoc. reflexivity. Qed.
Lemma len_in_le p w m : p <> [] -> (length p <= length w)%nat -> len_in w m = true -> len_in p m = true.
Proof. unfold len_in. rewrite !andb_true_iff, !Nat.leb_le, !Z.leb_le. destruct p; [congruence|]. cbn [length]. lia. Qed.
Lemma count_le {A} (p q : A -> bool) l : (forall x, p x = true -> q x = true) -> count p l <= count q l.
Proof. intros I. rewrite !count_Zsum. apply Zsum_le. intros x _. specialize (I x). destruct (p x), (q x); intuition (try discriminate; lia). Qed.

Lemma monoL_bump ml ws d : (forall p w, p <> [] -> starts_with p w = true -> dgetd d w 0 <= dgetd d p 0) ->
  forall p w, p <> [] -> starts_with p w = true -> dgetd (bump_all (concat (map (keys_L ml) ws)) d) w 0 <= dgetd (bump_all (concat (map (keys_L ml) ws)) d) p 0.
Proof.
  intros M p w N S. rewrite !bump_get, !sent_L. specialize (M p w N S). pose proof (starts_with_length _ _ S) as L.
  destruct (len_in w (ml + 1)) eqn:E.
  - rewrite (len_in_le p w (ml + 1) N L E). apply Z.add_le_mono; [exact M|]. apply count_le. intros e X. rewrite andb_true_iff in *. split; [apply X|].
    eapply starts_with_trans; [exact S|apply X].
  - destruct (len_in p (ml + 1)); [|lia]. pose proof (count_nonneg (fun e => (2 <=? length e)%nat && starts_with p e) ws). lia.
Qed.
Lemma monoR_bump mr ws d : (forall p w, p <> [] -> ends_with p w = true -> dgetd d w 0 <= dgetd d p 0) ->
  forall p w, p <> [] -> ends_with p w = true -> dgetd (bump_all (concat (map (keys_R mr) ws)) d) w 0 <= dgetd (bump_all (concat (map (keys_R mr) ws)) d) p 0.
Proof.
  intros M p w N S. rewrite !bump_get, !sent_R. specialize (M p w N S). pose proof (ends_with_length _ _ S) as L.
  destruct (len_in w mr) eqn:E.
  - rewrite (len_in_le p w mr N L E). apply Z.add_le_mono; [exact M|]. apply count_le. intros e X. rewrite !andb_true_iff, !Nat.ltb_lt in *. split; [|eapply ends_with_trans; [exact S|apply X]].
    split; [apply X|]. lia.
  - destruct (len_in p mr); [|lia]. pose proof (count_nonneg (fun e => (2 <=? length e)%nat && (length p <? length e)%nat && ends_with p e) ws). lia.
Qed.
Lemma at_least_mono mf a b : 0 <= a -> a <= b -> at_least mf a <= at_least mf b.
Proof. unfold at_least. intros. destruct (Z.leb_spec mf a), (Z.leb_spec mf b); lia. Qed.
Lemma keys_dfilter {K V} `{EqB K} f (d : dict K V) k : In k (dkeys (dfilter f d)) -> In k (dkeys d).
Proof. intros I. apply in_map_iff in I. destruct I as ([k' v] & <- & I). apply filter_In in I. apply in_map, I. Qed.

Lemma occ_In {A} `{EqB A} (k : A) l : In k l -> occ k l <> 0. Proof. intros I. apply occ_pos_iff in I. lia. Qed.
Lemma keysL_ok ml ws w : (forall e, In e ws -> e <> [] /\ nosp e) -> In w (concat (map (keys_L ml) ws)) -> nosp w /\ len_in w (ml + 1) = true.
Proof.
  intros OK I. apply in_concat in I. destruct I as (l & I & J). apply in_map_iff in I. destruct I as (e & <- & I). pose proof (occ_In _ _ J) as O.
  rewrite occ_keys_L in O. destruct (2 <=? length e)%nat; [|cbn in O; lia]. destruct (starts_with w e) eqn:S; [|cbn in O; lia].
  destruct (len_in w (ml + 1)); [|cbn in O; lia]. split; [|reflexivity]. apply starts_with_spec in S. destruct S as [t ->]. destruct (OK _ I) as [_ N]. apply nosp_app in N. apply N.
Qed.
Lemma keysR_ok mr ws w : (forall e, In e ws -> e <> [] /\ nosp e) -> In w (concat (map (keys_R mr) ws)) -> nosp w /\ len_in w mr = true.
Proof.
  intros OK I. apply in_concat in I. destruct I as (l & I & J). apply in_map_iff in I. destruct I as (e & <- & I). pose proof (occ_In _ _ J) as O.
  rewrite occ_keys_R in O. destruct (2 <=? length e)%nat; [|cbn in O; lia]. destruct (length w <? length e)%nat; [|cbn in O; lia]. destruct (ends_with w e) eqn:S; [|cbn in O; lia].
  destruct (len_in w mr); [|cbn in O; lia]. split; [|reflexivity]. apply ends_with_spec in S. destruct S as [t ->]. destruct (OK _ I) as [_ N]. apply nosp_app in N. apply N.
Qed.
Lemma triples_In ws l e r : In (l, e, r) (triples ws) -> In l ws /\ In e ws /\ In r ws.
Proof.
  assert (D : ws = [] \/ ws <> []) by (destruct ws; [left; reflexivity|right; discriminate]). destruct D as [->|D]; [intros []|].
  rewrite triples_ring by exact D. intros I. apply in_map_iff in I. destruct I as (i & E & I). apply in_seq in I.
  assert (0 < length ws)%nat by lia. injection E as E1 E2 E3. subst l e r.
  pose proof (Nat.mod_upper_bound (i + length ws - 1) (length ws) ltac:(lia)). pose proof (Nat.mod_upper_bound (i + 1) (length ws) ltac:(lia)).
  split; [|split]; apply nth_In; lia.
Qed.
Lemma keysaL_ok mr ws k : (forall e, In e ws -> e <> [] /\ nosp e) -> In k (concat (map (keys_aL mr) (triples ws))) -> exists w c, k = w ++ [SP; c] /\ w <> [] /\ nosp w /\ nonspace c = true.
Proof.
  intros OK I. apply in_concat in I. destruct I as (l & I & J). apply in_map_iff in I. destruct I as ([[a e] r] & <- & I). apply triples_In in I. destruct I as (Ia & Ie & Ir).
  unfold keys_aL in J. destruct (OK _ Ie) as [Ne Fe]. destruct (OK _ Ir) as [Nr Fr]. destruct J as [<-|J].
  - exists e, (first_char r). repeat split; auto. apply nosp_hd; auto.
  - apply in_map_iff in J. destruct J as (i & <- & J). unfold range in J. apply in_seq in J. exists (lastn i e), (first_char r). repeat split; [|apply nosp_lastn; exact Fe|apply nosp_hd; auto].
    intros E. apply (f_equal (@length N)) in E. rewrite lastn_length in E by lia. cbn in E. lia.
Qed.
Lemma keysaR_ok ml ws k : (forall e, In e ws -> e <> [] /\ nosp e) -> In k (concat (map (keys_aR ml) (triples ws))) -> exists w c, k = c :: SP :: w /\ w <> [] /\ nosp w /\ nonspace c = true.
Proof.
  intros OK I. apply in_concat in I. destruct I as (l & I & J). apply in_map_iff in I. destruct I as ([[a e] r] & <- & I). apply triples_In in I. destruct I as (Ia & Ie & Ir).
  unfold keys_aR in J. destruct (OK _ Ie) as [Ne Fe]. destruct (OK _ Ia) as [Na Fa]. destruct J as [<-|J].
  - exists e, (last_char a). repeat split; auto. apply nosp_last; auto.
  - apply in_map_iff in J. destruct J as (i & <- & J). unfold range in J. apply in_seq in J. exists (firstn i e), (last_char a). repeat split; [|apply nosp_firstn; exact Fe|apply nosp_last; auto].
    intros E. apply (f_equal (@length N)) in E. rewrite firstn_length in E by lia. cbn in E. lia.
Qed.

Lemma Inv_empty ml mr mf : Inv (mkWx [] [] [] [] ml mr mf).
Proof. constructor; cbn [wL wR waL waR]; try apply ctr_nil; try (intros; cbn; lia); intros ? []. Qed.
Lemma Inv_bump x s : Inv x -> let ws := split s in
  let L1 := bump_all (concat (map (keys_L (max_left x)) ws)) (wL x) in
  let R1 := bump_all (concat (map (keys_R (max_right x)) ws)) (wR x) in
  Inv (mkWx L1 R1 (waL x) (waR x) (max_left x) (max_right x) (min_freq x)).
Proof.
  intros [A B C D E F G H J K] ws L1 R1. pose proof (split_ok s) as OK. constructor; cbn [wL wR waL waR max_left max_right]; auto.
  - apply ctr_bump, A. - apply ctr_bump, B. - apply monoL_bump, E. - apply monoR_bump, F.
  - intros w I. apply bump_keys in I. destruct I as [I|I]; [apply G, I|]. eapply keysL_ok; [exact OK|exact I].
  - intros w I. apply bump_keys in I. destruct I as [I|I]; [apply H, I|]. eapply keysR_ok; [exact OK|exact I].
Qed.
Lemma Inv_bump_a x s : Inv x -> let ws := split s in
  Inv (mkWx (wL x) (wR x) (bump_all (concat (map (keys_aL (max_right x)) (triples ws))) (waL x)) (bump_all (concat (map (keys_aR (max_left x)) (triples ws))) (waR x)) (max_left x) (max_right x) (min_freq x)).
Proof.
  intros [A B C D E F G H J K] ws. pose proof (split_ok s) as OK. constructor; cbn [wL wR waL waR max_left max_right]; auto.
  - apply ctr_bump, C. - apply ctr_bump, D.
  - intros w I. apply bump_keys in I. destruct I as [I|I]; [apply J, I|]. eapply keysaL_ok; [exact OK|exact I].
  - intros w I. apply bump_keys in I. destruct I as [I|I]; [apply K, I|]. eapply keysaR_ok; [exact OK|exact I].
Qed.
Lemma Inv_prune x : Inv x -> Inv (mkWx (prune (min_freq x) (wL x)) (prune (min_freq x) (wR x)) (waL x) (waR x) (max_left x) (max_right x) (min_freq x)).
Proof.
  intros [A B C D E F G H J K]. constructor; cbn [wL wR waL waR max_left max_right]; auto; try (apply ctr_filter; assumption).
  - intros p w N S. rewrite !prune_getd by exact A. apply at_least_mono; [apply ctr_nonneg, A|]. apply E; assumption.
  - intros p w N S. rewrite !prune_getd by exact B. apply at_least_mono; [apply ctr_nonneg, B|]. apply F; assumption.
  - intros w I. apply keys_dfilter in I. apply G, I.
  - intros w I. apply keys_dfilter in I. apply H, I.
Qed.
Lemma Inv_prune_a x : Inv x -> Inv (mkWx (wL x) (wR x) (prune_a (waL x)) (prune_a (waR x)) (max_left x) (max_right x) (min_freq x)).
Proof.
  intros [A B C D E F G H J K]. constructor; cbn [wL wR waL waR max_left max_right]; auto; try (apply ctr_filter; assumption).
  - intros w I. apply keys_dfilter in I. apply J, I.
  - intros w I. apply keys_dfilter in I. apply K, I.
Qed.
Lemma Inv_sent nfp x i s : Inv x -> Inv (train_sent nfp x i s).
Proof.
  intros I. unfold train_sent. pose proof (Inv_bump x s I) as I1. cbv zeta in I1. destruct (length (split s) <=? 1)%nat; [exact I1|].
  pose proof (Inv_bump_a _ s I1) as I2. cbv zeta in I2. cbn [wL wR waL waR max_left max_right min_freq] in I2.
  destruct (_ && _); [|exact I2]. exact (Inv_prune _ I2).
Qed.
Lemma Inv_loop nfp ss : forall x i, Inv x -> Inv (train_loop nfp x i ss).
Proof. induction ss as [|s ss IH]; intros x i I; cbn [train_loop]; [exact I|]. apply IH, Inv_sent, I. Qed.
Lemma Inv_train x ss nfp cm y : Inv x -> train x ss nfp cm = Ok y -> Inv y.
Proof.
  intros I. unfold train. destruct ss as [|s ss]; [discriminate|].
  set (x0 := if cm then x else mkWx [] [] [] [] (max_left x) (max_right x) (min_freq x)).
  assert (I0 : Inv x0) by (unfold x0; destruct cm; [exact I|apply Inv_empty]).
  intros E. injection E as <-. exact (Inv_prune_a _ (Inv_prune _ (Inv_loop nfp (s :: ss) x0 0 I0))).
Qed.
Lemma trained_Inv x : trained x -> Inv x.
Proof.
  intros (ml & mr & mf & cs & ->). assert (G : forall y, Inv y -> Inv (thistory y cs)); [|apply G, Inv_empty].
  unfold thistory. induction cs as [|c cs IH]; intros y I; cbn [fold_left]; [exact I|]. apply IH. unfold tstep. destruct (train y _ _ _) eqn:E; [eapply Inv_train; eauto|exact I].
Qed.
