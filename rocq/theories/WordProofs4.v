(** Proofs about branching entropy and accessor variety *)
From Coq Require Import Reals QArith Lra.
From Verif Require Import PyBase PyDict PySort PyText CountLemmas UtilsProofs WordModel WordSpec WordProofs WordProofs2 WordProofs3.
Open Scope Z_scope.

(** ** entropy *)
Lemma Zsum_fold_right (d : dict str Z) : Zsum snd d = fold_right Z.add 0 (map snd d).
Proof. induction d as [|kv d IH]; cbn; [reflexivity|]. rewrite IH. reflexivity. Qed.
Lemma entropy_shannon d : entropy d = shannon (map snd d).
Proof.
  unfold entropy, shannon. destruct d as [|kv d]; [cbn; lra|]. rewrite Zsum_fold_right. set (s := IZR (fold_right Z.add 0 (map snd (kv :: d)))).
  rewrite map_map. unfold Rsum. match goal with |- (_ * ?a = - ?b)%R => change b with a end. lra.
Qed.
Lemma Rsum_perm l1 l2 : Permutation l1 l2 -> fold_right Rplus 0%R l1 = fold_right Rplus 0%R l2.
Proof. induction 1; cbn; lra. Qed.
Lemma zfold_perm l1 l2 : Permutation l1 l2 -> fold_right Z.add 0 l1 = fold_right Z.add 0 l2.
Proof. induction 1; cbn; lia. Qed.
Lemma shannon_perm l1 l2 : Permutation l1 l2 -> shannon l1 = shannon l2.
Proof. intros P. unfold shannon. rewrite (zfold_perm l1 l2 P). f_equal. apply Rsum_perm, Permutation_map, P. Qed.
Lemma zfold_pos ns : Forall (fun n => 0 < n) ns -> 0 <= fold_right Z.add 0 ns.
Proof. induction 1; cbn; lia. Qed.
Lemma zfold_ge ns n : Forall (fun n => 0 < n) ns -> In n ns -> n <= fold_right Z.add 0 ns.
Proof. induction 1 as [|m ns P F IH]; intros I; [destruct I|]. cbn [fold_right]. pose proof (zfold_pos ns F). destruct I as [->|I]; [lia|]. specialize (IH I). lia. Qed.
Lemma ln_nonpos p : (0 < p <= 1 -> ln p <= 0)%R.
Proof. intros H. rewrite <- ln_1. destruct (Req_dec p 1) as [->|N]; [lra|]. left. apply ln_increasing; lra. Qed.
Lemma ln_neg p : (0 < p < 1 -> ln p < 0)%R.
Proof. intros H. rewrite <- ln_1. apply ln_increasing; lra. Qed.
Lemma prob_range n s : 0 < n -> n <= s -> (0 < IZR n / IZR s <= 1)%R.
Proof.
  intros P L. assert (0 < IZR n)%R by (apply IZR_lt; exact P). assert (IZR n <= IZR s)%R by (apply IZR_le; exact L).
  split; [apply Rdiv_lt_0_compat; lra|]. apply (Rmult_le_reg_r (IZR s)); [lra|]. unfold Rdiv. rewrite Rmult_assoc, Rinv_l by lra. lra.
Qed.
Lemma prob_lt n s : 0 < n -> n < s -> (0 < IZR n / IZR s < 1)%R.
Proof.
  intros P L. assert (0 < IZR n)%R by (apply IZR_lt; exact P). assert (IZR n < IZR s)%R by (apply IZR_lt; exact L).
  split; [apply Rdiv_lt_0_compat; lra|]. apply (Rmult_lt_reg_r (IZR s)); [lra|]. unfold Rdiv. rewrite Rmult_assoc, Rinv_l by lra. lra.
Qed.
Lemma Rsum_nonpos {A} (f : A -> R) l : (forall x, In x l -> f x <= 0)%R -> (fold_right Rplus 0 (map f l) <= 0)%R.
Proof. induction l as [|x l IH]; intros H; cbn; [lra|]. pose proof (H x (or_introl eq_refl)). assert (fold_right Rplus 0 (map f l) <= 0)%R by (apply IH; intros; apply H; right; assumption). lra. Qed.
Lemma shannon_nonneg ns : Forall (fun n => 0 < n) ns -> (0 <= shannon ns)%R.
Proof.
  intros F. unfold shannon. cbv zeta. set (s := fold_right Z.add 0 ns).
  assert (fold_right Rplus 0 (map (fun n => IZR n / IZR s * ln (IZR n / IZR s)) ns) <= 0)%R; [|lra].
  apply Rsum_nonpos. intros n I. pose proof (zfold_ge ns n F I) as L. fold s in L. rewrite Forall_forall in F. pose proof (prob_range n s (F n I) L) as P.
  pose proof (ln_nonpos _ P). assert (0 <= IZR n / IZR s * - ln (IZR n / IZR s))%R by (apply Rmult_le_pos; lra). lra.
Qed.
Lemma shannon_zero ns : Forall (fun n => 0 < n) ns -> (shannon ns = 0%R <-> (length ns <= 1)%nat).
Proof.
  intros F. destruct ns as [|n [|m ns]].
  - split; [cbn; lia|]. intros _. unfold shannon. cbn. lra.
  - split; [cbn; lia|]. intros _. unfold shannon. cbn. rewrite Z.add_0_r. inversion F; subst. assert (0 < IZR n)%R by (apply IZR_lt; assumption).
    replace (IZR n / IZR n)%R with 1%R by (field; lra). rewrite ln_1. lra.
  - split; [|cbn; lia]. intros E. exfalso. unfold shannon in E. cbv zeta in E. set (s := fold_right Z.add 0 (n :: m :: ns)) in E.
    pose proof (Forall_inv F) as Pn. pose proof (Forall_inv_tail F) as F'. pose proof (Forall_inv F') as Pm. cbv beta in Pn, Pm.
    assert (Ls : n < s) by (unfold s; cbn [fold_right]; pose proof (zfold_pos ns (Forall_inv_tail F')); lia).
    pose proof (prob_lt n s Pn Ls) as P. pose proof (ln_neg _ P). cbn [map fold_right] in E.
    assert (IZR n / IZR s * ln (IZR n / IZR s) < 0)%R by (assert (0 < IZR n / IZR s * - ln (IZR n / IZR s))%R by (apply Rmult_lt_0_compat; lra); lra).
    assert (fold_right Rplus 0 (map (fun n => IZR n / IZR s * ln (IZR n / IZR s)) (m :: ns)) <= 0)%R.
    { apply Rsum_nonpos. intros k I. pose proof (zfold_ge (m :: ns) k F' I) as L. rewrite Forall_forall in F'. pose proof (F' k I) as Pk.
      assert (k <= s) by (unfold s; cbn [fold_right] in *; lia). pose proof (prob_range k s Pk H1) as P'. pose proof (ln_nonpos _ P').
      assert (0 <= IZR k / IZR s * - ln (IZR k / IZR s))%R by (apply Rmult_le_pos; lra). lra. }
    cbn [map fold_right] in H1. lra.
Qed.
(** ln x <= x - 1 *)
Lemma ln_le_sub x : (0 < x -> ln x <= x - 1)%R.
Proof. intros H. pose proof (exp_ineq1_le (ln x)) as E. rewrite exp_ln in E by exact H. lra. Qed.
Lemma Rsum_le {A} (f g : A -> R) l : (forall x, In x l -> f x <= g x)%R -> (fold_right Rplus 0 (map f l) <= fold_right Rplus 0 (map g l))%R.
Proof. induction l as [|x l IH]; intros H; cbn; [lra|]. pose proof (H x (or_introl eq_refl)). assert (fold_right Rplus 0 (map f l) <= fold_right Rplus 0 (map g l))%R by (apply IH; intros; apply H; right; assumption). lra. Qed.
Lemma Rsum_affine {A} (f : A -> R) a b l : fold_right Rplus 0%R (map (fun x => a * f x + b)%R l) = (a * fold_right Rplus 0 (map f l) + INR (length l) * b)%R.
Proof. induction l as [|x l IH]; [cbn; lra|]. cbn [map fold_right length]. rewrite IH, S_INR. lra. Qed.
Lemma Rsum_IZR ns : fold_right Rplus 0%R (map IZR ns) = IZR (fold_right Z.add 0 ns).
Proof. induction ns as [|n ns IH]; cbn [map fold_right]; [reflexivity|]. rewrite IH, plus_IZR. reflexivity. Qed.
Lemma shannon_max ns : Forall (fun n => 0 < n) ns -> ns <> [] -> (shannon ns <= ln (INR (length ns)))%R.
Proof.
  intros F N. unfold shannon. cbv zeta. set (s := fold_right Z.add 0 ns). set (k := INR (length ns)).
  assert (K : (0 < k)%R) by (unfold k; destruct ns; [congruence|]; cbn [length]; rewrite S_INR; pose proof (pos_INR (length ns)); lra).
  assert (S : (0 < IZR s)%R). { apply IZR_lt. destruct ns as [|n ns]; [congruence|]. pose proof (zfold_ge (n :: ns) n F (or_introl eq_refl)). inversion F; subst. fold s in H. lia. }
  assert (fold_right Rplus 0 (map (fun n => 1 / IZR s * (- ln k - 1) * IZR n + 1 / k) ns) >= fold_right Rplus 0 (map (fun n => - (IZR n / IZR s * ln (IZR n / IZR s)) - IZR n / IZR s * ln k - IZR n / IZR s * ln k) ns))%R.
  { apply Rle_ge, Rsum_le. intros n I. rewrite Forall_forall in F. pose proof (F n I) as P. assert (Pn : (0 < IZR n)%R) by (apply IZR_lt; exact P).
    set (p := (IZR n / IZR s)%R). assert (Pp : (0 < p)%R) by (apply Rdiv_lt_0_compat; assumption).
    replace (1 / IZR s * (- ln k - 1) * IZR n)%R with (p * (- ln k - 1))%R by (unfold p; field; lra).
    pose proof (ln_le_sub (/ (k * p))) as E. assert (Q : (0 < k * p)%R) by (apply Rmult_lt_0_compat; assumption).
    specialize (E (Rinv_0_lt_compat _ Q)). rewrite ln_Rinv, ln_mult in E by assumption.
    assert (p * (- (ln k + ln p)) <= p * (/ (k * p) - 1))%R by (apply Rmult_le_compat_l; lra).
    replace (p * (/ (k * p) - 1))%R with (1 / k - p)%R in H by (field; lra). lra. }
  rewrite Rsum_affine, Rsum_IZR in H. fold s k in H.
  assert (E : forall s0 k0 : R, (0 < s0)%R -> fold_right Rplus 0%R (map (fun n => - (IZR n / s0 * ln (IZR n / s0)) - IZR n / s0 * k0 - IZR n / s0 * k0)%R ns) =
    (- fold_right Rplus 0 (map (fun n => IZR n / s0 * ln (IZR n / s0)) ns) - 2 * (fold_right Rplus 0 (map IZR ns) / s0) * k0)%R).
  { clear. intros s0 k0 S. induction ns as [|n ns IH]; cbn [map fold_right]; [field; lra|]. rewrite IH. field. lra. }
  rewrite (E (IZR s) (ln k) S), Rsum_IZR in H. fold s in H. replace (IZR s / IZR s)%R with 1%R in H by (field; lra). 
  replace (1 / IZR s * (- ln k - 1) * IZR s + k * (1 / k))%R with (- ln k)%R in H by (field; lra). lra.
Qed.

(** ** extensions *)
Lemma ctr_counts {K} `{EqB K} (d : dict K Z) : ctr d -> Forall (fun n => 0 < n) (map snd d).
Proof. intros [_ F]. rewrite Forall_map. exact F. Qed.
Lemma ext_app (d1 d2 : dict str Z) : dwf d1 -> dwf d2 -> (forall k, In k (dkeys d1) -> ~ In k (dkeys d2)) -> fold_left (fun d kv => dset d (fst kv) (snd kv)) d2 d1 = d1 ++ d2.
Proof. intros A B D. apply fold_dset_app. apply NoDup_app_intro; auto. Qed.
Definition sel_l1 (word : str) (w : str) (_ : Z) := (length w =? length word + 1)%nat && eqb (skipn 1 w) word.
Definition sel_l2 (word : str) (w : str) (_ : Z) := (length w =? length word + 2)%nat && eqb (skipn 2 w) word.
Definition sel_r1 (word : str) (w : str) (_ : Z) := (length w =? length word + 1)%nat && eqb (firstn (length w - 1) w) word.
Definition sel_r2 (word : str) (w : str) (_ : Z) := (length w =? length word + 2)%nat && eqb (firstn (length w - 2) w) word.
Lemma keys_dfilter_sel {V} f (d : dict str V) k : In k (dkeys (dfilter f d)) -> exists v, f k v = true.
Proof. intros I. apply in_map_iff in I. destruct I as ([k' v] & <- & I). apply filter_In in I. exists v. apply I. Qed.
Lemma ext_left_app x w : Inv x -> ext_left x w = dfilter (sel_l1 w) (wR x) ++ dfilter (sel_l2 w) (waR x).
Proof.
  intros I. apply ext_app; try (apply dwf_dfilter; apply I). intros k A B. apply keys_dfilter_sel in A, B. destruct A as [? A], B as [? B].
  apply andb_prop in A, B. destruct A as [A _], B as [B _]. apply Nat.eqb_eq in A, B. lia.
Qed.
Lemma ext_right_app x w : Inv x -> ext_right x w = dfilter (sel_r1 w) (wL x) ++ dfilter (sel_r2 w) (waL x).
Proof.
  intros I. apply ext_app; try (apply dwf_dfilter; apply I). intros k A B. apply keys_dfilter_sel in A, B. destruct A as [? A], B as [? B].
  apply andb_prop in A, B. destruct A as [A _], B as [B _]. apply Nat.eqb_eq in A, B. lia.
Qed.
Lemma ctr_ext_left x w : Inv x -> ctr (ext_left x w).
Proof.
  intros I. split.
  - rewrite ext_left_app by exact I. unfold dwf, dkeys. rewrite map_app. apply NoDup_app_intro; try (apply dwf_dfilter; apply I).
    intros k A B. apply keys_dfilter_sel in A, B. destruct A as [? A], B as [? B]. apply andb_prop in A, B. destruct A as [A _], B as [B _]. apply Nat.eqb_eq in A, B. lia.
  - rewrite ext_left_app by exact I. apply Forall_app. split; [apply (ctr_filter _ _ (I_R x I))|apply (ctr_filter _ _ (I_aR x I))].
Qed.
Lemma ctr_ext_right x w : Inv x -> ctr (ext_right x w).
Proof.
  intros I. split.
  - rewrite ext_right_app by exact I. unfold dwf, dkeys. rewrite map_app. apply NoDup_app_intro; try (apply dwf_dfilter; apply I).
    intros k A B. apply keys_dfilter_sel in A, B. destruct A as [? A], B as [? B]. apply andb_prop in A, B. destruct A as [A _], B as [B _]. apply Nat.eqb_eq in A, B. lia.
  - rewrite ext_right_app by exact I. apply Forall_app. split; [apply (ctr_filter _ _ (I_L x I))|apply (ctr_filter _ _ (I_aL x I))].
Qed.

(** the keys selected correspond to characters *)
Lemma chars_of (d : dict str Z) (sel : str -> Z -> bool) (f : N -> str) (g : str -> N) : ctr d -> (forall c, g (f c) = c) ->
  (forall k v, In k (dkeys d) -> (sel k v = true <-> exists c, k = f c)) ->
  exists C, NoDup C /\ (forall c, In c C <-> 0 < dgetd d (f c) 0) /\ map snd (dfilter sel d) = map (fun c => dgetd d (f c) 0) C.
Proof.
  intros Cd G S. exists (map g (dkeys (dfilter sel d))). 
  assert (FG : forall k v, In (k, v) (dfilter sel d) -> f (g k) = k).
  { intros k v I. apply filter_In in I. destruct I as [I E]. cbn [fst snd] in E. apply S in E; [|apply (in_map fst) in I; exact I]. destruct E as [c ->]. rewrite G. reflexivity. }
  split; [|split].
  - assert (W : NoDup (dkeys (dfilter sel d))) by (apply dwf_dfilter, Cd). unfold dkeys in *. induction (dfilter sel d) as [|[k v] e IH]; cbn [map]; [constructor|].
    inversion W as [|? ? Hn W']; subst. constructor; [|apply IH; [intros; eapply FG; right; eassumption|exact W']].
    intros I. apply in_map_iff in I. destruct I as (k' & E & I). apply Hn. cbn [fst] in *. pose proof (FG k v (or_introl eq_refl)) as E1. pose proof I as I0. apply in_map_iff in I. destruct I as ([k2 v2] & <- & I).
    pose proof (FG k2 v2 (or_intror I)) as E2. cbn [fst] in *. rewrite <- E1, <- E, E2. exact I0.
  - intros c. rewrite ctr_mem by exact Cd. split.
    + intros I. apply in_map_iff in I. destruct I as (k & <- & I). apply in_map_iff in I. destruct I as ([k2 v] & <- & I). cbn [fst]. rewrite (FG k2 v I). apply filter_In in I. destruct I as [I _].
      apply dget_keys. apply (in_map fst) in I. exact I.
    + intros M. apply dget_keys in M. apply in_map_iff. exists (f c). split; [apply G|]. pose proof M as M'. apply in_map_iff in M. destruct M as ([k v] & E & I). cbn [fst] in E. subst k.
      apply (in_map fst (dfilter sel d) (f c, v)). apply filter_In. split; [exact I|]. cbn [fst snd]. apply S; [exact M'|]. exists c. reflexivity.
  - unfold dkeys. rewrite !map_map. apply map_ext_in. intros [k v] I. cbn [fst snd]. rewrite (FG k v I). unfold dgetd. apply filter_In in I. destruct I as [I _]. rewrite (In_dget d k v (proj1 Cd) I). reflexivity.
Qed.
Lemma sel_l1_spec w k v : sel_l1 w k v = true <-> exists c, k = c :: w.
Proof.
  unfold sel_l1. rewrite andb_true_iff, Nat.eqb_eq, eqb_eq. split.
  - intros [L E]. destruct k as [|c k]; [cbn in L; lia|]. cbn in E. exists c. congruence.
  - intros [c ->]. cbn. split; [lia|reflexivity].
Qed.
Lemma last_app2 {A} (w : list A) a b d : last (w ++ [a; b]) d = b.
Proof. change [a; b] with ([a] ++ [b]). rewrite app_assoc. apply last_last. Qed.
Lemma sel_r1_spec w k v : sel_r1 w k v = true <-> exists c, k = w ++ [c].
Proof.
  unfold sel_r1. rewrite andb_true_iff, Nat.eqb_eq, eqb_eq. split.
  - intros [L E]. destruct k as [|c k] using rev_ind; [cbn in L; lia|]. rewrite app_length in *. cbn [length] in *. rewrite firstn_app in E.
    replace (length k + 1 - 1)%nat with (length k) in E by lia. rewrite firstn_all, Nat.sub_diag, firstn_O, app_nil_r in E. exists c. congruence.
  - intros [c ->]. rewrite app_length. cbn. split; [lia|]. rewrite firstn_app. replace (length w + 1 - 1)%nat with (length w) by lia. rewrite firstn_all, Nat.sub_diag, firstn_O, app_nil_r. reflexivity.
Qed.
Lemma sel_l2_spec w k v : (exists w c, k = c :: SP :: w) -> (sel_l2 w k v = true <-> exists c, k = c :: SP :: w).
Proof.
  intros (w' & c' & ->). unfold sel_l2. rewrite andb_true_iff, Nat.eqb_eq, eqb_eq. cbn. split.
  - intros [L ->]. exists c'. reflexivity.
  - intros [c E]. injection E as -> ->. split; [lia|reflexivity].
Qed.
Lemma firstn_app2 (w : str) a b : firstn (length (w ++ [a; b]) - 2) (w ++ [a; b]) = w.
Proof. rewrite app_length. cbn [length]. replace (length w + 2 - 2)%nat with (length w) by lia. rewrite firstn_app, firstn_all, Nat.sub_diag, firstn_O, app_nil_r. reflexivity. Qed.
Lemma sel_r2_spec w k v : (exists w c, k = w ++ [SP; c]) -> (sel_r2 w k v = true <-> exists c, k = w ++ [SP; c]).
Proof.
  intros (w' & c' & ->). unfold sel_r2. rewrite andb_true_iff, Nat.eqb_eq, eqb_eq, firstn_app2. split.
  - intros [L ->]. exists c'. reflexivity.
  - intros [c E]. assert (w' = w). { rewrite <- (firstn_app2 w' SP c'), E. apply firstn_app2. } subst. rewrite app_length. cbn. split; [lia|reflexivity].
Qed.
Lemma left_chars x w : Inv x -> exists Cin Cout, NoDup Cin /\ NoDup Cout /\ (forall c, In c Cin <-> 0 < dgetd (wR x) (c :: w) 0) /\ (forall c, In c Cout <-> 0 < dgetd (waR x) (c :: SP :: w) 0) /\
  map snd (ext_left x w) = map (fun c => dgetd (wR x) (c :: w) 0) Cin ++ map (fun c => dgetd (waR x) (c :: SP :: w) 0) Cout.
Proof.
  intros I. destruct (chars_of (wR x) (sel_l1 w) (fun c => c :: w) (hd 0%N) (I_R x I)) as (C1 & N1 & M1 & E1); [reflexivity|intros; apply sel_l1_spec|].
  destruct (chars_of (waR x) (sel_l2 w) (fun c => c :: SP :: w) (hd 0%N) (I_aR x I)) as (C2 & N2 & M2 & E2); [reflexivity| |].
  { intros k v K. apply sel_l2_spec. destruct (I_keyaR x I k K) as (w' & c & -> & _). eauto. }
  exists C1, C2. rewrite ext_left_app, map_app, E1, E2 by exact I. auto.
Qed.
Lemma right_chars x w : Inv x -> exists Cin Cout, NoDup Cin /\ NoDup Cout /\ (forall c, In c Cin <-> 0 < dgetd (wL x) (w ++ [c]) 0) /\ (forall c, In c Cout <-> 0 < dgetd (waL x) (w ++ [SP; c]) 0) /\
  map snd (ext_right x w) = map (fun c => dgetd (wL x) (w ++ [c]) 0) Cin ++ map (fun c => dgetd (waL x) (w ++ [SP; c]) 0) Cout.
Proof.
  intros I. destruct (chars_of (wL x) (sel_r1 w) (fun c => w ++ [c]) (fun k => last k 0%N) (I_L x I)) as (C1 & N1 & M1 & E1); [intros; apply last_last|intros; apply sel_r1_spec|].
  destruct (chars_of (waL x) (sel_r2 w) (fun c => w ++ [SP; c]) (fun k => last k 0%N) (I_aL x I)) as (C2 & N2 & M2 & E2); [intros; apply last_app2| |].
  { intros k v K. apply sel_r2_spec. destruct (I_keyaL x I k K) as (w' & c & -> & _). eauto. }
  exists C1, C2. rewrite ext_right_app, map_app, E1, E2 by exact I. auto.
Qed.

(** ** cohesion *)
Lemma Rpower_01 a b : (0 < a <= 1 -> 0 <= b -> 0 <= Rpower a b <= 1)%R.
Proof.
  intros A B. unfold Rpower. split; [left; apply exp_pos|]. rewrite <- exp_0. pose proof (ln_nonpos a A) as L. assert (b * ln a <= 0)%R by (assert (0 <= b * - ln a)%R by (apply Rmult_le_pos; lra); lra).
  destruct (Req_dec (b * ln a) 0) as [->|N]; [lra|]. left. apply exp_increasing. lra.
Qed.
Lemma cohesion_side_ok (d : dict str Z) (w e : str) : ctr d -> dgetd d w 0 <= dgetd d e 0 -> (2 <= length w)%nat ->
  exists c, cohesion_side d (dgetd d w 0) e (length w) = Ok c /\ (0 <= c <= 1)%R /\ (dgetd d w 0 = 0 -> c = 0%R) /\
    (0 < dgetd d w 0 -> (0 < c)%R /\ c = Rpower (IZR (dgetd d w 0) / IZR (dgetd d e 0)) (1 / INR (length w - 1))).
Proof.
  intros C M L. unfold cohesion_side. pose proof (ctr_nonneg d w C) as NN. destruct (Z.eqb_spec (dgetd d w 0) 0) as [E|N].
  - exists 0%R. repeat split; try lra; intros; lia.
  - rewrite (ctr_get d e C). destruct (Z.ltb_spec 0 (dgetd d e 0)); [|lia]. destruct (Z.eqb_spec (dgetd d e 0) 0); [lia|].
    assert (B : (0 <= 1 / INR (length w - 1))%R) by (assert (0 < INR (length w - 1))%R by (apply lt_0_INR; lia); unfold Rdiv; rewrite Rmult_1_l; left; apply Rinv_0_lt_compat; assumption).
    assert (PW : 0 < dgetd d w 0) by lia. pose proof (prob_range (dgetd d w 0) (dgetd d e 0) PW M) as P.
    exists (Rpower (IZR (dgetd d w 0) / IZR (dgetd d e 0)) (1 / INR (length w - 1))). split; [reflexivity|]. split; [apply Rpower_01; assumption|]. split; [intros; contradiction|]. intros _. split; [apply exp_pos|reflexivity].
Qed.
Lemma firstn1_starts w : starts_with (firstn 1 w) w = true.
Proof. apply starts_with_spec. exists (skipn 1 w). symmetry. apply firstn_skipn. Qed.
Lemma lastn1_ends w : ends_with (lastn 1 w) w = true.
Proof. apply ends_with_spec. exists (firstn (length w - 1) w). unfold lastn. symmetry. apply firstn_skipn. Qed.
Lemma cohesion_ok x w : Inv x -> (2 <= length w)%nat -> exists l r, cohesion_score x w = Ok (l, r) /\ (0 <= l <= 1)%R /\ (0 <= r <= 1)%R /\
  (dgetd (wL x) w 0 = 0 -> l = 0%R) /\ (dgetd (wR x) w 0 = 0 -> r = 0%R) /\
  (0 < dgetd (wL x) w 0 -> (0 < l)%R /\ l = Rpower (IZR (dgetd (wL x) w 0) / IZR (dgetd (wL x) (firstn 1 w) 0)) (1 / INR (length w - 1))) /\
  (0 < dgetd (wR x) w 0 -> (0 < r)%R /\ r = Rpower (IZR (dgetd (wR x) w 0) / IZR (dgetd (wR x) (lastn 1 w) 0)) (1 / INR (length w - 1))).
Proof.
  intros I L. destruct (cohesion_side_ok (wL x) w (firstn 1 w) (I_L x I)) as (l & E1 & A1 & B1 & C1); [|exact L|].
  { apply (I_monoL x I); [destruct w; [cbn in L; lia|discriminate]|apply firstn1_starts]. }
  destruct (cohesion_side_ok (wR x) w (lastn 1 w) (I_R x I)) as (r & E2 & A2 & B2 & C2); [|exact L|].
  { apply (I_monoR x I); [|apply lastn1_ends]. intros E. apply (f_equal (@length N)) in E. rewrite lastn_length in E by lia. discriminate. }
  exists l, r. split; [|tauto]. unfold cohesion_score, frequency. destruct (Nat.leb_spec (length w) 1); [lia|]. rewrite E1. cbn [bind]. rewrite E2. reflexivity.
Qed.
