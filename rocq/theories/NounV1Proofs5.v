(** * Proofs about LRNounExtractor (version 1): extraction, splits, bounds, coefficients *)
From Coq Require Import QArith Reals Permutation Lia Lra Lqa Sorted.
From Verif Require Import PyBase PyDict PySort SortLemmas CountLemmas QLemmas PyText PyFile UtilsModel UtilsSpec UtilsProofs UtilsProofs2 UtilsProofs3 UtilsProofs6 NounModel NounSpec NounProofs NounProofs2 NounProofs3 VectorizerSpec VectorizerProofs3 NounV1Model NounV1Spec JosaProofs NounV1Proofs NounV1Proofs2 NounV1Proofs3 NounV1Proofs4.
Open Scope Z_scope.

Lemma v1_removal_ext coef count ms P P' w : (forall x, P x <-> P' x) -> v1_removal coef count ms P w <-> v1_removal coef count ms P' w.
Proof.
  intros H. unfold v1_removal. split; (intros [A|(A & B & l & r & D & E & F & G & I)]; [left; exact A|right; split; [exact A|]; split; [exact B|]; exists l, r; split; [exact D|]; split; [exact E|]; split; [exact F|]; split; [apply H, G|exact I]]).
Qed.
Lemma v1_frequency_ext lm rm mf pre sents P P' w n : (forall x, P x <-> P' x) -> v1_frequency lm rm mf pre sents P w n -> v1_frequency lm rm mf pre sents P' w n.
Proof.
  intros H (rows & A & B & C). exists rows. split; [exact A|]. split; [|exact C]. intros r k. rewrite B. split; intros (G & NE); (split; [exact G|]); intros (w' & r' & k' & I & J); apply NE; exists w', r', k'; (split; [apply H, I|exact J]).
Qed.
Lemma left_count_of c pre sents mf st : v1_train c pre sents mf = Ok st -> forall x, left_count (v_lm c) mf (space_words pre sents) x (dgetd (v_sub st) x 0).
Proof.
  intros H x. destruct (train_spec c pre sents mf st H) as (_ & _ & L & _). cbv zeta in L. unfold left_count, dgetd. destruct (dget (v_sub st) x) as [n|] eqn:E; [left; apply L, E|right]. split; [reflexivity|]. intros m F. apply L in F. congruence.
Qed.
Lemma keys_map_snd {V V'} (d : dict str V) (f : str * V -> V') : dkeys (map (fun p => (fst p, f p)) d) = dkeys d.
Proof. unfold dkeys. rewrite map_map. reflexivity. Qed.
Lemma dget_map_snd {V V'} (d : dict str V) (f : str * V -> V') w : NoDup (dkeys d) -> dget (map (fun p => (fst p, f p)) d) w = match dget d w with Some v => Some (f (w, v)) | None => None end.
Proof.
  induction d as [|[k v] d IH]; intros N; [reflexivity|]. cbn [map dget fst]. destruct (eqb_spec k w) as [->|NE]; [reflexivity|]. apply IH. inversion N; assumption.
Qed.
Lemma extract_spec c pre sents mf st ms mf' cands : v1_train c pre sents mf = Ok st ->
  let D := snd (v1_extract c st ms mf' cands) in let C := fun w => In w (match cands with [] => v_words st | _ => cands end) in
  fst (v1_extract c st ms mf' cands) = st /\ NoDup (dkeys D) /\
  exists count, (forall x, left_count (v_lm c) mf (space_words pre sents) x (count x)) /\
    let noun := v1_noun c mf pre sents ms C in let final := fun w => noun w /\ ~ v1_removal (v_coef c) count ms noun w in
    (forall w, dget D w <> None <-> final w) /\
    forall w n s k, dget D w = Some (n, s, k) -> v1_result c mf pre sents w (s, k) /\ v1_frequency (v_lm c) (v_rm c) mf pre sents final w n.
Proof.
  intros H D C. pose proof (train_spec c pre sents mf st H) as (VW & NV & LF & _). cbv zeta in LF.
  set (cs := match cands with [] => v_words st | _ => cands end) in *.
  set (f := fun w => v1_predict c (v_graph st) w 0%Q []).
  set (N0 := fold_left (fun (d : dict str (Q * Q)) word => if (length word <=? 1)%nat then d else if Qle_bool ms (fst (f word)) then dset d word (f word) else d) (sort (fun x y : str => (length x <=? length y)%nat) cs) []).
  set (N1 := v1_postprocess c (v_sub st) ms N0).
  assert (E : v1_extract c st ms mf' cands = (let (g, freq) := v1_frequencies (v_graph st) N1 in (mkV1S (reset_lrgraph g) (v_words st) (v_sub st), map (fun p => (fst p, (dgetd freq (fst p) 0, fst (snd p), snd (snd p)))) N1))) by reflexivity.
  destruct (score_loop f ms (sort (fun x y : str => (length x <=? length y)%nat) cs) [] (NoDup_nil _)) as [W0 G0]. fold N0 in W0, G0.
  assert (G0' : forall w v, dget N0 w = Some v <-> (C w /\ (2 <= length w)%nat /\ (ms <= fst (f w))%Q) /\ v = f w).
  { intros w v. rewrite (G0 w v) by (intros ? ? X; discriminate X). rewrite sort_In. split; [intros [[A|A] B]; [auto|destruct A; reflexivity]|intros [A B]; auto]. }
  assert (NOUN : forall w, dget N0 w <> None <-> v1_noun c mf pre sents ms C w).
  { intros w. pose proof (v1_predict_result c pre sents mf st w 0%Q H) as R. fold (f w) in R. split.
    - destruct (dget N0 w) as [v|] eqn:X; [intros _|congruence]. apply G0' in X as [(A & B & Q) _]. split; [exact A|]. split; [exact B|]. exists (f w). auto.
    - intros (A & B & v & R' & Q). destruct (v1_result_fun c mf pre sents w _ _ R R') as [X _]. rewrite (proj2 (G0' w (f w))); [discriminate|]. split; [|reflexivity]. split; [exact A|]. split; [exact B|]. rewrite X. exact Q. }
  assert (W1 : NoDup (dkeys N1)) by (unfold N1, v1_postprocess, dfilter, dkeys; apply (NoDup_filter_map (K:=str)); exact W0).
  assert (PS : forall x n, dget (v_sub st) x = Some n -> 0 < n) by (intros x n X; apply LF in X; apply X).
  set (final := fun w => v1_noun c mf pre sents ms C w /\ ~ v1_removal (v_coef c) (fun x => dgetd (v_sub st) x 0) ms (v1_noun c mf pre sents ms C) w).
  assert (FIN : forall w v, dget N1 w = Some v <-> final w /\ v = f w).
  { intros w v. unfold N1, v1_postprocess. rewrite dget_dfilter by exact W0. pose proof (v1_removed_spec c (v_sub st) ms N0 w PS) as RS. rewrite (v1_removal_ext _ _ _ _ _ w NOUN) in RS. unfold final. rewrite <- NOUN.
    destruct (dget N0 w) as [v0|] eqn:X; [|split; [discriminate|intros [[Y _] _]; congruence]]. pose proof X as X0. apply G0' in X0 as [_ ->].
    destruct (v1_removed c (v_sub st) ms N0 w); cbn [negb].
    - split; [discriminate|]. intros [[_ Y] _]. exfalso. apply Y, RS. reflexivity.
    - split; [intros Y; injection Y as <-; split; [split; [discriminate|intros Y; apply RS in Y; discriminate]|reflexivity]|]. intros [_ ->]. reflexivity. }
  assert (KF : forall w, In w (dkeys N1) <-> final w).
  { intros w. rewrite <- dget_keys. split; [destruct (dget N1 w) as [v|] eqn:X; [intros _; apply FIN in X; apply X|congruence]|]. intros F. rewrite (proj2 (FIN w (f w)) (conj F eq_refl)). discriminate. }
  destruct (freq_spec c pre sents mf st N1 H W1) as [RG FR]. unfold D. rewrite E. destruct (v1_frequencies (v_graph st) N1) as [g freq]. cbn [fst snd] in *.
  split; [rewrite RG; destruct st; reflexivity|]. split; [rewrite (keys_map_snd N1 (fun p => (dgetd freq (fst p) 0, fst (snd p), snd (snd p)))); exact W1|].
  exists (fun x => dgetd (v_sub st) x 0). split; [apply left_count_of; exact H|]. cbv zeta. fold final. split.
  - intros w. rewrite dget_keys, (keys_map_snd N1 (fun p => (dgetd freq (fst p) 0, fst (snd p), snd (snd p)))). apply KF.
  - intros w n s k. rewrite (dget_map_snd N1 (fun p => (dgetd freq (fst p) 0, fst (snd p), snd (snd p)))) by exact W1. destruct (dget N1 w) as [v|] eqn:X; [|discriminate]. cbn [fst snd]. intros Y. injection Y as <- <- <-.
    rewrite <- surjective_pairing. pose proof X as X0. apply FIN in X0 as [F ->]. split; [apply (v1_predict_result c pre sents mf st w 0%Q H)|].
    assert (IW : In w (dkeys N1)) by (apply KF, F). destruct (FR w IW) as (n & DN & FN). unfold dgetd. rewrite DN. eapply v1_frequency_ext; [|exact FN]. exact KF.
Qed.

(** ** bounds *)
Lemma weighted_bounds (ks : list (str * Z * Q)) lo hi : (forall x, In x ks -> 0 < snd (fst x) /\ (lo <= snd x <= hi)%Q) ->
  let n := Qsum (map (fun x => inject_Z (snd (fst x))) ks) in let s := Qsum (map (fun x => inject_Z (snd (fst x)) * snd x)%Q ks) in (0 <= n)%Q /\ (lo * n <= s <= hi * n)%Q.
Proof.
  induction ks as [|[[r n] q] ks IH]; intros H; cbv zeta; [cbn; split; [lra|split; lra]|].
  destruct (IH (fun x I => H x (or_intror I))) as (A & B & C). destruct (H _ (or_introl eq_refl)) as [P [Q1 Q2]]. cbn [fst snd] in P, Q1, Q2. cbn [map fst snd]. unfold Qsum in *. cbn [fold_right].
  assert (P' : (0 <= inject_Z n)%Q) by (change 0%Q with (inject_Z 0); rewrite <- Zle_Qle; lia).
  generalize dependent (fold_right Qplus 0%Q (map (fun x : list N * Z * Q => inject_Z (snd (fst x))) ks)). generalize (fold_right Qplus 0%Q (map (fun x : list N * Z * Q => (inject_Z (snd (fst x)) * snd x)%Q) ks)). generalize dependent (inject_Z n). intros m PM s t T1 T2 T3.
  split; [lra|]. split; nra.
Qed.
Lemma v1_score_bounds coef w fs v lo hi : v1_score coef w fs v -> (forall rc, In rc fs -> 0 < snd rc) -> (forall r q, dget coef r = Some q -> (lo <= q <= hi)%Q) -> (lo <= 0 <= hi)%Q ->
  (lo <= fst v <= hi)%Q /\ (0 <= snd v <= 1)%Q.
Proof.
  intros (ks & us & (K1 & K2) & (U1 & U2) & S1 & S2) P B Z0. cbv zeta in S1, S2.
  assert (HK : forall x, In x ks -> 0 < snd (fst x) /\ (lo <= snd x <= hi)%Q). { intros [rc q] I. apply K2 in I as [I [D _]]. split; [apply P, I|]. exact (B _ _ D). }
  destruct (weighted_bounds ks lo hi HK) as (N0 & L & U). cbv zeta in N0, L, U.
  assert (NU : (0 <= Qsum (map (fun rc : str * Z => inject_Z (snd rc)) us))%Q). { apply Qsum_nonneg. intros rc I. apply U2 in I as [I _]. apply P in I. change 0%Q with (inject_Z 0). rewrite <- Zle_Qle. lia. }
  revert S1 S2 N0 L U NU. generalize (Qsum (map (fun x : str * Z * Q => inject_Z (snd (fst x))) ks)) as n. generalize (Qsum (map (fun x : str * Z * Q => (inject_Z (snd (fst x)) * snd x)%Q) ks)) as s. generalize (Qsum (map (fun rc : str * Z => inject_Z (snd rc)) us)) as m. intros m s n S1 S2 N0 L U NU.
  assert (QP : forall x, (0 <= x)%Q -> Qeq_bool x 0 = false -> (0 < x)%Q). { intros x X E. apply Qeq_bool_neq in E. apply Qle_lteq in X as [X|X]; [exact X|]. exfalso. apply E. rewrite X. reflexivity. }
  split.
  - rewrite S1. destruct (Qeq_bool n 0) eqn:E; [exact Z0|]. apply (QP n N0) in E. split; [apply Qle_shift_div_l; assumption|apply Qle_shift_div_r; assumption].
  - rewrite S2. destruct (Qeq_bool (n + m) 0) eqn:E; [lra|]. apply QP in E; [|lra]. split; [apply Qle_shift_div_l; [exact E|lra]|apply Qle_shift_div_r; [exact E|lra]].
Qed.

(** ** splits *)
Lemma Qle_bool_false x y : Qle_bool x y = false <-> (y < x)%Q.
Proof. split; [intros H; apply Qnot_le_lt; intros X; apply Qle_bool_iff in X; congruence|]. intros H. destruct (Qle_bool x y) eqn:E; [|reflexivity]. apply Qle_bool_iff in E. exfalso. apply (Qlt_not_le _ _ H E). Qed.
Lemma tuple_max_spec a b : larger_tuple a b (tuple_max a b).
Proof.
  unfold larger_tuple, tuple_max, tuple_le. destruct (Qle_bool (fst b) (fst a)) eqn:A; cbn [negb orb].
  - apply Qle_bool_iff in A. destruct (Qeq_bool (fst a) (fst b)) eqn:E; cbn [andb].
    + apply Qeq_bool_iff in E. destruct (Qle_bool (snd b) (snd a)) eqn:S; cbn [negb].
      * apply Qle_bool_iff in S. left. split; [reflexivity|]. right. split; [symmetry; exact E|exact S].
      * apply Qle_bool_false in S. right. split; [reflexivity|]. intros [X|[_ X]]; lra.
    + left. split; [reflexivity|]. left. apply Qeq_bool_neq in E. apply Qle_lteq in A as [A|A]; [exact A|]. exfalso. apply E. rewrite A. reflexivity.
  - apply Qle_bool_false in A. right. split; [reflexivity|]. intros [X|[X _]]; lra.
Qed.
Lemma larger_tuple_fun a b v v' : larger_tuple a b v -> larger_tuple a b v' -> v = v'.
Proof. intros [[-> A]|[-> A]] [[-> B]|[-> B]]; try reflexivity; contradiction. Qed.
(** the score of the split after e characters *)
Definition split_b (coef : dict str Q) (nouns : dict str (Q * Q)) (ms : Q) (word : str) (e : nat) : option (Q * Q) :=
  match dget nouns (firstn e word), dget nouns (skipn e word) with
  | Some a, Some b => Some (tuple_max a b)
  | Some a, None => let q := dgetd coef (skipn e word) 0%Q in if Qle_bool q ms then None else Some (q, 0%Q)
  | None, _ => None
  end.
Lemma split_b_spec coef nouns ms word e v : (1 <= e < length word)%nat /\ split_b coef nouns ms word e = Some v <-> split_score coef nouns ms word e v.
Proof.
  unfold split_score, split_b. split.
  - intros [L H]. exists (firstn e word), (skipn e word). destruct (dget nouns (firstn e word)) as [a|] eqn:A; [|discriminate]. exists a. split; [symmetry; apply firstn_skipn|]. split; [apply firstn_nonempty; lia|]. split; [apply skipn_nonempty; lia|]. split; [rewrite firstn_length; lia|]. split; [reflexivity|].
    destruct (dget nouns (skipn e word)) as [b|]; [injection H as <-; left; exists b; split; [reflexivity|apply tuple_max_spec]|]. right. destruct (Qle_bool _ ms) eqn:Q; [discriminate|]. injection H as <-. apply Qle_bool_false in Q. auto.
  - intros (l & r & a & -> & NL & NR & <- & A & H). pose proof (nonempty_length l NL). pose proof (nonempty_length r NR). rewrite app_length, firstn_pre, skipn_pre, A. split; [lia|].
    destruct H as [(b & B & LT)|(B & -> & Q)]; rewrite B; [f_equal; eapply larger_tuple_fun; [apply tuple_max_spec|exact LT]|]. apply Qle_bool_false in Q. rewrite Q. reflexivity.
Qed.
Definition splits (coef : dict str Q) (nouns : dict str (Q * Q)) (ms : Q) (word : str) (es : list nat) : list (str * (Q * Q)) :=
  concat (map (fun e => match split_b coef nouns ms word e with Some v => [(firstn e word, v)] | None => [] end) es).
Lemma dset_new {V} (d : dict str V) k v : ~ In k (dkeys d) -> dset d k v = d ++ [(k, v)].
Proof.
  induction d as [|[k' v'] d IH]; intros N; [reflexivity|]. cbn [dset]. destruct (eqb_spec k' k) as [->|NE]; [exfalso; apply N; left; reflexivity|]. cbn [app]. rewrite IH; [reflexivity|]. intros I. apply N. right. exact I.
Qed.
Lemma splits_fold coef nouns ms word n : forall s d, (1 <= s)%nat -> (s + n <= length word)%nat -> (forall k, In k (dkeys d) -> exists e, k = firstn e word /\ (e < s)%nat) ->
  fold_left (fun (d : dict str (Q * Q)) e => let sub := firstn e word in let suf := skipn e word in
      match dget nouns sub, dget nouns suf with
      | Some a, Some b => dset d sub (tuple_max a b)
      | Some a, None => let q := dgetd coef suf 0%Q in if Qle_bool q ms then d else dset d sub (q, 0%Q)
      | None, _ => d
      end) (seq s n) d = d ++ splits coef nouns ms word (seq s n).
Proof.
  induction n as [|n IH]; intros s d S L K; [cbn; rewrite app_nil_r; reflexivity|]. cbn [seq fold_left]. unfold splits. cbn [map concat]. fold (splits coef nouns ms word (seq (Datatypes.S s) n)). cbv zeta.
  assert (NI : ~ In (firstn s word) (dkeys d)). { intros I. apply K in I as (e & E & LE). apply (f_equal (@length _)) in E. rewrite !firstn_length in E. lia. }
  assert (K1 : forall v k, In k (dkeys (d ++ [(firstn s word, v)])) -> exists e, k = firstn e word /\ (e < Datatypes.S s)%nat).
  { intros v k I. unfold dkeys in I. rewrite map_app in I. apply in_app_iff in I as [I|[<-|[]]]; [apply K in I as (e & E & LE); exists e; split; [exact E|lia]|exists s; split; [reflexivity|lia]]. }
  assert (K0 : forall k, In k (dkeys d) -> exists e, k = firstn e word /\ (e < Datatypes.S s)%nat) by (intros k I; apply K in I as (e & E & LE); exists e; split; [exact E|lia]).
  unfold split_b. cbv zeta.
  destruct (dget nouns (firstn s word)) as [a|]; [|cbn [app]; apply IH; [lia|lia|exact K0]].
  destruct (dget nouns (skipn s word)) as [b|].
  - rewrite dset_new by exact NI. rewrite app_assoc. apply IH; [lia|lia|apply K1].
  - destruct (Qle_bool (dgetd coef (skipn s word) 0%Q) ms); [cbn [app]; apply IH; [lia|lia|exact K0]|]. rewrite dset_new by exact NI. rewrite app_assoc. apply IH; [lia|lia|apply K1].
Qed.
Lemma sort_first {X} (le : X -> X -> bool) : (forall x y, le x y = true \/ le y x = true) -> (forall x y z, le x y = true -> le y z = true -> le x z = true) -> forall l,
  match sort le l with [] => l = [] | x :: _ => exists a b, l = a ++ x :: b /\ (forall y, In y a -> le y x = false) /\ (forall y, In y b -> le x y = true) end.
Proof.
  intros TOT TR. induction l as [|x l IH]; [reflexivity|]. cbn [sort]. destruct (sort le l) as [|y s] eqn:E.
  - subst l. cbn [insert]. exists [], []. split; [reflexivity|]. split; intros ? [].
  - cbn [insert]. destruct IH as (a & b & -> & A & B). destruct (le x y) eqn:L.
    + exists [], (a ++ y :: b). split; [reflexivity|]. split; [intros ? []|]. intros z I. apply in_app_iff in I as [I|[<-|I]]; [|exact L|eapply TR; [exact L|apply B, I]].
      destruct (TOT y z) as [K|K]; [eapply TR; [exact L|exact K]|]. rewrite (A z I) in K. discriminate.
    + exists (x :: a), b. split; [reflexivity|]. split; [|exact B]. intros z [<-|I]; [exact L|apply A, I].
Qed.
Lemma splits_In coef nouns ms word es k v : In (k, v) (splits coef nouns ms word es) <-> exists e, In e es /\ k = firstn e word /\ split_b coef nouns ms word e = Some v.
Proof.
  unfold splits. rewrite in_concat. split.
  - intros (x & I & J). apply in_map_iff in I as (e & <- & I). exists e. split; [exact I|]. destruct (split_b coef nouns ms word e) as [v'|]; [|destruct J]. destruct J as [J|[]]. injection J as <- <-. auto.
  - intros (e & I & -> & S). exists [(firstn e word, v)]. split; [apply in_map_iff; exists e; rewrite S; auto|left; reflexivity].
Qed.
Lemma splits_app coef nouns ms word e1 e2 : splits coef nouns ms word (e1 ++ e2) = splits coef nouns ms word e1 ++ splits coef nouns ms word e2.
Proof. unfold splits. rewrite map_app, concat_app. reflexivity. Qed.
(** a member of the list of splits and what stands before it *)
Lemma splits_pos coef nouns ms word n a k v b : forall s, splits coef nouns ms word (seq s n) = a ++ (k, v) :: b ->
  exists e, (s <= e < s + n)%nat /\ k = firstn e word /\ split_b coef nouns ms word e = Some v /\ a = splits coef nouns ms word (seq s (e - s)) /\ b = splits coef nouns ms word (seq (Datatypes.S e) (s + n - Datatypes.S e)).
Proof.
  revert a. induction n as [|n IH]; intros a s E; [destruct a; discriminate|]. cbn [seq] in E. unfold splits in E. cbn [map concat] in E. fold (splits coef nouns ms word (seq (Datatypes.S s) n)) in E.
  assert (SEQ : forall e, (Datatypes.S s <= e)%nat -> seq s (e - s) = s :: seq (Datatypes.S s) (e - Datatypes.S s)) by (intros e Le; replace (e - s)%nat with (Datatypes.S (e - Datatypes.S s)) by lia; reflexivity).
  destruct (split_b coef nouns ms word s) as [v0|] eqn:S0.
  - cbn [app] in E. destruct a as [|p a].
    + cbn [app] in E. injection E as <- <- E. exists s. split; [lia|]. split; [reflexivity|]. split; [exact S0|]. rewrite Nat.sub_diag. split; [reflexivity|]. rewrite <- E. f_equal. f_equal. lia.
    + cbn [app] in E. injection E as <- E. destruct (IH _ _ E) as (e & Le & K & S & A & B). exists e. split; [lia|]. split; [exact K|]. split; [exact S|]. split; [|rewrite B; f_equal; f_equal; lia].
      rewrite SEQ by lia. unfold splits. cbn [map concat]. rewrite S0. cbn [app]. rewrite A. reflexivity.
  - cbn [app] in E. destruct (IH _ _ E) as (e & Le & K & S & A & B). exists e. split; [lia|]. split; [exact K|]. split; [exact S|]. split; [|rewrite B; f_equal; f_equal; lia].
    rewrite SEQ by lia. unfold splits. cbn [map concat]. rewrite S0. cbn [app]. exact A.
Qed.
Lemma subword_best coef nouns ms word : best_split coef nouns ms word (subword_score coef word ms nouns).
Proof.
  unfold subword_score. destruct (Nat.le_gt_cases 1 (length word)) as [LW|LW].
  2:{ destruct word; [|cbn [length] in LW; lia]. left. split; [reflexivity|]. intros e x S. apply split_b_spec in S as [S _]. cbn [length] in S. lia. }
  rewrite splits_fold by (try lia; intros k []). cbn [app]. set (le := fun x y : str * (Q * Q) => Qle_bool (- fst (snd x)) (- fst (snd y))).
  assert (TOT : forall x y, le x y = true \/ le y x = true). { intros x y. unfold le. rewrite !Qle_bool_iff. destruct (Qlt_le_dec (- fst (snd y)) (- fst (snd x))); [right; lra|left; assumption]. }
  assert (TR : forall x y z, le x y = true -> le y z = true -> le x z = true). { intros x y z. unfold le. rewrite !Qle_bool_iff. intros; lra. }
  pose proof (sort_first le TOT TR (splits coef nouns ms word (seq 1 (length word - 1)))) as SF. destruct (sort le (splits coef nouns ms word (seq 1 (length word - 1)))) as [|[k v] rest].
  - left. split; [reflexivity|]. intros e x S. apply split_b_spec in S as [L S]. assert (I : In (firstn e word, x) (splits coef nouns ms word (seq 1 (length word - 1)))) by (apply splits_In; exists e; split; [apply in_seq; lia|auto]). rewrite SF in I. destruct I.
  - right. destruct SF as (a & b & E & A & B). apply splits_pos in E as (e & Le & -> & S & -> & ->). exists e. cbn [snd]. split; [apply split_b_spec; split; [lia|exact S]|].
    intros e' x S'. apply split_b_spec in S' as [L' S']. destruct (Nat.lt_trichotomy e' e) as [LT|[->|GT]].
    + assert (I : In (firstn e' word, x) (splits coef nouns ms word (seq 1 (e - 1)))) by (apply splits_In; exists e'; split; [apply in_seq; lia|auto]). apply A in I. unfold le in I. cbn [fst snd] in I. apply Qle_bool_false in I. split; [lra|intros _; lra].
    + rewrite S' in S. injection S as ->. split; [lra|lia].
    + assert (I : In (firstn e' word, x) (splits coef nouns ms word (seq (Datatypes.S e) (1 + (length word - 1) - Datatypes.S e)))) by (apply splits_In; exists e'; split; [apply in_seq; lia|auto]). apply B in I. unfold le in I. cbn [fst snd] in I. apply Qle_bool_iff in I. split; [lra|lia].
Qed.

(** ** coefficients *)
Lemma split_on_word c r : ~ In c r -> split_on c r = [r].
Proof. induction r as [|x r IH]; intros N; [reflexivity|]. cbn [split_on]. destruct (N.eqb_spec x c) as [->|NE]; [exfalso; apply N; left; reflexivity|]. rewrite IH by (intros I; apply N; right; exact I). reflexivity. Qed.
Lemma split_on_cons c r s : ~ In c r -> split_on c (r ++ c :: s) = r :: split_on c s.
Proof.
  induction r as [|x r IH]; intros N; cbn [app split_on]; [rewrite N.eqb_refl; reflexivity|]. destruct (N.eqb_spec x c) as [->|NE]; [exfalso; apply N; left; reflexivity|]. rewrite IH by (intros I; apply N; right; exact I). reflexivity.
Qed.
Definition addmax (coef : dict str Q) (e : str * Q) : dict str Q := dset coef (fst e) (match dget coef (fst e) with Some old => if Qle_bool (snd e) old then old else snd e | None => snd e end).
Definition line_entry (float_of : str -> option Q) (line : str) : option (str * Q) :=
  match split_on 9 (strip line) with [r; s] => match float_of s with Some q => Some (r, q) | None => None end | _ => None end.
Fixpoint file_entries (float_of : str -> option Q) (ls : list str) : list (str * Q) :=
  match ls with [] => [] | l :: ls' => match line_entry float_of l with Some e => e :: file_entries float_of ls' | None => [] end end.
Lemma line_entry_spec float_of line r q : line_entry float_of line = Some (r, q) <-> coef_entry float_of line r q.
Proof.
  unfold line_entry, coef_entry. split.
  - destruct (split_on_join 9%N (strip line)) as [J F]. destruct (split_on 9 (strip line)) as [|r' [|s [|? ?]]]; try discriminate. destruct (float_of s) as [q'|] eqn:FL; [|discriminate]. intros E. injection E as -> ->.
    inversion F as [|? ? F1 F']; subst. inversion F' as [|? ? F2 F'']; subst. exists s. split; [symmetry; exact J|]. auto.
  - intros (s & E & NR & NS & FL). rewrite E, split_on_cons by exact NR. rewrite split_on_word by exact NS. rewrite FL. reflexivity.
Qed.
Lemma coef_lines_entries float_of ls : forall coef, coef_lines float_of coef ls = fold_left addmax (file_entries float_of ls) coef.
Proof.
  induction ls as [|l ls IH]; intros coef; [reflexivity|]. cbn [coef_lines file_entries]. unfold coef_line, line_entry. destruct (split_on 9 (strip l)) as [|r [|s [|? ?]]]; try reflexivity. destruct (float_of s) as [q|]; [|reflexivity]. cbn [fold_left]. apply IH.
Qed.
Lemma load_entries float_of files : load_coef float_of files = fold_left addmax (concat (map (fun f => file_entries float_of (file_lines f)) files)) [].
Proof.
  unfold load_coef. generalize (@nil (str * Q)). induction files as [|f files IH]; intros d; [reflexivity|]. cbn [fold_left map concat]. rewrite fold_left_app, IH, coef_lines_entries. reflexivity.
Qed.
Lemma addmax_spec E : forall d, NoDup (dkeys d) -> let d' := fold_left addmax E d in NoDup (dkeys d') /\ forall r,
  match dget d' r with
  | Some q => (In (r, q) E \/ dget d r = Some q) /\ (forall q', In (r, q') E \/ dget d r = Some q' -> (q' <= q)%Q)
  | None => dget d r = None /\ forall q', ~ In (r, q') E
  end.
Proof.
  induction E as [|[r0 q0] E IH]; intros d N; cbv zeta; cbn [fold_left].
  - split; [exact N|]. intros r. destruct (dget d r) as [q|]; [split; [right; reflexivity|]; intros q' [[]|H]; injection H as ->; lra|]. split; [reflexivity|intros q' []].
  - destruct (IH (addmax d (r0, q0))) as [N' G]; [apply dwf_dset, N|]. split; [exact N'|]. intros r. specialize (G r).
    assert (A : dget (addmax d (r0, q0)) r = if eqb r0 r then Some (match dget d r0 with Some old => if Qle_bool q0 old then old else q0 | None => q0 end) else dget d r) by (unfold addmax; cbn [fst snd]; apply dget_dset).
    rewrite A in G. destruct (dget (fold_left addmax E (addmax d (r0, q0))) r) as [q|].
    + destruct G as [G1 G2]. destruct (eqb_spec r0 r) as [->|NE].
      * destruct (dget d r) as [old|] eqn:D.
        -- destruct (Qle_bool q0 old) eqn:L; [apply Qle_bool_iff in L|apply Qle_bool_false in L].
           ++ split; [destruct G1 as [G1|G1]; [left; right; exact G1|right; exact G1]|]. intros q' [[H|H]|H]; [injection H as <-; specialize (G2 old (or_intror eq_refl)); lra|apply G2; left; exact H|apply G2; right; exact H].
           ++ split; [destruct G1 as [G1|G1]; [left; right; exact G1|left; left; injection G1 as <-; reflexivity]|]. specialize (G2 q0 (or_intror eq_refl)) as G2'. intros q' [[H|H]|H]; [injection H as <-; exact G2'|apply G2; left; exact H|injection H as <-; lra].
        -- split; [destruct G1 as [G1|G1]; [left; right; exact G1|left; left; injection G1 as <-; reflexivity]|]. intros q' [[H|H]|H]; [injection H as <-; apply G2; right; reflexivity|apply G2; left; exact H|discriminate].
      * split; [destruct G1 as [G1|G1]; [left; right; exact G1|right; exact G1]|]. intros q' [[H|H]|H]; [injection H as E1 _; congruence|apply G2; left; exact H|apply G2; right; exact H].
    + destruct G as [G1 G2]. destruct (eqb_spec r0 r) as [->|NE]; [discriminate|]. split; [exact G1|]. intros q' [H|H]; [injection H as E1 _; congruence|exact (G2 q' H)].
Qed.
Lemma file_entries_In float_of ls r q : In (r, q) (file_entries float_of ls) <-> exists a line b, ls = a ++ line :: b /\ coef_entry float_of line r q /\ forall l, In l a -> exists r' q', coef_entry float_of l r' q'.
Proof.
  induction ls as [|l ls IH]; cbn [file_entries].
  - split; [intros []|]. intros ([|? a] & line & b & E & _); discriminate.
  - split.
    + destruct (line_entry float_of l) as [[r0 q0]|] eqn:L; [|intros []]. intros [H|H].
      * injection H as <- <-. apply line_entry_spec in L. exists [], l, ls. split; [reflexivity|]. split; [exact L|intros ? []].
      * apply IH in H as (a & line & b & -> & C & A). exists (l :: a), line, b. split; [reflexivity|]. split; [exact C|]. intros x [<-|I]; [|apply A, I]. exists r0, q0. apply line_entry_spec, L.
    + intros ([|x a] & line & b & E & C & A).
      * injection E as <- <-. apply line_entry_spec in C. rewrite C. left. reflexivity.
      * injection E as <- ->. destruct (A l (or_introl eq_refl)) as (r' & q' & C'). apply line_entry_spec in C'. rewrite C'. right. apply IH. exists a, line, b. split; [reflexivity|]. split; [exact C|]. intros y I. apply A. right. exact I.
Qed.
Lemma load_spec float_of files : NoDup (dkeys (load_coef float_of files)) /\ forall r,
  match dget (load_coef float_of files) r with
  | Some q => (exists f, In f files /\ readable_entry float_of f r q) /\ forall f q', In f files -> readable_entry float_of f r q' -> (q' <= q)%Q
  | None => forall f q', In f files -> ~ readable_entry float_of f r q'
  end.
Proof.
  rewrite load_entries. set (E := concat (map (fun f => file_entries float_of (file_lines f)) files)). destruct (addmax_spec E [] (NoDup_nil _)) as [N G]. split; [exact N|]. intros r. specialize (G r).
  assert (HE : forall q, In (r, q) E <-> exists f, In f files /\ readable_entry float_of f r q).
  { intros q. unfold E. rewrite in_concat. unfold readable_entry. split.
    - intros (x & I & J). apply in_map_iff in I as (f & <- & I). exists f. split; [exact I|]. apply file_entries_In, J.
    - intros (f & I & J). exists (file_entries float_of (file_lines f)). split; [apply in_map_iff; exists f; auto|apply file_entries_In, J]. }
  destruct (dget (fold_left addmax E []) r) as [q|].
  - destruct G as [[G|G] G2]; [|discriminate]. split; [apply HE, G|]. intros f q' I R. apply G2. left. apply HE. exists f. auto.
  - intros f q' I R. destruct G as [_ G]. apply (G q'), HE. exists f. auto.
Qed.
