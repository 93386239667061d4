(** * Proofs about the extraction of domain-specific josa *)
From Coq Require Import QArith Reals Permutation Lra Lqa Sorted.
From Verif Require Import PyBase PyDict PySort SortLemmas CountLemmas QLemmas UtilsModel UtilsSpec UtilsProofs UtilsProofs2 NounModel NounSpec NounProofs NounProofs2 NounProofs3 WordModel WordSpec WordProofs4 JosaModel JosaSpec VectorizerSpec VectorizerProofs3 PredModel PredProofs PredProofs3 PredProofs4 PredProofs5 PredProofs6.
Open Scope Z_scope.

Lemma josa_nouns_In th scores w : NoDup (dkeys scores) -> (In w (josa_nouns th scores) <-> good_noun th scores w).
Proof.
  intros ND. unfold josa_nouns, good_noun. rewrite in_map_iff. split.
  - intros ([k [a b]] & <- & I). apply filter_In in I as [I F]. apply andb_true_iff in F as [F1 F2]. cbn [fst snd] in *. exists a, b. split; [apply In_dget; assumption|]. split; apply Qle_bool_iff; assumption.
  - intros (a & b & D & A & B). exists (w, (a, b)). split; [reflexivity|]. apply filter_In. split; [apply dget_In, D|]. cbn [fst snd]. apply andb_true_iff. split; apply Qle_bool_iff; assumption.
Qed.
Lemma josa_nouns_NoDup th scores : NoDup (dkeys scores) -> NoDup (josa_nouns th scores).
Proof. intros ND. unfold josa_nouns. apply (NoDup_filter_map (K:=str)). exact ND. Qed.

Lemma nonempty_length {A} (l : list A) : l <> [] -> (1 <= length l)%nat.
Proof. destruct l; [congruence|cbn; lia]. Qed.
Lemma firstn_nonempty {A} i (l : list A) : (1 <= i)%nat -> (1 <= length l)%nat -> firstn i l <> [].
Proof. intros A1 B X. apply (f_equal (@length _)) in X. rewrite firstn_length in X. cbn [length] in X. lia. Qed.
Lemma skipn_nonempty {A} i (l : list A) : (i < length l)%nat -> skipn i l <> [].
Proof. intros A1 X. apply (f_equal (@length _)) in X. rewrite skipn_length in X. cbn [length] in X. lia. Qed.
Lemma firstn_pre {A} (a b : list A) : firstn (length a) (a ++ b) = a.
Proof. rewrite firstn_app, firstn_all, Nat.sub_diag. cbn [firstn]. apply app_nil_r. Qed.
Lemma skipn_pre {A} (a b : list A) : skipn (length a) (a ++ b) = b.
Proof. rewrite skipn_app, skipn_all, Nat.sub_diag. reflexivity. Qed.

(** the first index *)
Lemma find_seq_first (p : nat -> bool) n : forall s i, find p (seq s n) = Some i <-> (s <= i < s + n)%nat /\ p i = true /\ forall j, (s <= j < i)%nat -> p j = false.
Proof.
  induction n as [|n IH]; intros s i; cbn [seq find]; [split; [discriminate|intros (H & _); lia]|].
  destruct (p s) eqn:E.
  - split; [intros H; injection H as <-; split; [lia|]; split; [exact E|intros j H; lia]|]. intros (A & B & C). destruct (Nat.eq_dec s i) as [->|NE]; [reflexivity|]. rewrite C in E by lia. discriminate.
  - rewrite IH. split; intros (A & B & C); (split; [|split; [exact B|]]).
    + lia.
    + intros j H. destruct (Nat.eq_dec s j) as [<-|NE]; [exact E|apply C; lia].
    + destruct (Nat.eq_dec s i) as [->|NE]; [congruence|lia].
    + intros j H. apply C. lia.
Qed.
Lemma josa_is_NJ_spec r nouns pos : josa_is_NJ r nouns pos = true <-> noun_and_josa (fun x => In x nouns) (fun x => In x pos) r.
Proof.
  unfold josa_is_NJ, noun_and_josa. split.
  - destruct (find _ _) as [i|] eqn:F; [|discriminate]. intros M. apply mem_In in M. apply find_seq_first in F as (A & B & C). apply mem_In in B.
    exists (firstn i r), (skipn i r). split; [symmetry; apply firstn_skipn|]. split; [apply firstn_nonempty; lia|]. split; [apply skipn_nonempty; lia|]. split; [exact B|]. split; [|exact M].
    intros a' c E NA NC I. assert (L : length (firstn i r) = i) by (apply firstn_length_le; lia). assert (LE := f_equal (@length _) E). rewrite L, app_length in LE. pose proof (nonempty_length a' NA). pose proof (nonempty_length c NC).
    specialize (C (length a')). rewrite mem_In_false in C. apply C; [lia|]. replace (firstn (length a') r) with a'; [exact I|].
    rewrite <- (firstn_skipn i r), E, <- app_assoc, firstn_pre. reflexivity.
  - intros (a & b & -> & NA & NB & N & MIN & P). pose proof (nonempty_length a NA). pose proof (nonempty_length b NB).
    assert (F : find (fun i => mem (firstn i (a ++ b)) nouns) (seq 1 (length (a ++ b) - 1)) = Some (length a)).
    { apply find_seq_first. rewrite app_length. split; [lia|]. split; [rewrite firstn_pre; apply mem_In, N|]. intros j J. apply mem_In_false.
      rewrite firstn_app. replace (j - length a)%nat with 0%nat by lia. cbn [firstn]. rewrite app_nil_r. apply (MIN _ (skipn j a)); [symmetry; apply firstn_skipn|apply firstn_nonempty; lia|apply skipn_nonempty; lia]. }
    rewrite F, skipn_pre. apply mem_In, P.
Qed.
Lemma josa_longer_spec l r nouns : josa_longer_noun l r nouns = true <-> makes_noun (fun x => In x nouns) l r.
Proof.
  unfold josa_longer_noun, makes_noun. rewrite existsb_exists. split.
  - intros (i & I & M). apply in_seq in I. apply mem_In in M. exists (firstn i r), (skipn i r). split; [symmetry; apply firstn_skipn|]. split; [apply firstn_nonempty; lia|exact M].
  - intros (a & b & -> & NA & I). pose proof (nonempty_length a NA). exists (length a). split; [apply in_seq; rewrite app_length; lia|]. rewrite firstn_pre. apply mem_In, I.
Qed.
Definition jcls_b (nouns pos : list str) (r l : str) : jcls :=
  if josa_is_NJ r nouns pos then JNeg else if josa_longer_noun l r nouns then JNeg else if mem l nouns then JPos else JUnk.
Lemma jcls_b_spec nouns pos r l k : jclass (fun x => In x nouns) (fun x => In x pos) r l k <-> jcls_b nouns pos r l = k.
Proof.
  assert (A : jclass (fun x => In x nouns) (fun x => In x pos) r l (jcls_b nouns pos r l)).
  { unfold jcls_b. destruct (josa_is_NJ r nouns pos) eqn:E1; [apply jc_neg; left; apply josa_is_NJ_spec, E1|]. destruct (josa_longer_noun l r nouns) eqn:E2; [apply jc_neg; right; apply josa_longer_spec, E2|].
    rewrite <- not_true_iff_false, josa_is_NJ_spec in E1. rewrite <- not_true_iff_false, josa_longer_spec in E2. destruct (mem l nouns) eqn:E3; [apply mem_In in E3; apply jc_pos; assumption|apply mem_In_false in E3; apply jc_unk; assumption]. }
  split; [|intros <-; exact A]. intros H. revert A. generalize (jcls_b nouns pos r l). intros k' A. inversion H; subst; inversion A; subst; tauto.
Qed.
(** everything depends on the predicates only *)
Lemma NJ_ext (n1 n2 j1 j2 : str -> Prop) r : (forall x, n1 x <-> n2 x) -> (forall x, (length x < length r)%nat -> (j1 x <-> j2 x)) -> noun_and_josa n1 j1 r -> noun_and_josa n2 j2 r.
Proof.
  intros HN HJ (a & b & -> & NA & NB & N & M & P). exists a, b. split; [reflexivity|]. split; [exact NA|]. split; [exact NB|]. split; [apply HN, N|]. split.
  - intros a' c E X Y Z0. apply (M a' c E X Y), HN, Z0.
  - apply HJ; [|exact P]. rewrite app_length. pose proof (nonempty_length a NA). lia.
Qed.
Lemma makes_ext (n1 n2 : str -> Prop) l r : (forall x, n1 x <-> n2 x) -> makes_noun n1 l r -> makes_noun n2 l r.
Proof. intros HN (a & b & E & NA & N). exists a, b. split; [exact E|]. split; [exact NA|apply HN, N]. Qed.
Lemma iff_sym' {A} (p q : A -> Prop) : (forall x, p x <-> q x) -> forall x, q x <-> p x.
Proof. intros H x. symmetry. apply H. Qed.
Lemma jclass_ext (n1 n2 j1 j2 : str -> Prop) r l k : (forall x, n1 x <-> n2 x) -> (forall x, (length x < length r)%nat -> (j1 x <-> j2 x)) -> jclass n1 j1 r l k -> jclass n2 j2 r l k.
Proof.
  intros HN HJ H. assert (HN' := iff_sym' _ _ HN). assert (HJ' : forall x, (length x < length r)%nat -> (j2 x <-> j1 x)) by (intros x X; symmetry; apply HJ, X).
  assert (A : ~ noun_and_josa n1 j1 r -> ~ noun_and_josa n2 j2 r) by (intros X Y; apply X, (NJ_ext n2 n1 j2 j1 r HN' HJ' Y)).
  assert (B : ~ makes_noun n1 l r -> ~ makes_noun n2 l r) by (intros X Y; apply X, (makes_ext n2 n1 l r HN' Y)).
  destruct H as [[X|X]|X Y Z0|X Y Z0].
  - apply jc_neg. left. exact (NJ_ext n1 n2 j1 j2 r HN HJ X).
  - apply jc_neg. right. exact (makes_ext n1 n2 l r HN X).
  - apply jc_pos; [apply A, X|apply B, Y|apply HN, Z0].
  - apply jc_unk; [apply A, X|apply B, Y|rewrite <- HN; exact Z0].
Qed.
Lemma Forall2_impl' {A B} (P Q : A -> B -> Prop) l m : (forall a b, P a b -> Q a b) -> Forall2 P l m -> Forall2 Q l m.
Proof. intros H F. induction F; constructor; auto. Qed.
Lemma josa_test_ext th (n1 n2 j1 j2 : str -> Prop) r fs v : (forall x, n1 x <-> n2 x) -> (forall x, (length x < length r)%nat -> (j1 x <-> j2 x)) -> josa_test th n1 j1 r fs v -> josa_test th n2 j2 r fs v.
Proof.
  intros HN HJ (ks & lc & ns & F & L & [N1 N2] & REST). exists ks, lc, ns. split; [exact (Forall2_impl' _ _ _ _ (fun l k => jclass_ext n1 n2 j1 j2 r l k HN HJ) F)|]. split; [exact L|]. split; [|exact REST].
  split; [exact N1|]. intros l n. rewrite N2, HN. reflexivity.
Qed.

(** ** weights *)
Definition jsum (nouns pos : list str) (r : str) (k : jcls) (fs : list (str * Z)) : Z := Zsum (fun lc => if jcls_eqb (jcls_b nouns pos r (fst lc)) k then snd lc else 0) fs.
Lemma jweight_jsum nouns pos r fs ks k : Forall2 (jclass (fun x => In x nouns) (fun x => In x pos) r) (map fst fs) ks -> jweight ks fs k = jsum nouns pos r k fs.
Proof.
  revert ks. induction fs as [|[l n] fs IH]; intros ks F; inversion F as [|? k0 ? ks' H F']; subst; [reflexivity|].
  unfold jweight, jsum in *. cbn [combine map fold_right Zsum fst snd]. rewrite (IH _ F'). apply jcls_b_spec in H. rewrite H. reflexivity.
Qed.
Lemma jclasses_exist nouns pos r fs : Forall2 (jclass (fun x => In x nouns) (fun x => In x pos) r) (map fst fs) (map (fun lc : str * Z => jcls_b nouns pos r (fst lc)) fs).
Proof. induction fs as [|[l n] fs IH]; [constructor|]. cbn [map fst]. constructor; [apply jcls_b_spec; reflexivity|exact IH]. Qed.
Lemma josa_predict3_eq r fs nouns pos : Forall (fun lc => (2 <= length (fst lc))%nat) fs -> josa_predict3 r fs nouns pos = (jsum nouns pos r JPos fs, jsum nouns pos r JNeg fs, jsum nouns pos r JUnk fs).
Proof.
  intros F0. unfold josa_predict3. set (step := fun (a : Z * Z * Z) (lf : str * Z) => _).
  assert (G : forall fs p g k, Forall (fun lc => (2 <= length (fst lc))%nat) fs -> fold_left step fs (p, g, k) = (p + jsum nouns pos r JPos fs, g + jsum nouns pos r JNeg fs, k + jsum nouns pos r JUnk fs)).
  { clear fs F0. induction fs as [|[l n] fs IH]; intros p g k F; [unfold jsum; cbn [fold_left Zsum]; rewrite !Z.add_0_r; reflexivity|]. cbn [fold_left]. inversion F as [|? ? L F']; subst. cbn [fst] in L.
    assert (C : forall q, jsum nouns pos r q ((l, n) :: fs) = (if jcls_eqb (jcls_b nouns pos r l) q then n else 0) + jsum nouns pos r q fs) by reflexivity. rewrite !C.
    assert (S : step (p, g, k) (l, n) = match jcls_b nouns pos r l with JPos => (p + n, g, k) | JNeg => (p, g + n, k) | JUnk => (p, g, k + n) end).
    { unfold step, jcls_b. cbn [fst snd]. destruct (Nat.leb_spec (length l) 1); [lia|]. destruct (josa_is_NJ r nouns pos); [reflexivity|]. destruct (josa_longer_noun l r nouns); [reflexivity|]. destruct (mem l nouns); reflexivity. }
    rewrite S. destruct (jcls_b nouns pos r l); cbn [jcls_eqb]; rewrite (IH _ _ _ F'); (match goal with |- (?a, ?b, ?c) = (?x, ?y, ?z) => replace x with a by lia; replace y with b by lia; replace z with c by lia; reflexivity end). }
  rewrite (G fs 0 0 0 F0). reflexivity.
Qed.
(** ** the last characters *)
Lemma last_counter_spec fs : Forall (fun lc => fst lc <> []) fs -> last_chars fs (last_counter fs) /\ NoDup (map fst (last_counter fs)).
Proof.
  intros NE. assert (E : last_counter fs = dcount (map (fun lc : str * Z => (last (fst lc) 0%N, snd lc)) fs) []).
  { unfold last_counter, dcount. generalize (@nil (N * Z)). induction fs as [|[l n] fs IH]; intros d; [reflexivity|]. cbn [map fold_left fst snd]. inversion NE; subst. apply IH. assumption. }
  assert (W : dwf (last_counter fs)) by (rewrite E; apply dwf_dcount; constructor). split; [|exact W]. split; [apply (NoDup_map_inv fst), W|].
  intros x n.
  assert (SUM : dgetd (last_counter fs) x 0 = fold_right Z.add 0 (map snd (filter (fun lm => eqb (last (fst lm) 0%N) x) fs))).
  { rewrite E, dgetd_dcount. cbn [dgetd dget]. unfold dgetd. cbn [dget]. rewrite Zsum_map. cbn [fst snd]. clear. induction fs as [|[l m] fs IH]; [reflexivity|]. cbn [Zsum filter fst snd]. destruct (eqb (last l 0%N) x); cbn [map fold_right snd]; lia. }
  assert (K : In x (dkeys (last_counter fs)) <-> exists l m, In (l ++ [x], m) fs).
  { rewrite E, dkeys_dcount, map_map. cbn [fst dkeys map]. rewrite in_map_iff. split.
    - intros [[]|([l m] & L & I)]. cbn [fst] in L. rewrite Forall_forall in NE. specialize (NE _ I). cbn [fst] in NE. exists (removelast l), m. rewrite <- L, <- app_removelast_last by exact NE. exact I.
    - intros (l & m & I). right. exists (l ++ [x], m). split; [apply last_last|exact I]. }
  split.
  - intros I. split; [apply K; apply in_map_iff; exists (x, n); auto|]. rewrite <- SUM. unfold dgetd. rewrite (In_dget _ _ _ W I). reflexivity.
  - intros [X ->]. apply K in X. rewrite <- SUM. apply dget_keys in X. unfold dgetd. destruct (dget (last_counter fs) x) as [m|] eqn:D; [apply dget_In, D|congruence].
Qed.
Lemma last_chars_perm fs fs' lc lc' : Permutation fs fs' -> last_chars fs lc -> last_chars fs' lc' -> Permutation lc lc'.
Proof.
  intros P [A B] [A' B']. apply NoDup_Permutation; [exact A|exact A'|]. intros [x n]. rewrite B, B'. split; intros [(l & m & I) ->].
  - split; [exists l, m; exact (Permutation_in _ P I)|]. apply zfold_perm, Permutation_map, Permutation_filter, P.
  - split; [exists l, m; exact (Permutation_in _ (Permutation_sym P) I)|]. apply zfold_perm, Permutation_map, Permutation_filter, Permutation_sym, P.
Qed.
Lemma qdiv_inject a b : 0 < b -> qdiv a b = (inject_Z a / inject_Z b)%Q.
Proof. intros P. unfold qdiv. destruct b; [lia|reflexivity|lia]. Qed.
(** ** the test of one candidate *)
Lemma josa_step_spec th g nouns known dom r : 0 < j_pos_freq th ->
  let fs := noun_feature g r in NoDup fs -> Forall (fun lc => 0 < snd lc) fs ->
  exists o, josa_step th g nouns known dom r = Ok (match o with Some v => dset dom r v | None => dom end) /\
  forall v, o = Some v <-> ~ In r known /\ ~ In r nouns /\ josa_test th (fun x => In x nouns) (fun x => In x (known ++ dkeys dom)) r fs v.
Proof.
  intros PF fs ND POS. unfold josa_step. fold fs. destruct (mem r known) eqn:K; [exists None; split; [reflexivity|]; intros v; apply mem_In in K; split; [discriminate|tauto]|].
  destruct (mem r nouns) eqn:RN; [exists None; split; [reflexivity|]; intros v; apply mem_In in RN; split; [discriminate|tauto]|]. cbn [orb]. apply mem_In_false in K, RN.
  assert (L2 : Forall (fun lc => (2 <= length (fst lc))%nat) fs). { apply Forall_forall. intros lc I. apply filter_In in I as [_ I]. apply Nat.ltb_lt in I. lia. }
  assert (NE : Forall (fun lc => fst lc <> []) fs). { eapply Forall_impl; [|exact L2]. intros [l n] H X. cbn [fst] in *. subst. cbn in H. lia. }
  destruct (last_counter_spec fs NE) as [LC LN]. set (lc := last_counter fs) in *.
  assert (LP : Forall (fun n => 0 < n) (map snd lc)).
  { apply Forall_map, Forall_forall. intros [x n] I. cbn [snd]. apply (proj2 LC) in I as [(l & m & I) ->]. rewrite Forall_forall in POS. specialize (POS _ I) as P0. cbn [snd] in P0.
    assert (G : m <= fold_right Z.add 0 (map snd (filter (fun lm => eqb (last (fst lm) 0%N) x) fs))); [|lia].
    assert (J : In (l ++ [x], m) (filter (fun lm => eqb (last (fst lm) 0%N) x) fs)) by (apply filter_In; split; [exact I|]; cbn [fst]; rewrite last_last; apply eqb_refl).
    assert (Q : forall y, In y (filter (fun lm => eqb (last (fst lm) 0%N) x) fs) -> 0 <= snd y) by (intros y Y; apply filter_In in Y as [Y _]; specialize (POS _ Y); lia).
    revert J Q. generalize (filter (fun lm : str * Z => eqb (last (fst lm) 0%N) x) fs). intros L J Q. pose proof (Zsum_In_le snd L _ Q J) as H. cbn [snd] in H. clear -H. revert H. generalize m. induction L as [|y L IH]; intros m0 H; cbn [map fold_right Zsum] in *; [exact H|]. specialize (IH (m0 - snd y)). lia. }
  set (ns := filter (fun lc => mem (fst lc) nouns) fs).
  assert (NP : Forall (fun n => 0 < n) (map snd ns)). { apply Forall_map, Forall_forall. intros y Y. apply filter_In in Y as [Y _]. rewrite Forall_forall in POS. apply POS, Y. }
  set (pos := jsum nouns (known ++ dkeys dom) r JPos fs). set (neg := jsum nouns (known ++ dkeys dom) r JNeg fs). set (unk := jsum nouns (known ++ dkeys dom) r JUnk fs).
  assert (NN : 0 <= pos /\ 0 <= neg /\ 0 <= unk).
  { unfold pos, neg, unk, jsum. rewrite Forall_forall in POS. repeat split; apply Zsum_nonneg; intros y Y; specialize (POS _ Y); destruct (jcls_eqb _ _); lia. }
  set (score := if pos + neg =? 0 then 0%Q else (inject_Z (pos - neg) / inject_Z (pos + neg))%Q).
  assert (SC : (if pos + neg >? 0 then qdiv (pos - neg) (pos + neg) else 0%Q) = score). { unfold score. rewrite Z.gtb_ltb. destruct (Z.ltb_spec 0 (pos + neg)), (Z.eqb_spec (pos + neg) 0); try lia; [apply qdiv_inject; lia|reflexivity]. }
  (* what the test says, with the canonical witnesses *)
  assert (T : forall v, josa_test th (fun x => In x nouns) (fun x => In x (known ++ dkeys dom)) r fs v <->
     j_lastchar th <= Z.of_nat (length lc) /\ (j_last_entropy th <= shannon (map snd lc))%R /\ (j_noun_entropy th <= shannon (map snd ns))%R /\ v = (score, pos) /\ (j_pos_score th <= score)%Q /\ j_pos_freq th <= pos).
  { intros v. split.
    - intros (ks & lc' & ns' & F & LC' & [N1 N2] & A & B & C & D). rewrite !(jweight_jsum _ _ _ _ _ _ F) in D. fold pos neg in D. cbv zeta in D. fold score in D. destruct D as (D1 & D2 & D3 & D4).
      assert (P1 : Permutation lc' lc) by (apply (last_chars_perm fs fs); [apply Permutation_refl|exact LC'|exact LC]).
      assert (P2 : Permutation ns' ns). { apply NoDup_Permutation; [exact N1|apply NoDup_filter, ND|]. intros [l n]. rewrite N2. unfold ns. rewrite filter_In. cbn [fst]. rewrite mem_In. reflexivity. }
      rewrite <- (Permutation_length P1). rewrite <- (shannon_perm _ _ (Permutation_map snd P1)), <- (shannon_perm _ _ (Permutation_map snd P2)). rewrite D1 in D3.
      split; [exact A|]. split; [exact B|]. split; [exact C|]. split; [destruct v as [v1 v2]; cbn [fst snd] in *; congruence|]. split; assumption.
    - intros (A & B & C & -> & D & E). exists (map (fun lc : str * Z => jcls_b nouns (known ++ dkeys dom) r (fst lc)) fs), lc, ns. split; [apply jclasses_exist|]. split; [exact LC|].
      split; [split; [apply NoDup_filter, ND|]; intros l n; unfold ns; rewrite filter_In; cbn [fst]; rewrite mem_In; reflexivity|]. split; [exact A|]. split; [exact B|]. split; [exact C|].
      rewrite !(jweight_jsum nouns (known ++ dkeys dom) r fs _ _ (jclasses_exist _ _ _ _)). fold pos neg. cbv zeta. fold score. cbn [fst snd]. auto. }
  unfold josa_predict. fold lc. rewrite (josa_entropy_shannon _ LP). cbn [bind]. rewrite (josa_predict3_eq r fs nouns _ L2). fold pos neg unk. rewrite SC. fold ns. rewrite (josa_entropy_shannon _ NP).
  destruct (Z.ltb_spec (Z.of_nat (length lc)) (j_lastchar th)) as [A|A].
  { cbn [orb bind fst snd]. exists None. split; [|intros v; split; [discriminate|]; rewrite T; intros (_ & _ & A' & _); lia].
    destruct (Z.leb_spec (j_pos_freq th) 0); [lia|]. rewrite andb_false_r. reflexivity. }
  cbn [orb]. destruct (Rlt_dec (shannon (map snd lc)) (j_last_entropy th)) as [B|B].
  { cbn [bind fst snd]. exists None. split; [|intros v; split; [discriminate|]; rewrite T; intros (_ & _ & _ & B' & _); exfalso; apply (Rlt_not_le _ _ B B')].
    destruct (Z.leb_spec (j_pos_freq th) 0); [lia|]. rewrite andb_false_r. reflexivity. }
  apply Rnot_lt_le in B. set (freq := if Qle_bool (j_pos_score th) score then pos else neg + unk).
  destruct (Z.ltb_spec freq (j_pos_freq th)) as [C|C]; cbn [bind fst snd].
  { exists None. destruct (Z.leb_spec (j_pos_freq th) freq); [lia|]. rewrite andb_false_r. split; [reflexivity|]. intros v. split; [discriminate|]. rewrite T. intros (_ & _ & _ & _ & _ & _ & D & E).
    unfold freq in C. apply Qle_bool_iff in D. rewrite D in C. lia. }
  destruct (Z.leb_spec (j_pos_freq th) freq); [|lia]. rewrite andb_true_r.
  destruct (Qle_bool (j_pos_score th) score) eqn:QS.
  - cbn [andb]. unfold freq in *. destruct (Rle_dec (j_noun_entropy th) (shannon (map snd ns))) as [D|D].
    + exists (Some (score, pos)). split; [reflexivity|]. intros v. rewrite T. split; [intros H0; injection H0 as <-; apply Qle_bool_iff in QS; auto 12|]. intros (_ & _ & _ & _ & _ & -> & _). reflexivity.
    + exists None. split; [reflexivity|]. intros v. split; [discriminate|]. rewrite T. intros (_ & _ & _ & _ & D' & _). contradiction.
  - cbn [andb]. exists None. split; [reflexivity|]. intros v. split; [discriminate|]. rewrite T. intros (_ & _ & _ & _ & _ & _ & D & _). apply Qle_bool_iff in D. congruence.
Qed.
(** ** the loop *)
Lemma josa_test_pos th nouns (j1 j2 : str -> Prop) r fs v : (forall x, (length x < length r)%nat -> (j1 x <-> j2 x)) -> josa_test th (fun x => In x nouns) j1 r fs v <-> josa_test th (fun x => In x nouns) j2 r fs v.
Proof. intros H. split; apply josa_test_ext; try (intros x; reflexivity); [exact H|intros x X; symmetry; apply H, X]. Qed.
Lemma josa_loop th g nouns known : 0 < j_pos_freq th -> (forall r, NoDup (noun_feature g r)) -> (forall r, Forall (fun lc => 0 < snd lc) (noun_feature g r)) ->
  forall L dom, NoDup L -> StronglySorted (fun x y : str => (length x <= length y)%nat) L -> (forall r, In r L -> dget dom r = None) -> NoDup (dkeys dom) ->
  exists d, foldM (josa_step th g nouns known) L dom = Ok d /\ NoDup (dkeys d) /\ (forall r, ~ In r L -> dget d r = dget dom r) /\
  forall r v, In r L -> (dget d r = Some v <-> ~ In r known /\ ~ In r nouns /\ josa_test th (fun x => In x nouns) (fun x => In x known \/ dget d x <> None) r (noun_feature g r) v).
Proof.
  intros PF FN FP. induction L as [|r L IH]; intros dom ND SS FR W; cbn [foldM].
  - exists dom. split; [reflexivity|]. split; [exact W|]. split; [reflexivity|intros r v []].
  - inversion ND as [|? ? NI ND']; subst. inversion SS as [|? ? SS' HD]; subst. rewrite Forall_forall in HD.
    destruct (josa_step_spec th g nouns known dom r PF (FN r) (FP r)) as (o & E & O). rewrite E. cbn [bind]. set (dom1 := match o with Some v => dset dom r v | None => dom end).
    assert (G1 : forall x, dget dom1 x = if eqb r x then (match o with Some v => Some v | None => dget dom x end) else dget dom x) by (intros x; unfold dom1; destruct o as [v|]; [rewrite dget_dset; reflexivity|destruct (eqb r x); reflexivity]).
    destruct (IH dom1) as (d & D & WD & OUT & INN).
    + exact ND'.
    + exact SS'.
    + intros x X. rewrite G1. destruct (eqb_spec r x) as [->|_]; [contradiction|]. apply FR. right. exact X.
    + unfold dom1. destruct o as [v|]; [apply dwf_dset, W|exact W].
    + exists d. split; [exact D|]. split; [exact WD|].
      assert (OUT' : forall x, ~ In x (r :: L) -> dget d x = dget dom x). { intros x X. rewrite OUT, G1 by (intros H; apply X; right; exact H). destruct (eqb_spec r x) as [->|_]; [exfalso; apply X; left; reflexivity|reflexivity]. }
      split; [exact OUT'|]. intros x v [<-|I]; [|apply INN, I].
      rewrite OUT by exact NI. rewrite G1, eqb_refl, (FR r) by (left; reflexivity).
      assert (Q : (match o with Some v0 => Some v0 | None => None end) = Some v <-> o = Some v) by (destruct o; reflexivity). rewrite Q, O.
      assert (T : josa_test th (fun x => In x nouns) (fun x => In x (known ++ dkeys dom)) r (noun_feature g r) v <-> josa_test th (fun x => In x nouns) (fun x => In x known \/ dget d x <> None) r (noun_feature g r) v); [|rewrite T; reflexivity].
      apply josa_test_pos. intros y Y. rewrite in_app_iff, <- dget_keys. rewrite OUT'; [reflexivity|]. intros [<-|Z0]; [lia|]. specialize (HD _ Z0). lia.
Qed.
Lemma nonneg_dget_dfilter {V} (p : str -> V -> bool) (d : dict str V) k : NoDup (dkeys d) -> (In k (dkeys (dfilter p d)) <-> exists v, dget d k = Some v /\ p k v = true).
Proof. intros W. rewrite <- dget_keys, dget_dfilter by exact W. destruct (dget d k) as [v|]; [|split; [congruence|intros (v & H & _); discriminate]]. destruct (p k v) eqn:E; split; try congruence; eauto. intros (v' & H & P). injection H as <-. congruence. Qed.
(** ** candidates *)
Lemma josa_candidates_spec th g lm rm f nouns known ignore r : 0 < lm -> uni lm rm (dget f) g -> NoDup nouns -> 0 < j_pos_freq th ->
  NoDup (dkeys (josa_candidates th g nouns known ignore)) /\
  (In r (dkeys (josa_candidates th g nouns known ignore)) <-> ~ In r known /\ ~ In r ignore /\
     exists xs, NoDup xs /\ (forall l n, In (l, n) xs <-> In l nouns /\ in_limits lm rm l r /\ dget f (l ++ r) = Some n) /\ xs <> [] /\ j_pos_freq th <= fold_right Z.add 0 (map snd xs)).
Proof.
  intros P U NN PF. unfold josa_candidates.
  set (ok := fun x => mem x known || mem x ignore). set (rows := concat (map (fun l => get_r g l (-1)) nouns)).
  assert (EF : fold_left (fun d noun => fold_left (fun d rc => if mem (fst rc) known || mem (fst rc) ignore then d else dincr d (fst rc) (snd rc)) (get_r g noun (-1)) d) nouns [] = fold_left (addcount ok) rows []).
  { exact (concat_fold (addcount ok) (fun l => get_r g l (-1)) nouns []). }
  rewrite EF. destruct (addcount_get ok rows [] r (NoDup_nil _)) as [ND G]. set (d := fold_left (addcount ok) rows []) in *.
  split; [unfold dfilter, dkeys; apply (NoDup_filter_map (K:=str)); exact ND|]. rewrite nonneg_dget_dfilter by exact ND. rewrite G.
  set (xs := concat (map (fun l => map (fun rc => (l, snd rc)) (filter (fun rc => eqb (fst rc) r) (get_r g l (-1)))) nouns)).
  assert (XI : forall l n, In (l, n) xs <-> In l nouns /\ in_limits lm rm l r /\ dget f (l ++ r) = Some n).
  { intros l n. unfold xs. rewrite in_concat. split.
    - intros (y & I & J). apply in_map_iff in I as (l' & <- & I). apply in_map_iff in J as ([r' n'] & E & J). injection E as -> <-. apply filter_In in J as [J K]. cbn [fst snd] in *. apply eqb_eq in K. subst r'.
      apply (proj2 (uni_rows lm rm _ g l U)) in J as [W F]. apply (window_spec lm rm l r P) in W. auto.
    - intros (I & W & F). eexists. split; [apply in_map_iff; exists l; split; [reflexivity|exact I]|]. apply in_map_iff. exists (r, n). split; [reflexivity|]. apply filter_In. split; [|apply eqb_refl].
      apply (proj2 (uni_rows lm rm _ g l U)). apply (window_spec lm rm l r P) in W. auto. }
  assert (XN : NoDup xs).
  { unfold xs. apply NoDup_concat_map; [exact NN| |].
    - intros l _. pose proof (proj1 (uni_rows lm rm _ g l U)) as NC. revert NC. generalize (get_r g l (-1)). intros L NC. induction L as [|[r0 n0] L IH]; [constructor|]. inversion NC as [|? ? NI N1]; subst. cbn [filter fst].
      destruct (eqb_spec r0 r) as [->|_]; [|apply IH, N1]. cbn [map snd]. constructor; [|apply IH, N1]. intros I. apply in_map_iff in I as ([r1 n1] & E & I). apply filter_In in I as [I K]. cbn [fst] in K. apply eqb_eq in K. subst r1. apply NI, in_map_iff. exists (r, n1). auto.
    - intros l l' z _ _ I J. apply in_map_iff in I as (a & <- & _). apply in_map_iff in J as (b & E & _). injection E as -> _. reflexivity. }
  assert (XS : Zsum (fun rc => if eqb (fst rc) r then snd rc else 0) rows = fold_right Z.add 0 (map snd xs)).
  { unfold rows, xs. clear. induction nouns as [|l L IH]; [reflexivity|]. cbn [map concat]. rewrite Zsum_app, IH, map_app.
    assert (Q : forall a b, fold_right Z.add 0 (a ++ b) = fold_right Z.add 0 a + fold_right Z.add 0 b) by (induction a; intros b; cbn [app fold_right]; [lia|rewrite IHa; lia]). rewrite Q. f_equal.
    generalize (get_r g l (-1)). intros M. induction M as [|[r0 n0] M IHM]; [reflexivity|]. cbn [Zsum filter fst snd]. destruct (eqb r0 r); cbn [map fold_right snd]; lia. }
  assert (OK : ok r = false <-> ~ In r known /\ ~ In r ignore). { unfold ok. rewrite orb_false_iff, !mem_In_false. reflexivity. }
  assert (EX : existsb (fun rc => eqb (fst rc) r) rows = true <-> xs <> []).
  { rewrite existsb_exists. unfold rows. split.
    - intros ([r0 n] & I & E). cbn [fst] in E. apply eqb_eq in E. subst r0. apply in_concat in I as (y & I & J). apply in_map_iff in I as (l & <- & I).
      apply (proj2 (uni_rows lm rm _ g l U)) in J as [W F]. apply (window_spec lm rm l r P) in W. intros X. assert (K : In (l, n) xs) by (apply XI; auto). rewrite X in K. destruct K.
    - intros X. assert (Y : exists l n, In (l, n) xs) by (destruct xs as [|[l n] t]; [congruence|exists l, n; left; reflexivity]). destruct Y as (l & n & Y). apply XI in Y as (I & W & F). exists (r, n). split; [|apply eqb_refl].
      apply in_concat. exists (get_r g l (-1)). split; [apply in_map_iff; exists l; auto|]. apply (proj2 (uni_rows lm rm _ g l U)). apply (window_spec lm rm l r P) in W. auto. }
  rewrite <- and_assoc, <- OK, XS. cbn [dget]. unfold dgetd. cbn [dget]. split.
  - intros (v & D & Q). destruct (ok r) eqn:O; [discriminate|]. split; [reflexivity|]. destruct (existsb _ rows) eqn:X; [|discriminate]. injection D as <-. exists xs. split; [exact XN|]. split; [exact XI|]. split; [apply EX; reflexivity|]. apply Z.geb_le in Q. lia.
  - intros [O (ys & YN & YI & YE & Q)]. rewrite O. assert (PM : Permutation ys xs) by (apply NoDup_Permutation; [exact YN|exact XN|]; intros [l n]; rewrite YI, XI; reflexivity).
    assert (XE : xs <> []) by (intros X; rewrite X in PM; apply Permutation_sym, Permutation_nil in PM; congruence). apply EX in XE. rewrite XE. eexists. split; [reflexivity|]. apply Z.geb_le. rewrite <- (zfold_perm _ _ (Permutation_map snd PM)). lia.
Qed.
Lemma josa_left_parts lm rm f g r : 0 < lm -> uni lm rm (dget f) g -> left_parts lm rm f r (noun_feature g r).
Proof.
  intros P U. unfold left_parts, noun_feature. split; [apply NoDup_filter, (NoDup_map_inv fst), (uni_cols_NoDup lm rm _ g r U)|]. intros l n. rewrite filter_In, (uni_cols lm rm _ g r l n U). cbn [fst]. rewrite Nat.ltb_lt, (window_spec lm rm l r P). split.
  - intros ((A & B & C) & D). auto.
  - intros (A & B & C & D). auto.
Qed.
Lemma josa_test_perm th noun josa r fs fs' v : Permutation fs fs' -> josa_test th noun josa r fs v -> josa_test th noun josa r fs' v.
Proof.
  intros P. induction P as [|x l l' P IH|x y l|l l' l'' P1 IH1 P2 IH2]; [auto| | |auto].
  - intros (ks & lc & ns & F & LC & NS & A & B & C & D).
    (* the classes of the permuted list *)
    assert (G : forall l l' ks, Permutation l l' -> Forall2 (jclass noun josa r) (map fst l) ks -> exists ks', Forall2 (jclass noun josa r) (map fst l') ks' /\ forall k, jweight ks' l' k = jweight ks l k).
    { clear. intros l l' ks P. revert ks. induction P as [|[x n] l l' P IH|[x n] [y m] l|l l' l'' P1 IH1 P2 IH2]; intros ks F.
      - exists ks. auto.
      - inversion F as [|? k0 ? ks0 H F']; subst. destruct (IH _ F') as (ks' & A & B). exists (k0 :: ks'). split; [constructor; assumption|]. intros k. unfold jweight in *. cbn [combine map fold_right]. rewrite B. reflexivity.
      - inversion F as [|? k0 ? ks0 H F']; subst. inversion F' as [|? k1 ? ks1 H1 F1]; subst. exists (k1 :: k0 :: ks1). split; [constructor; [assumption|constructor; assumption]|]. intros k. unfold jweight. cbn [combine map fold_right]. lia.
      - destruct (IH1 _ F) as (k1 & A & B). destruct (IH2 _ A) as (k2 & C & D). exists k2. split; [exact C|]. intros k. rewrite D. apply B. }
    assert (PP : Permutation (x :: l) (x :: l')) by (constructor; exact P). destruct (G _ _ _ PP F) as (ks' & F' & W). exists ks', lc, ns. split; [exact F'|]. split; [|split; [|rewrite !W; auto]].
    + destruct LC as [L1 L2]. split; [exact L1|]. intros z n. rewrite L2. split; intros [(a & m & I) ->].
      * split; [exists a, m; exact (Permutation_in _ PP I)|]. apply zfold_perm, Permutation_map, Permutation_filter, PP.
      * split; [exists a, m; exact (Permutation_in _ (Permutation_sym PP) I)|]. apply zfold_perm, Permutation_map, Permutation_filter, Permutation_sym, PP.
    + destruct NS as [N1 N2]. split; [exact N1|]. intros a m. rewrite N2. split; intros [I J]; (split; [|exact J]); [exact (Permutation_in _ PP I)|exact (Permutation_in _ (Permutation_sym PP) I)].
  - intros (ks & lc & ns & F & LC & NS & A & B & C & D). assert (PP : Permutation (y :: x :: l) (x :: y :: l)) by apply perm_swap.
    inversion F as [|? k0 ? ks0 H F']; subst. inversion F' as [|? k1 ? ks1 H1 F1]; subst. exists (k1 :: k0 :: ks1), lc, ns. split; [constructor; [assumption|constructor; assumption]|].
    assert (W : forall k, jweight (k1 :: k0 :: ks1) (x :: y :: l) k = jweight (k0 :: k1 :: ks1) (y :: x :: l) k) by (intros k; unfold jweight; cbn [combine map fold_right]; lia).
    split; [|split; [|rewrite !W; auto]].
    + destruct LC as [L1 L2]. split; [exact L1|]. intros z n. rewrite L2. split; intros [(a & m & I) ->].
      * split; [exists a, m; exact (Permutation_in _ PP I)|]. apply zfold_perm, Permutation_map, Permutation_filter, PP.
      * split; [exists a, m; exact (Permutation_in _ (Permutation_sym PP) I)|]. apply zfold_perm, Permutation_map, Permutation_filter, Permutation_sym, PP.
    + destruct NS as [N1 N2]. split; [exact N1|]. intros a m. rewrite N2. split; intros [I J]; (split; [|exact J]); [exact (Permutation_in _ PP I)|exact (Permutation_in _ (Permutation_sym PP) I)].
Qed.
Lemma josa_feature_ext th scores lm rm f known ignore (j1 j2 : str -> Prop) r v : (forall x, (length x < length r)%nat -> (j1 x <-> j2 x)) ->
  josa_feature th scores lm rm f known ignore j1 r v -> josa_feature th scores lm rm f known ignore j2 r v.
Proof.
  intros H (A & B & C & D & fs & E & F). split; [exact A|]. split; [exact B|]. split; [exact C|]. split; [exact D|]. exists fs. split; [exact E|]. revert F. apply josa_test_ext; [intros x; reflexivity|exact H].
Qed.
Lemma josa_extract_spec ec lm rm g th scores known ignore : NoDup (map fst (ec_counter ec)) -> (forall e n, dget (ec_counter ec) e = Some n -> 0 < n) -> 1 < lm -> 0 < rm -> to_lrgraph ec lm rm false = Ok g ->
  NoDup (dkeys scores) -> 0 < j_pos_freq th ->
  exists d, josa_extract th g scores known ignore = Ok d /\ NoDup (dkeys d) /\
  forall r v, dget d r = Some v <-> josa_feature th scores lm rm (ec_counter ec) known ignore (fun x => In x known \/ dget d x <> None) r v.
Proof.
  intros N POS L R E NS PF. destruct (trained_uni ec lm rm N L R) as (g0 & E0 & U & _). unfold train_counter in E0. rewrite E in E0. injection E0 as <-. assert (P : 0 < lm) by lia.
  set (f := ec_counter ec) in *. set (nouns := josa_nouns th scores). assert (NN : NoDup nouns) by (apply josa_nouns_NoDup, NS). unfold josa_extract. fold nouns.
  set (C := dkeys (josa_candidates th g nouns known ignore)). set (le := fun x y : str => (length x <=? length y)%nat).
  assert (CN : NoDup C) by (apply (josa_candidates_spec th g lm rm f nouns known ignore [] P U NN PF)).
  assert (LP : forall r, left_parts lm rm f r (noun_feature g r)) by (intros r; apply josa_left_parts; assumption).
  destruct (josa_loop th g nouns known PF) with (L := sort le C) (dom := @nil (str * (Q * Z))) as (d & D & WD & OUT & INN).
  - intros r. apply (LP r).
  - intros r. apply Forall_forall. intros [l n] I. apply (proj2 (LP r)) in I as (_ & _ & _ & I). cbn [snd]. apply (POS _ _ I).
  - eapply Permutation_NoDup; [apply Permutation_sym, sort_perm|exact CN].
  - eapply StronglySorted_impl; [|apply (sort_sorted le)].
    + intros x y H. apply Nat.leb_le in H. exact H.
    + intros x y. unfold le. destruct (Nat.leb_spec (length x) (length y)); [left; reflexivity|right; apply Nat.leb_le; lia].
    + intros x y z X Y. apply Nat.leb_le in X, Y. apply Nat.leb_le. lia.
  - reflexivity.
  - constructor.
  - exists d. split; [exact D|]. split; [exact WD|]. intros r v.
    assert (NQ : forall x, In x nouns <-> good_noun th scores x) by (intros x; apply josa_nouns_In, NS).
    assert (CS : In r (sort le C) <-> ~ In r known /\ ~ In r ignore /\ exists xs, NoDup xs /\ (forall l n, In (l, n) xs <-> good_noun th scores l /\ in_limits lm rm l r /\ dget f (l ++ r) = Some n) /\ xs <> [] /\ j_pos_freq th <= fold_right Z.add 0 (map snd xs)).
    { rewrite sort_In. unfold C. rewrite (proj2 (josa_candidates_spec th g lm rm f nouns known ignore r P U NN PF)). split; intros (A & B & xs & X1 & X2 & X3); (split; [exact A|]); (split; [exact B|]); exists xs; (split; [exact X1|]); (split; [|exact X3]); intros l n; rewrite X2, NQ; reflexivity. }
    unfold josa_feature. rewrite <- NQ. split.
    + intros G. assert (I : In r (sort le C)). { destruct (in_dec (list_eq_dec N.eq_dec) r (sort le C)) as [I|I]; [exact I|]. rewrite OUT in G by exact I. discriminate. }
      apply (INN r v I) in G as (_ & RN & T). apply CS in I as (A & B & X). split; [exact A|]. split; [exact B|]. split; [exact RN|]. split; [exact X|]. exists (noun_feature g r). split; [apply LP|].
      revert T. apply josa_test_ext; [exact NQ|intros x _; reflexivity].
    + intros (A & B & RN & X & fs & FS & T). assert (I : In r (sort le C)) by (apply CS; auto). apply (INN r v I). split; [exact A|]. split; [exact RN|].
      assert (PM : Permutation fs (noun_feature g r)). { destruct (LP r) as [L1 L2]. destruct FS as [F1 F2]. apply NoDup_Permutation; [exact F1|exact L1|]. intros [l n]. rewrite F2, L2. reflexivity. }
      apply (josa_test_perm _ _ _ _ _ _ _ PM) in T. revert T. apply josa_test_ext; [intros x; symmetry; apply NQ|intros x _; reflexivity].
Qed.
