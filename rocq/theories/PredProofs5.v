(** * Proofs about the extraction of stems *)
From Coq Require Import QArith Reals Permutation Lra Lqa Sorted.
From Verif Require Import PyBase PyDict PySort SortLemmas CountLemmas QLemmas UtilsModel UtilsSpec UtilsProofs UtilsProofs2 NounModel NounSpec NounProofs NounProofs2 NounProofs3 WordModel WordSpec WordProofs4 JosaModel VectorizerSpec VectorizerProofs3 HangleModel LemmaModel LemmaProofs PredModel PredSpec PredSpec2 PredProofs PredProofs2 PredProofs3 PredProofs4.
Open Scope Z_scope.

Lemma conj_words_In counter stem eomi l r : In (l, r) (conj_words counter stem eomi) <->
  exists ws, conjugate stem eomi false = Ok ws /\ In (l ++ r) ws /\ length l = length stem /\ r <> [] /\ counter (l ++ r) <> 0.
Proof.
  unfold conj_words. destruct (conjugate stem eomi false) as [ws|]; [|split; [intros []|intros (ws & E & _); discriminate]]. rewrite in_map_iff. split.
  - intros (w & E & I). apply filter_In in I as [I F]. apply andb_true_iff in F as [F1 F2]. apply negb_true_iff in F1, F2. apply Z.eqb_neq in F1. apply Nat.leb_gt in F2. injection E as <- <-.
    exists ws. rewrite firstn_skipn. split; [reflexivity|]. split; [exact I|]. split; [apply firstn_length_le; lia|]. split; [|exact F1].
    intros X. apply (f_equal (@length _)) in X. rewrite skipn_length in X. cbn [length] in X. lia.
  - intros (ws' & E & I & LL & NR & C). injection E as <-. exists (l ++ r). rewrite <- LL, firstn_app, firstn_all, Nat.sub_diag, skipn_app, skipn_all, Nat.sub_diag. cbn [firstn skipn app]. rewrite app_nil_r. split; [reflexivity|].
    apply filter_In. split; [exact I|]. apply andb_true_iff. split; apply negb_true_iff; [apply Z.eqb_neq, C|]. apply Nat.leb_gt. rewrite app_length. destruct r; [congruence|]. cbn [length]. lia.
Qed.
Lemma stem_tables_spec ec lm rm g stems eomis : NoDup (map fst (ec_counter ec)) -> (forall e n, dget (ec_counter ec) e = Some n -> 0 < n) -> 1 < lm -> 0 < rm -> to_lrgraph ec lm rm false = Ok g ->
  let t := stem_tables g stems eomis in
  NoDup (fst t) /\ NoDup (snd t) /\ (forall l, In l (fst t) <-> exists r, known_pair stems eomis lm rm (ec_counter ec) l r) /\ (forall r, In r (snd t) <-> exists l, known_pair stems eomis lm rm (ec_counter ec) l r).
Proof.
  intros N POS L R E t. unfold t, stem_tables. cbv zeta. cbn [fst snd]. split; [apply dedup_NoDup|]. split; [apply dedup_NoDup|].
  destruct (to_lrgraph_ok ec lm rm false L R) as (g0 & E0 & LG & _). rewrite E in E0. injection E0 as <-.
  set (counter := fun w => dgetd (flat_counter (lr g)) w 0).
  set (lrs := concat (map (fun s => concat (map (conj_words counter s) eomis)) stems)).
  assert (C : forall w, w <> [] -> (counter w <> 0 <-> dget (ec_counter ec) w <> None /\ Z.of_nat (length w) <= lm + rm)).
  { intros w NW. unfold counter, dgetd. rewrite LG, roundtrip_counter by assumption. destruct w as [|x w]; [congruence|]. cbn [length Nat.eqb negb andb].
    destruct (Z.leb_spec (Z.of_nat (S (length w))) (lm + rm)) as [A|A]; [|split; [congruence|intros [_ B]; lia]].
    destruct (dget (ec_counter ec) (x :: w)) as [n|] eqn:D; [|split; [congruence|intros [B _]; congruence]]. split; [intros _; split; [discriminate|exact A]|]. intros _. specialize (POS _ _ D). lia. }
  assert (P : forall l r, In (l, r) lrs <-> known_pair stems eomis lm rm (ec_counter ec) l r).
  { intros l r. unfold lrs. rewrite in_concat. unfold known_pair. split.
    - intros (x & I & J). apply in_map_iff in I as (s & <- & I). apply in_concat in J as (y & K & J). apply in_map_iff in K as (e & <- & K). apply conj_words_In in J as (ws & W & J & LL & NR & CC).
      apply C in CC; [|destruct l; [exact NR|discriminate]]. exists s, e, ws. split; [exact I|]. split; [exact K|]. split; [exact W|]. split; [exact J|]. split; [exact LL|]. split; [exact NR|exact CC].
    - intros (s & e & ws & I & K & W & J & LL & NR & CC). eexists. split; [apply in_map_iff; exists s; split; [reflexivity|exact I]|]. apply in_concat. eexists. split; [apply in_map_iff; exists e; split; [reflexivity|exact K]|].
      apply conj_words_In. exists ws. split; [exact W|]. split; [exact J|]. split; [exact LL|]. split; [exact NR|]. apply C; [destruct l; [exact NR|discriminate]|exact CC]. }
  split; intros x; rewrite dedup_In, in_map_iff; split.
  - intros ([l r] & <- & I). exists r. apply P, I.
  - intros (r & H). exists (x, r). split; [reflexivity|]. apply P, H.
  - intros ([l r] & <- & I). exists l. apply P, I.
  - intros (l & H). exists (l, x). split; [reflexivity|]. apply P, H.
Qed.

(** ** predict *)
Lemma r_is_predicator_spec c r : r_is_predicator c r = true <-> is_predicator (st_L c) (st_R c) r.
Proof.
  unfold r_is_predicator, is_predicator. rewrite existsb_exists. split.
  - intros (i & I & M). apply in_seq in I. apply andb_true_iff in M as [A B]. apply mem_In in A, B. exists (firstn i r), (skipn i r). split; [symmetry; apply firstn_skipn|].
    split; [intros X; apply (f_equal (@length _)) in X; rewrite firstn_length in X; cbn [length] in X; lia|]. split; [intros X; apply (f_equal (@length _)) in X; rewrite skipn_length in X; cbn [length] in X; lia|]. split; assumption.
  - intros (a & b & -> & NA & NB & A & B). exists (length a). split.
    + apply in_seq. rewrite app_length. destruct a; [congruence|]. destruct b; [congruence|]. cbn [length]. lia.
    + rewrite firstn_app, firstn_all, Nat.sub_diag, skipn_app, skipn_all, Nat.sub_diag. cbn [firstn skipn app]. rewrite app_nil_r. apply andb_true_iff. split; apply mem_In; assumption.
Qed.
Lemma exist_longer_eomi_spec c l r : exist_longer_eomi c l r = true <-> longer_ending (st_R c) l r.
Proof.
  unfold exist_longer_eomi, longer_ending. rewrite existsb_exists. split.
  - intros (i & I & M). apply in_seq in I. apply mem_In in M. exists (firstn (length l - i) l), (skipn (length l - i) l). split; [symmetry; apply firstn_skipn|]. split; [|exact M].
    intros X; apply (f_equal (@length _)) in X; rewrite skipn_length in X; cbn [length] in X; lia.
  - intros (a & b & -> & NB & I). exists (length b). split; [apply in_seq; rewrite app_length; destruct b; [congruence|]; cbn [length]; lia|].
    apply mem_In. rewrite app_length, Nat.add_sub, skipn_app, skipn_all, Nat.sub_diag. exact I.
Qed.
Lemma also_josa_eq : also_josa = stem_josa.
Proof. vm_compute. reflexivity. Qed.
Definition scls_b (c : sconf) (l r : str) : scls :=
  if mem r stem_josa then SSkip else match r with [] => SNeg | _ => if mem r (st_R c) then SPos else if r_is_predicator c r then SNeg else if exist_longer_eomi c l r then SNeg else SUnk end.
Lemma scls_b_spec c l r k : sclass (st_L c) (st_R c) l r k <-> scls_b c l r = k.
Proof.
  assert (A : sclass (st_L c) (st_R c) l r (scls_b c l r)).
  { unfold scls_b. destruct (mem r stem_josa) eqn:E1; [apply mem_In in E1; rewrite <- also_josa_eq in E1; constructor; exact E1|apply mem_In_false in E1; rewrite <- also_josa_eq in E1].
    destruct r as [|x r]; [constructor|]. assert (NE : x :: r <> []) by discriminate. destruct (mem (x :: r) (st_R c)) eqn:E2; [apply mem_In in E2; constructor; assumption|apply mem_In_false in E2].
    destruct (r_is_predicator c (x :: r)) eqn:E3; [apply r_is_predicator_spec in E3; apply s_neg; auto|].
    destruct (exist_longer_eomi c l (x :: r)) eqn:E4; [apply exist_longer_eomi_spec in E4; apply s_neg; auto|].
    rewrite <- not_true_iff_false, r_is_predicator_spec in E3. rewrite <- not_true_iff_false, exist_longer_eomi_spec in E4. apply s_unk; assumption. }
  split; [|intros <-; exact A]. intros H. revert A. generalize (scls_b c l r). intros k' A.
  assert (J0 : ~ In (@nil N) also_josa) by (intros I; apply mem_In in I; vm_compute in I; discriminate).
  inversion H; subst; inversion A; subst; tauto.
Qed.
Definition ssum (c : sconf) (l : str) (k : scls) (fs : list (str * Z)) : Z := Zsum (fun rc => if scls_eqb (scls_b c l (fst rc)) k then snd rc else 0) fs.
Lemma sweight_ssum c l fs ks k : Forall2 (sclass (st_L c) (st_R c) l) (map fst fs) ks -> sweight ks fs k = ssum c l k fs.
Proof.
  revert ks. induction fs as [|[r n] fs IH]; intros ks F; inversion F as [|? k0 ? ks' H F']; subst; [reflexivity|].
  unfold sweight, ssum in *. cbn [combine map fold_right Zsum fst snd]. rewrite (IH _ F'). apply scls_b_spec in H. rewrite H. reflexivity.
Qed.
Lemma sclasses_exist c l fs : Forall2 (sclass (st_L c) (st_R c) l) (map fst fs) (map (fun rc : str * Z => scls_b c l (fst rc)) fs).
Proof. induction fs as [|[r n] fs IH]; [constructor|]. cbn [map fst]. constructor; [apply scls_b_spec; reflexivity|exact IH]. Qed.
Lemma stem_predict3_eq c l fs : stem_predict3 c l fs = (ssum c l SPos fs, ssum c l SNeg fs, ssum c l SUnk fs).
Proof.
  assert (G : forall fs p g k, fold_left (stem_step c l) fs (p, g, k) = (p + ssum c l SPos fs, g + ssum c l SNeg fs, k + ssum c l SUnk fs)).
  { clear fs. induction fs as [|[r n] fs IH]; intros p g k; [unfold ssum; cbn [fold_left Zsum]; rewrite !Z.add_0_r; reflexivity|]. cbn [fold_left].
    assert (C : forall q, ssum c l q ((r, n) :: fs) = (if scls_eqb (scls_b c l r) q then n else 0) + ssum c l q fs) by reflexivity. rewrite !C.
    assert (S : stem_step c l (p, g, k) (r, n) = match scls_b c l r with SPos => (p + n, g, k) | SNeg => (p, g + n, k) | SUnk => (p, g, k + n) | SSkip => (p, g, k) end).
    { unfold stem_step, scls_b. cbn [fst snd]. destruct (mem r stem_josa); [reflexivity|]. destruct r as [|x r]; [reflexivity|]. destruct (mem (x :: r) (st_R c)); [reflexivity|]. destruct (r_is_predicator c (x :: r)); [reflexivity|]. destruct (exist_longer_eomi c l (x :: r)); reflexivity. }
    rewrite S. destruct (scls_b c l r); cbn [scls_eqb]; rewrite IH; (match goal with |- (?a, ?b, ?c) = (?x, ?y, ?z) => replace x with a by lia; replace y with b by lia; replace z with c by lia; reflexivity end). }
  unfold stem_predict3. rewrite G. reflexivity.
Qed.
Definition unambiguous_b (c : sconf) (l r : str) : bool := if mem r stem_josa || r_is_predicator c r || exist_longer_eomi c l r then false else mem r (st_R c).
Lemma unambiguous_spec c l r : unambiguous_b c l r = true <-> unambiguous (st_L c) (st_R c) l r.
Proof.
  unfold unambiguous_b, unambiguous. rewrite <- r_is_predicator_spec, <- exist_longer_eomi_spec, also_josa_eq, <- !mem_In.
  destruct (mem r stem_josa), (r_is_predicator c r), (exist_longer_eomi c l r), (mem r (st_R c)); cbn [orb]; split; intros H; try discriminate H; try (destruct H as (A & B & C & D); congruence).
  repeat split; congruence.
Qed.
Lemma first_char_counts_spec fs : NoDup (dkeys (first_char_counts fs)) /\ forall x, In x (dkeys (first_char_counts fs)) <-> first_char fs x.
Proof.
  unfold first_char_counts. set (step := fun (d : dict N Z) (rc : str * Z) => _).
  assert (G : forall fs d, NoDup (dkeys d) -> NoDup (dkeys (fold_left step fs d)) /\ forall x, In x (dkeys (fold_left step fs d)) <-> In x (dkeys d) \/ first_char fs x).
  { clear fs. induction fs as [|[r n] fs IH]; intros d ND; cbn [fold_left].
    - split; [exact ND|]. intros x. split; [auto|]. intros [H|(t & n & [])]. exact H.
    - assert (S : NoDup (dkeys (step d (r, n))) /\ forall x, In x (dkeys (step d (r, n))) <-> In x (dkeys d) \/ exists t, r = x :: t).
      { unfold step. cbn [fst snd]. destruct r as [|y t]; [split; [exact ND|]; intros x; split; [auto|intros [H|(t & H)]; [exact H|discriminate]]|].
        unfold dincr. split; [apply dwf_dset, ND|]. intros x. rewrite <- !dget_keys, dget_dset. destruct (eqb_spec y x) as [->|NE]; [split; [intros _; right; exists t; reflexivity|discriminate]|].
        split; [auto|]. intros [H|(t' & H)]; [exact H|]. injection H as -> _. congruence. }
      destruct S as [S1 S2]. destruct (IH _ S1) as [I1 I2]. split; [exact I1|]. intros x. rewrite I2, S2. unfold first_char. split.
      + intros [[H|(t & ->)]|(t & m & I)]; [auto|right; exists t, n; left; reflexivity|right; exists t, m; right; exact I].
      + intros [H|(t & m & [I|I])]; [auto| |right; eauto]. injection I as -> ->. left. right. exists t. reflexivity. }
  destruct (G fs [] (NoDup_nil _)) as [A B]. split; [exact A|]. intros x. rewrite B. split; [intros [[]|H]; exact H|auto].
Qed.
Lemma josa_entropy_shannon cs : Forall (fun n => 0 < n) cs -> josa_entropy cs = Ok (shannon cs).
Proof.
  intros F. unfold josa_entropy. destruct cs as [|x cs]; [unfold shannon; cbn; f_equal; symmetry; apply Ropp_0|].
  assert (Z0 : Zsum (fun x => x) (x :: cs) = fold_right Z.add 0 (x :: cs)). { generalize (x :: cs). intros l. induction l as [|y l IH]; [reflexivity|]. cbn [Zsum fold_right]. rewrite IH. reflexivity. }
  assert (P : 0 < Zsum (fun x => x) (x :: cs)). { cbn [Zsum]. inversion F as [|? ? A B]; subst. assert (0 <= Zsum (fun x => x) cs); [|lia]. apply Zsum_nonneg. intros y I. rewrite Forall_forall in B. specialize (B y I). lia. }
  set (s := Zsum (fun x => x) (x :: cs)) in *. destruct (Z.eqb_spec s 0); [lia|].
  assert (B : forallb (fun x => 0 <? x * s) (x :: cs) = true). { apply forallb_forall. intros y I. rewrite Forall_forall in F. specialize (F y I). apply Z.ltb_lt. apply Z.mul_pos_pos; assumption. }
  rewrite B. unfold shannon. cbv zeta. rewrite <- Z0. reflexivity.
Qed.
Lemma stem_entropy_shannon cs : Forall (fun n => 0 < n) cs -> stem_entropy cs = Ok (shannon cs).
Proof.
  intros F. pose proof (josa_entropy_shannon cs F) as J. unfold stem_entropy. destruct cs as [|x [|y cs]]; [exact J| |exact J].
  f_equal. symmetry. apply (shannon_zero [x] F). cbn. lia.
Qed.
