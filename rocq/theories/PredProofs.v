(** * Proofs about the extraction of endings *)
From Coq Require Import QArith Permutation Lqa Sorted.
From Verif Require Import PyBase PyDict PySort SortLemmas CountLemmas QLemmas UtilsModel UtilsSpec UtilsProofs UtilsProofs2 NounModel NounSpec NounProofs NounProofs2 NounProofs3 LemmaModel PredModel PredSpec.
Open Scope Z_scope.

Lemma eomi_longer_spec surf l r : eomi_longer surf l r = true <-> stem_goes_on surf l r.
Proof.
  unfold eomi_longer, stem_goes_on. rewrite existsb_exists. split.
  - intros (i & I & M). apply in_seq in I. apply mem_In in M. exists (firstn i r), (skipn i r). split; [symmetry; apply firstn_skipn|]. split; [|exact M].
    intros E. apply (f_equal (@length _)) in E. rewrite firstn_length in E. cbn [length] in E. lia.
  - intros (a & b & -> & N & I). exists (length a). split.
    + apply in_seq. rewrite app_length. destruct a; [congruence|]. cbn [length]. lia.
    + apply mem_In. rewrite firstn_app, firstn_all, Nat.sub_diag. cbn [firstn]. rewrite app_nil_r. exact I.
Qed.
Lemma eomi_longer_false surf l r : eomi_longer surf l r = false <-> ~ stem_goes_on surf l r.
Proof. rewrite <- eomi_longer_spec. destruct (eomi_longer surf l r); split; congruence. Qed.
Lemma stem_at_last_spec surf l : stem_at_last surf l = true <-> ends_in_stem surf l.
Proof.
  unfold stem_at_last, ends_in_stem. rewrite existsb_exists. split.
  - intros (i & I & M). apply in_seq in I. apply mem_In in M. exists (firstn (length l - i) l), (skipn (length l - i) l). split; [symmetry; apply firstn_skipn|].
    split; [intros E; apply (f_equal (@length _)) in E; rewrite firstn_length in E; cbn [length] in E; lia|].
    split; [intros E; apply (f_equal (@length _)) in E; rewrite skipn_length in E; cbn [length] in E; lia|exact M].
  - intros (a & b & -> & NA & NB & I). exists (length b). split.
    + apply in_seq. rewrite app_length. destruct a; [congruence|]. destruct b; [congruence|]. cbn [length]. lia.
    + apply mem_In. rewrite app_length, Nat.add_sub, skipn_app, skipn_all, Nat.sub_diag. exact I.
Qed.
Lemma stem_at_last_false surf l : stem_at_last surf l = false <-> ~ ends_in_stem surf l.
Proof. rewrite <- stem_at_last_spec. destruct (stem_at_last surf l); split; congruence. Qed.
Lemma noun_verb_spec surf nouns l : l <> [] -> exists b, noun_verb surf nouns l = Ok b /\ (b = true <-> noun_and_stem surf nouns l).
Proof.
  destruct l as [|x t]; [congruence|]. intros _. exists (mem [x] nouns && mem t surf). split; [reflexivity|]. rewrite andb_true_iff, !mem_In. unfold noun_and_stem. split.
  - intros [A B]. exists x, t. auto.
  - intros (y & t' & E & A & B). injection E as <- <-. auto.
Qed.
Definition likeb (surf nouns : list str) (l : str) : bool := mem l surf || match noun_verb surf nouns l with Ok b => b | Err _ => false end.
Lemma likeb_spec surf nouns l : likeb surf nouns l = true <-> stem_like surf nouns l.
Proof.
  unfold likeb, stem_like. rewrite orb_true_iff, mem_In. destruct l as [|x t].
  - cbn [noun_verb]. split; intros [H|H]; [auto|discriminate|auto|]. destruct H as (y & t & E & _). discriminate.
  - destruct (noun_verb_spec surf nouns (x :: t)) as (b & -> & E); [discriminate|]. rewrite E. reflexivity.
Qed.
Lemma likeb_false surf nouns l : likeb surf nouns l = false <-> ~ stem_like surf nouns l.
Proof. rewrite <- likeb_spec. destruct (likeb surf nouns l); split; congruence. Qed.
Definition ecls_b (surf nouns : list str) (r l : str) : ecls :=
  if mem (l ++ r) nouns then ESkip else if eomi_longer surf l r then ESkip else if likeb surf nouns l then EPos else if stem_at_last surf l then EUnk else ENeg.
Lemma ecls_b_spec surf nouns r l k : eclass surf nouns r l k <-> ecls_b surf nouns r l = k.
Proof.
  assert (A : eclass surf nouns r l (ecls_b surf nouns r l)).
  { unfold ecls_b. destruct (mem (l ++ r) nouns) eqn:E1; [apply mem_In in E1; constructor; auto|apply mem_In_false in E1].
    destruct (eomi_longer surf l r) eqn:E2; [apply eomi_longer_spec in E2; constructor; auto|apply eomi_longer_false in E2].
    destruct (likeb surf nouns l) eqn:E3; [apply likeb_spec in E3; constructor; auto|apply likeb_false in E3].
    destruct (stem_at_last surf l) eqn:E4; [apply stem_at_last_spec in E4; constructor; auto|apply stem_at_last_false in E4; constructor; auto]. }
  split; [|intros <-; exact A]. intros H. revert A. generalize (ecls_b surf nouns r l). intros k' A. inversion H; subst; inversion A; subst; tauto.
Qed.
Definition esum (surf nouns : list str) (r : str) (k : ecls) (fs : list (str * Z)) : Z := Zsum (fun lc => if ecls_eqb (ecls_b surf nouns r (fst lc)) k then snd lc else 0) fs.
Lemma eweight_esum surf nouns r fs ks k : Forall2 (eclass surf nouns r) (map fst fs) ks -> eweight ks fs k = esum surf nouns r k fs.
Proof.
  revert ks. induction fs as [|[l n] fs IH]; intros ks F; inversion F as [|? k0 ? ks' H F']; subst; [reflexivity|].
  unfold eweight, esum in *. cbn [combine map fold_right Zsum fst snd]. rewrite (IH _ F'). apply ecls_b_spec in H. rewrite H. reflexivity.
Qed.
Lemma eclasses_exist surf nouns r fs : Forall2 (eclass surf nouns r) (map fst fs) (map (fun lc : str * Z => ecls_b surf nouns r (fst lc)) fs).
Proof. induction fs as [|[l n] fs IH]; [constructor|]. cbn [map fst]. constructor; [apply ecls_b_spec; reflexivity|exact IH]. Qed.
Lemma eomi_step_ok surf nouns r a l n : l <> [] -> eomi_step surf nouns r a (l, n) =
  let '(p, g, k) := a in Ok (match ecls_b surf nouns r l with EPos => (p + n, g, k) | ENeg => (p, g + n, k) | EUnk => (p, g, k + n) | ESkip => a end).
Proof.
  intros N. destruct a as [[p g] k]. unfold eomi_step, ecls_b, likeb. cbn [fst snd]. destruct (mem (l ++ r) nouns); [reflexivity|]. destruct (eomi_longer surf l r); [reflexivity|].
  destruct (mem l surf); [reflexivity|]. destruct (noun_verb_spec surf nouns l N) as (b & -> & _). cbn [bind orb]. destruct b; [reflexivity|]. destruct (stem_at_last surf l); reflexivity.
Qed.
Lemma eomi_predict3_eq surf nouns r fs : Forall (fun lc => fst lc <> []) fs ->
  eomi_predict3 surf nouns r fs = Ok (esum surf nouns r EPos fs, esum surf nouns r ENeg fs, esum surf nouns r EUnk fs).
Proof.
  intros F. unfold eomi_predict3.
  assert (G : forall p g k, foldM (eomi_step surf nouns r) fs (p, g, k) = Ok (p + esum surf nouns r EPos fs, g + esum surf nouns r ENeg fs, k + esum surf nouns r EUnk fs)).
  { induction F as [|[l n] fs N F IH]; intros p g k; [unfold esum; cbn [foldM Zsum]; rewrite !Z.add_0_r; reflexivity|].
    cbn [foldM]. cbn [fst] in N. rewrite (eomi_step_ok surf nouns r (p, g, k) l n N). cbn [bind]. 
    assert (C : forall c, esum surf nouns r c ((l, n) :: fs) = (if ecls_eqb (ecls_b surf nouns r l) c then n else 0) + esum surf nouns r c fs) by reflexivity.
    rewrite !C. destruct (ecls_b surf nouns r l); cbn [ecls_eqb]; rewrite IH; (match goal with |- Ok (?a, ?b, ?c) = Ok (?x, ?y, ?z) => replace x with a by lia; replace y with b by lia; replace z with c by lia; reflexivity end). }
  rewrite G. reflexivity.
Qed.
Lemma Permutation_filter {A} (b : A -> bool) l l' : Permutation l l' -> Permutation (filter b l) (filter b l').
Proof.
  intros P. induction P; cbn [filter]; [constructor|destruct (b x); [constructor|]; assumption|destruct (b x), (b y); try reflexivity; constructor|eapply perm_trans; eassumption].
Qed.
(** predict depends only on the sets *)
Lemma eomi_predict_ext surf surf' nouns nouns' fs fs' r ms mnf : (forall x, In x surf <-> In x surf') -> (forall x, In x nouns <-> In x nouns') -> Permutation fs fs' -> Forall (fun lc => fst lc <> []) fs ->
  eomi_predict surf nouns fs r ms mnf = eomi_predict surf' nouns' fs' r ms mnf.
Proof.
  intros S N P F. assert (F' : Forall (fun lc => fst lc <> []) fs') by (eapply Permutation_Forall; eassumption).
  assert (MM : forall (a b : list str), (forall x, In x a <-> In x b) -> forall x, mem x a = mem x b) by (intros a b H x; apply eq_true_iff_eq; rewrite !mem_In; apply H).
  assert (L : forall l r, eomi_longer surf l r = eomi_longer surf' l r).
  { intros l q. apply eq_true_iff_eq. rewrite !eomi_longer_spec. unfold stem_goes_on. split; intros (a & b & E & NE & I); exists a, b; (split; [exact E|]; split; [exact NE|]); apply S, I. }
  assert (K : forall l, ecls_b surf nouns r l = ecls_b surf' nouns' r l).
  { intros l. unfold ecls_b. rewrite (MM _ _ N (l ++ r)), L.
    assert (LK : likeb surf nouns l = likeb surf' nouns' l). { unfold likeb. rewrite (MM _ _ S l). destruct l as [|x t]; [reflexivity|]. cbn [noun_verb]. rewrite (MM _ _ S t), (MM _ _ N [x]). reflexivity. }
    assert (SL : stem_at_last surf l = stem_at_last surf' l).
    { apply eq_true_iff_eq. rewrite !stem_at_last_spec. unfold ends_in_stem. split; intros (a & b & E & NA & NB & I); exists a, b; (split; [exact E|]; split; [exact NA|]; split; [exact NB|]); apply S, I. }
    rewrite LK, SL. reflexivity. }
  unfold eomi_predict. rewrite !eomi_predict3_eq by assumption. cbn [bind].
  assert (W : forall k, esum surf nouns r k fs = esum surf' nouns' r k fs') by (intros k; unfold esum; rewrite (Zsum_perm _ _ _ P); apply Zsum_ext; intros x _; rewrite K; reflexivity).
  assert (R : length (eomi_refine surf r fs) = length (eomi_refine surf' r fs')).
  { unfold eomi_refine. rewrite (Permutation_length (Permutation_filter _ _ _ P)). f_equal. apply filter_ext. intros [l n]. cbn [fst]. rewrite (MM _ _ S l), L. reflexivity. }
  rewrite !W, R. reflexivity.
Qed.

(** ** taking eojeols from the graph *)
Lemma uni_cols_NoDup lm rm f g r : uni lm rm f g -> NoDup (map fst (get_l g r (-1))).
Proof. intros [I _]. unfold get_l. rewrite get_all. apply top_NoDup, (inv_rl g I). Qed.
Lemma cols_nonempty lm rm f g r : uni lm rm f g -> Forall (fun lc => fst lc <> []) (get_l g r (-1)).
Proof.
  intros U. apply Forall_forall. intros [l n] I. apply (uni_cols lm rm f g r l n U) in I as (_ & W & _). cbn [fst]. intros ->. unfold in_window in W. cbn in W. discriminate.
Qed.
Definition endsb (lm rm : Z) (P : str -> bool) (x r : str) : bool :=
  let l := firstn (length x - length r) x in eqb (l ++ r) x && negb (eqb r []) && in_window lm rm l r && P l.
Lemma endsb_spec lm rm P x r : endsb lm rm P x r = true <-> r <> [] /\ exists l, x = l ++ r /\ in_window lm rm l r = true /\ P l = true.
Proof.
  unfold endsb. cbv zeta. rewrite !andb_true_iff, negb_true_iff, eqb_eq, eqb_neq. split.
  - intros [[[A B] C] D]. split; [exact B|]. eexists. split; [symmetry; exact A|]. auto.
  - intros (A & l & -> & W & Q). rewrite app_length, Nat.add_sub, firstn_app, firstn_all, Nat.sub_diag. cbn [firstn]. rewrite app_nil_r. auto.
Qed.
Lemma uni_remove_cols lm rm surf nouns r cols : forall f g, NoDup (map fst cols) -> Forall (fun lc => fst lc <> []) cols -> (forall l n, In (l, n) cols -> f (l ++ r) = Some n) -> uni lm rm f g ->
  exists g', foldM (eomi_remove surf nouns r) cols g = Ok g' /\ uni lm rm (fun x => if existsb (fun lc => likeb surf nouns (fst lc) && eqb x (fst lc ++ r)) cols then None else f x) g' /\
  forall g0, reach g0 g -> reach g0 g'.
Proof.
  induction cols as [|[l n] cols IH]; intros f g N F H U; [exists g; split; [reflexivity|]; split; [exact U|auto]|].
  inversion N as [|? ? NI N']; subst. inversion F as [|? ? NL F']; subst. cbn [foldM fst] in *.
  assert (E : eomi_remove surf nouns r g (l, n) = Ok (if likeb surf nouns l then remove_eojeol g (l ++ r) n else g)).
  { unfold eomi_remove, likeb. cbn [fst snd]. destruct (mem l surf); [reflexivity|]. destruct (noun_verb_spec surf nouns l NL) as (b & -> & _). destruct b; reflexivity. }
  rewrite E. cbn [bind].
  set (g1 := if likeb surf nouns l then _ else g).
  assert (U1 : uni lm rm (fun x => if likeb surf nouns l && eqb x (l ++ r) then None else f x) g1).
  { unfold g1. destruct (likeb surf nouns l); [|exact U]. cbn [andb]. apply (uni_remove lm rm f g (l ++ r) n U (H l n (or_introl eq_refl))). }
  assert (R1 : forall g0, reach g0 g -> reach g0 g1) by (intros g0 R; unfold g1; destruct (likeb surf nouns l); [apply reach_remove|]; exact R).
  assert (HH : forall l' n', In (l', n') cols -> (if likeb surf nouns l && eqb (l' ++ r) (l ++ r) then None else f (l' ++ r)) = Some n').
  { intros l' n' I. destruct (eqb_spec (l' ++ r) (l ++ r)) as [X|_]; [|rewrite andb_false_r; apply H; right; exact I].
    apply app_inv_tail in X. subst l'. exfalso. apply NI. apply in_map_iff. exists (l, n'). auto. }
  destruct (IH _ g1 N' F' HH U1) as (g' & E' & U' & R').
  exists g'. split; [exact E'|]. split; [|intros g0 R; apply R', R1, R]. eapply uni_ext; [|exact U']. intros x. cbn [existsb fst].
  destruct (likeb surf nouns l && eqb x (l ++ r)); cbn [orb]; [|reflexivity]. destruct (existsb _ cols); reflexivity.
Qed.
Lemma uni_take_cols lm rm surf nouns r f g : uni lm rm f g -> exists g', foldM (eomi_remove surf nouns r) (get_l g r (-1)) g = Ok g' /\
  uni lm rm (fun x => if endsb lm rm (likeb surf nouns) x r then None else f x) g' /\ forall g0, reach g0 g -> reach g0 g'.
Proof.
  intros U. destruct (uni_remove_cols lm rm surf nouns r (get_l g r (-1)) f g (uni_cols_NoDup lm rm f g r U) (cols_nonempty lm rm f g r U)) as (g' & E & U' & R); [|exact U|].
  { intros l n I. apply (uni_cols lm rm f g r l n U) in I. apply I. }
  exists g'. split; [exact E|]. split; [|exact R]. eapply uni_ext; [|exact U']. intros x. cbv beta.
  destruct (endsb lm rm (likeb surf nouns) x r) eqn:B.
  - apply endsb_spec in B as (NR & l & -> & W & P). destruct (existsb _ _) eqn:X; [reflexivity|]. destruct (f (l ++ r)) as [n|] eqn:FF; [|reflexivity]. exfalso.
    assert (I : In (l, n) (get_l g r (-1))) by (apply (uni_cols lm rm f g r l n U); auto). rewrite <- not_true_iff_false in X. apply X. apply existsb_exists. exists (l, n). split; [exact I|]. cbn [fst]. rewrite P, eqb_refl. reflexivity.
  - destruct (existsb _ _) eqn:X; [|reflexivity]. apply existsb_exists in X as ([l n] & I & X). cbn [fst] in X. apply andb_true_iff in X as [P X]. apply eqb_eq in X. subst x.
    apply (uni_cols lm rm f g r l n U) in I as (NR & W & _). assert (Y : endsb lm rm (likeb surf nouns) (l ++ r) r = true) by (apply endsb_spec; split; [exact NR|]; exists l; auto). congruence.
Qed.
