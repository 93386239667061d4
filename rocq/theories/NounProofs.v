(** * Proofs about noun prediction (LRNounExtractor_v2.predict and batch prediction) *)
From Coq Require Import QArith Permutation Lqa Sorted.
From Verif Require Import PyBase PyDict PySort SortLemmas CountLemmas QLemmas UtilsModel UtilsSpec UtilsProofs UtilsProofs2 NounModel NounSpec.
Open Scope Z_scope.

Lemma exist_longer_spec feats w r : exist_longer_f feats w r = true <-> has_longer feats w r.
Proof.
  unfold exist_longer_f, has_longer. rewrite existsb_exists. split.
  - intros (e & I & M). apply in_rev in I. apply in_seq in I. apply mem_In in M. exists (firstn e w), (skipn e w). split; [symmetry; apply firstn_skipn|]. split; [|exact M].
    intros E. apply (f_equal (@length _)) in E. rewrite skipn_length in E. cbn in E. lia.
  - intros (a & s & -> & N & I). exists (length a). split.
    + apply -> in_rev. apply in_seq. rewrite app_length. destruct s; [congruence|]. cbn. lia.
    + apply mem_In. rewrite skipn_app, skipn_all, Nat.sub_diag. exact I.
Qed.
Lemma exist_longer_false feats w r : exist_longer_f feats w r = false <-> ~ has_longer feats w r.
Proof. rewrite <- exist_longer_spec. destruct (exist_longer_f feats w r); split; congruence. Qed.

(** ** the class of a right part *)
Definition cls_b (c : nconf) (w r : str) : cls :=
  match r with
  | [] => End
  | _ => if exist_longer_f (pos_f c) w r then Skip else if exist_longer_f (neg_f c) w r then Skip else
         if mem r (common_f c) then Common else if mem r (pos_f c) then Pos else if mem r (neg_f c) then Neg else Unk
  end.
Lemma cls_b_spec c w r k : class_of c w r k <-> cls_b c w r = k.
Proof.
  assert (A : forall r, class_of c w r (cls_b c w r)).
  { clear. intros [|x r]; [constructor|]. assert (N : x :: r <> []) by discriminate. unfold cls_b.
    destruct (exist_longer_f (pos_f c) w (x :: r)) eqn:E1; [apply class_skip; [exact N|left; apply exist_longer_spec, E1]|].
    destruct (exist_longer_f (neg_f c) w (x :: r)) eqn:E2; [apply class_skip; [exact N|right; apply exist_longer_spec, E2]|].
    apply exist_longer_false in E1, E2.
    destruct (mem (x :: r) (common_f c)) eqn:M1; [apply mem_In in M1; apply class_common; assumption|apply mem_In_false in M1].
    destruct (mem (x :: r) (pos_f c)) eqn:M2; [apply mem_In in M2; apply class_pos; assumption|apply mem_In_false in M2].
    destruct (mem (x :: r) (neg_f c)) eqn:M3; [apply mem_In in M3; apply class_neg; assumption|apply mem_In_false in M3; apply class_unk; assumption]. }
  split; [|intros <-; apply A].
  intros H. specialize (A r). revert A. generalize (cls_b c w r). intros k' A.
  inversion H; subst; inversion A; subst; tauto.
Qed.

Definition wsum (c : nconf) (w : str) (k : cls) (fs : list (str * Z)) : Z := Zsum (fun rc => if cls_eqb (cls_b c w (fst rc)) k then snd rc else 0) fs.
Lemma weight_wsum c w fs ks k : Forall2 (class_of c w) (map fst fs) ks -> weight ks fs k = wsum c w k fs.
Proof.
  revert ks. induction fs as [|[r n] fs IH]; intros ks F; inversion F as [|? k0 ? ks' H F']; subst; [reflexivity|].
  unfold weight, wsum in *. cbn [combine map fold_right Zsum fst snd]. rewrite (IH _ F'). apply cls_b_spec in H. rewrite H. reflexivity.
Qed.
Lemma classes_exist c w fs : Forall2 (class_of c w) (map fst fs) (map (fun rc : str * Z => cls_b c w (fst rc)) fs).
Proof. induction fs as [|[r n] fs IH]; [constructor|]. cbn [map fst]. constructor; [apply cls_b_spec; reflexivity|exact IH]. Qed.
Lemma wsum_cons c w k r n fs : wsum c w k ((r, n) :: fs) = (if cls_eqb (cls_b c w r) k then n else 0) + wsum c w k fs.
Proof. reflexivity. Qed.
Lemma predict5_eq c w fs : predict5 c w fs = mkFive (wsum c w Pos fs) (wsum c w Common fs) (wsum c w Neg fs) (wsum c w Unk fs) (wsum c w End fs).
Proof.
  assert (G : forall fs a, fold_left (predict_step c w) fs a =
     mkFive (f_pos a + wsum c w Pos fs) (f_common a + wsum c w Common fs) (f_neg a + wsum c w Neg fs) (f_unk a + wsum c w Unk fs) (f_end a + wsum c w End fs)).
  { clear. induction fs as [|[r n] fs IH]; intros a; [destruct a; cbn; f_equal; lia|].
    cbn [fold_left]. rewrite IH, !wsum_cons. clear IH. generalize (wsum c w Pos fs) (wsum c w Common fs) (wsum c w Neg fs) (wsum c w Unk fs) (wsum c w End fs).
    intros z1 z2 z3 z4 z5. unfold predict_step, cls_b. cbn [fst snd].
    destruct r as [|x r]; [cbn [cls_eqb f_pos f_common f_neg f_unk f_end]; f_equal; lia|].
    destruct (exist_longer_f (pos_f c) w (x :: r)); [cbn [cls_eqb]; f_equal; lia|].
    destruct (exist_longer_f (neg_f c) w (x :: r)); [cbn [cls_eqb]; f_equal; lia|].
    destruct (mem (x :: r) (common_f c)); [cbn [cls_eqb f_pos f_common f_neg f_unk f_end]; f_equal; lia|].
    destruct (mem (x :: r) (pos_f c)); [cbn [cls_eqb f_pos f_common f_neg f_unk f_end]; f_equal; lia|].
    destruct (mem (x :: r) (neg_f c)); cbn [cls_eqb f_pos f_common f_neg f_unk f_end]; f_equal; lia. }
  unfold predict5. rewrite G. reflexivity.
Qed.
Lemma how_many_filter {A} (P : A -> Prop) (b : A -> bool) l : (forall x, b x = true <-> P x) -> how_many P l (length (filter b l)).
Proof.
  intros H. induction l as [|x l IH]; [constructor|]. cbn [filter]. destruct (b x) eqn:E; cbn [length]; constructor; try exact IH; [apply H, E|].
  intros K. apply H in K. congruence.
Qed.
Lemma how_many_fun {A} (P : A -> Prop) l n m : how_many P l n -> how_many P l m -> n = m.
Proof.
  intros H. revert m. induction H as [|x l n Px H IH|x l n Px H IH]; intros m K; inversion K; subst; try contradiction; auto.
Qed.
Definition informative_b (c : nconf) (w r : str) : bool :=
  (mem r (pos_f c) && negb (exist_longer_f (pos_f c) w r)) || (mem r (neg_f c) && negb (exist_longer_f (neg_f c) w r)).
Lemma informative_spec c w r : informative_b c w r = true <-> informative c w r.
Proof.
  unfold informative_b, informative. rewrite orb_true_iff, !andb_true_iff, !negb_true_iff, !mem_In, !exist_longer_false. reflexivity.
Qed.

(** ** first characters *)
Lemma first_chars_spec c w fs : NoDup (first_chars c w fs) /\ forall x, In x (first_chars c w fs) <-> first_char_of c w fs x.
Proof.
  unfold first_chars.
  set (step := fun (s : list char) (rc : str * Z) => _).
  assert (G : forall fs s, NoDup s -> NoDup (fold_left step fs s) /\ forall x, In x (fold_left step fs s) <-> In x s \/ first_char_of c w fs x).
  { clear fs. induction fs as [|[r n] fs IH]; intros s N.
    - split; [exact N|]. intros x. split; [auto|]. intros [H|(r & n & [] & _)]. exact H.
    - cbn [fold_left].
      assert (S : NoDup (step s (r, n)) /\ forall x, In x (step s (r, n)) <-> In x s \/ first_char_of c w [(r, n)] x).
      { unfold step. cbn [fst snd]. destruct r as [|y r].
        - split; [exact N|]. intros x. split; [auto|]. intros [H|(r & m & [H|[]] & _)]; [exact H|discriminate].
        - assert (add : NoDup (if mem y s then s else s ++ [y]) /\ forall x, In x (if mem y s then s else s ++ [y]) <-> In x s \/ x = y).
          { destruct (mem y s) eqn:M.
            - split; [exact N|]. intros x. apply mem_In in M. split; [auto|]. intros [H | ->]; assumption.
            - apply mem_In_false in M. split; [apply NoDup_app_intro; [exact N|repeat constructor; auto|intros z I [<-|[]]; contradiction]|].
              intros x. rewrite in_app_iff. cbn. split; intros [H|H]; auto. destruct H as [H|[]]; auto. }
          assert (E : forall x, first_char_of c w [(y :: r, n)] x <-> x = y /\ (In (y :: r) (pos_f c) \/ In (y :: r) (common_f c) -> ~ has_longer (pos_f c) w (y :: r))).
          { intros x. unfold first_char_of. split.
            - intros (r' & m & [I|[]] & H). injection I as <- <- <-. auto.
            - intros [-> H]. exists r, n. split; [left; reflexivity|exact H]. }
          destruct (mem (y :: r) (pos_f c) || mem (y :: r) (common_f c)) eqn:K.
          + rewrite orb_true_iff, !mem_In in K. destruct (exist_longer_f (pos_f c) w (y :: r)) eqn:L.
            * split; [exact N|]. intros x. rewrite E. apply exist_longer_spec in L. split; [auto|]. intros [H|[_ H]]; [exact H|]. destruct (H K L).
            * apply exist_longer_false in L. destruct add as [A1 A2]. split; [exact A1|]. intros x. rewrite A2, E. tauto.
          + rewrite orb_false_iff, !mem_In_false in K. destruct add as [A1 A2]. split; [exact A1|]. intros x. rewrite A2, E. tauto. }
      destruct S as [S1 S2]. destruct (IH _ S1) as [I1 I2]. split; [exact I1|]. intros x. rewrite I2, S2. unfold first_char_of. split.
      + intros [[H|(r' & m & [H|[]] & K)]|(r' & m & H & K)]; [auto| |]; right; exists r', m; (split; [|exact K]); [left; exact H|right; exact H].
      + intros [H|(r' & m & [H|H] & K)]; [auto| |]; [left; right|right]; exists r', m; (split; [|exact K]); [left; exact H|exact H]. }
  destruct (G fs [] (NoDup_nil _)) as [A B]. split; [exact A|]. intros x. rewrite B. split; [intros [[]|H]; exact H|auto].
Qed.
Lemma NoDup_same_length {A} (l l' : list A) : NoDup l -> NoDup l' -> (forall x, In x l <-> In x l') -> length l = length l'.
Proof. intros N N' H. apply Nat.le_antisymm; apply NoDup_incl_length; try assumption; intros x; apply H. Qed.

(** ** predict depends only on the set of right parts and on the feature sets *)
Lemma predict_ext c c' w fs fs' ms : same_features c c' -> Permutation fs fs' -> predict_features c w fs ms = predict_features c' w fs' ms.
Proof.
  intros (P & N & C & M & X) Pm.
  assert (L : forall (a b : list str), (forall f, In f a <-> In f b) -> forall r, exist_longer_f a w r = exist_longer_f b w r).
  { intros a b H r. apply eq_true_iff_eq. rewrite !exist_longer_spec. unfold has_longer. split; intros (x & s & E & NE & I); exists x, s; repeat split; auto; apply H, I. }
  assert (MM : forall (a b : list str), (forall f, In f a <-> In f b) -> forall r, mem r a = mem r b).
  { intros a b H r. apply eq_true_iff_eq. rewrite !mem_In. apply H. }
  assert (K : forall r, cls_b c w r = cls_b c' w r).
  { intros r. unfold cls_b. rewrite (L _ _ P), (L _ _ N), (MM _ _ P), (MM _ _ N), (MM _ _ C). reflexivity. }
  assert (W : forall k, wsum c w k fs = wsum c' w k fs').
  { intros k. unfold wsum. rewrite (Zsum_perm _ _ _ Pm). apply Zsum_ext. intros x _. rewrite K. reflexivity. }
  assert (F : length (nonempty_features c w fs) = length (nonempty_features c' w fs')).
  { apply (how_many_fun (informative c w) (map fst fs)).
    - apply (how_many_filter _ (informative_b c w)), informative_spec.
    - assert (E : length (nonempty_features c' w fs') = length (filter (informative_b c w) (map fst fs))).
      { unfold nonempty_features. rewrite (filter_ext _ (informative_b c w)).
        - apply Permutation_length. apply Permutation_sym. assert (Q : Permutation (map fst fs) (map fst fs')) by (apply Permutation_map, Pm). clear -Q.
          induction Q; cbn [filter]; try destruct (informative_b c w x); try destruct (informative_b c w y); try constructor; auto. eapply perm_trans; eassumption.
        - intros r. unfold informative_b. rewrite <- (L _ _ P), <- (L _ _ N), <- (MM _ _ P), <- (MM _ _ N). reflexivity. }
      rewrite E. apply how_many_filter, informative_spec. }
  assert (G : length (first_chars c w fs) = length (first_chars c' w fs')).
  { destruct (first_chars_spec c w fs) as [A1 A2], (first_chars_spec c' w fs') as [B1 B2]. apply NoDup_same_length; [assumption..|].
    intros x. rewrite A2, B2. unfold first_char_of. split; intros (r & n & I & H); exists r, n.
    - split; [eapply Permutation_in; eassumption|]. intros J Z. apply H; [destruct J as [J|J]; [left; apply P, J|right; apply C, J]|]. apply exist_longer_spec. rewrite (L _ _ P). apply exist_longer_spec, Z.
    - split; [eapply Permutation_in; [apply Permutation_sym, Pm|exact I]|]. intros J Z. apply H; [destruct J as [J|J]; [left; apply P, J|right; apply C, J]|]. apply exist_longer_spec. rewrite <- (L _ _ P). apply exist_longer_spec, Z. }
  unfold predict_features. rewrite !predict5_eq. cbn [f_pos f_common f_neg f_unk f_end]. rewrite !W, F, G, M, X. reflexivity.
Qed.
Lemma same_features_refl c : same_features c c.
Proof. unfold same_features. repeat split; auto. Qed.

(** ** graphs in which every split of an eojeol has the same count *)
Definition uni (lm rm : Z) (f : str -> option Z) (g : lrg) : Prop :=
  Inv g /\ forall l r, pget (lr g) l r = if in_window lm rm l r then f (l ++ r) else None.
Lemma uni_ext lm rm f f' g : (forall e, f e = f' e) -> uni lm rm f g -> uni lm rm f' g.
Proof. intros H [I U]. split; [exact I|]. intros l r. rewrite U, H. reflexivity. Qed.
Lemma window_spec lm rm l r : 0 < lm -> in_window lm rm l r = true <-> in_limits lm rm l r.
Proof.
  intros P. unfold in_window, in_limits. rewrite !andb_true_iff, !Nat.leb_le, Z.leb_le. split.
  - intros [[A B] C]. split; [destruct l; [cbn in A; lia|discriminate]|]. split; lia.
  - intros (A & B & C). split; [split|exact C]; [destruct l; [congruence|cbn; lia]|lia].
Qed.
Lemma get_all d k : top_items d k (-1) = top_items d k 0.
Proof. reflexivity. Qed.
Lemma top_NoDup d k : is_graph d -> NoDup (map fst (top_items d k 0)).
Proof.
  intros G. unfold top_items. cbn [Z.gtb Z.compare]. eapply Permutation_NoDup; [apply Permutation_map, Permutation_sym, sort_perm|].
  destruct (dget d k) as [x|] eqn:E; [exact (gwf_inner _ _ _ G E)|constructor].
Qed.
Lemma uni_rows lm rm f g w : uni lm rm f g -> NoDup (map fst (get_r g w (-1))) /\
  forall r n, In (r, n) (get_r g w (-1)) <-> in_window lm rm w r = true /\ f (w ++ r) = Some n.
Proof.
  intros [I U]. unfold get_r. rewrite get_all. split; [apply top_NoDup, (inv_lr g I)|]. intros r n. rewrite top_all_In by apply (inv_lr g I). rewrite U.
  destruct (in_window lm rm w r); split; try tauto; try discriminate. intros [H _]. discriminate.
Qed.
Lemma uni_remove lm rm f g e n : uni lm rm f g -> f e = Some n -> uni lm rm (fun x => if eqb x e then None else f x) (remove_eojeol g e n) /\ origin (remove_eojeol g e n) = origin g.
Proof.
  intros [I U] E. destruct (remove_splits_spec e n (seq 1 (length e)) (seq_NoDup _ _) (seq_le _) g I) as (I' & O & P).
  fold (remove_eojeol g e n) in I', O, P. split; [|exact O]. split; [exact I'|]. intros l r. rewrite P, U.
  destruct (in_window lm rm l r) eqn:W.
  - destruct (is_split e (seq 1 (length e)) l r) eqn:S.
    + apply is_split_seq in S as [_ <-]. rewrite eqb_refl, E. cbn [dec]. destruct (Z.leb_spec (n - n) 0); [reflexivity|lia].
    + destruct (eqb_spec (l ++ r) e) as [<-|_]; [|reflexivity]. exfalso. assert (X : is_split (l ++ r) (seq 1 (length (l ++ r))) l r = true); [|congruence].
      apply is_split_seq. split; [|reflexivity]. unfold in_window in W. destruct l; [cbn in W; discriminate|discriminate].
  - destruct (is_split e _ l r); reflexivity.
Qed.
Lemma uni_remove_rows lm rm w rows : forall f g, NoDup (map fst rows) -> (forall r n, In (r, n) rows -> f (w ++ r) = Some n) -> uni lm rm f g ->
  uni lm rm (fun x => if existsb (fun rc => eqb x (w ++ fst rc)) rows then None else f x) (remove_rows g w rows) /\ origin (remove_rows g w rows) = origin g.
Proof.
  induction rows as [|[r n] rows IH]; intros f g N H U; [split; [exact U|reflexivity]|].
  inversion N as [|? ? NI N']; subst. unfold remove_rows. cbn [fold_left fst snd].
  destruct (uni_remove lm rm f g (w ++ r) n U (H r n (or_introl eq_refl))) as [U1 O1].
  assert (HH : forall r' n', In (r', n') rows -> (if eqb (w ++ r') (w ++ r) then None else f (w ++ r')) = Some n').
  { intros r' n' I. destruct (eqb_spec (w ++ r') (w ++ r)) as [E|_]; [|apply H; right; exact I].
    apply app_inv_head in E. subst r'. exfalso. apply NI. apply in_map_iff. exists (r, n'). auto. }
  destruct (IH _ _ N' HH U1) as [U2 O2].
  unfold remove_rows in O2, U2. split; [|rewrite O2; exact O1]. eapply uni_ext; [|exact U2]. intros x. cbn [existsb fst].
    destruct (eqb x (w ++ r)); cbn [orb]; [|reflexivity]. destruct (existsb _ rows); reflexivity.
Qed.
(** the eojeol x begins with w within the window *)
Definition beginsb (lm rm : Z) (x w : str) : bool := eqb (firstn (length w) x) w && in_window lm rm w (skipn (length w) x).
Lemma beginsb_spec lm rm x w : beginsb lm rm x w = true <-> exists r, x = w ++ r /\ in_window lm rm w r = true.
Proof.
  unfold beginsb. rewrite andb_true_iff, eqb_eq. split.
  - intros [E W]. exists (skipn (length w) x). split; [rewrite <- E at 1; symmetry; apply firstn_skipn|exact W].
  - intros (r & -> & W). rewrite firstn_app, firstn_all, Nat.sub_diag, firstn_O, app_nil_r, skipn_app, skipn_all, Nat.sub_diag. split; [reflexivity|exact W].
Qed.
Lemma uni_take lm rm f g w : uni lm rm f g ->
  uni lm rm (fun x => if beginsb lm rm x w then None else f x) (remove_rows g w (get_r g w (-1))) /\ origin (remove_rows g w (get_r g w (-1))) = origin g.
Proof.
  intros U. destruct (uni_rows lm rm f g w U) as [N R]. assert (HR : forall r n, In (r, n) (get_r g w (-1)) -> f (w ++ r) = Some n) by (intros r n I; apply R in I; apply I).
  destruct (uni_remove_rows lm rm w _ f g N HR U) as [U1 O1]. split; [|exact O1]. eapply uni_ext; [|exact U1]. intros x. cbv beta.
    destruct (beginsb lm rm x w) eqn:B.
    + apply beginsb_spec in B as (r & -> & W). destruct (existsb _ _) eqn:E; [reflexivity|]. destruct (f (w ++ r)) as [n|] eqn:F; [|reflexivity]. exfalso.
      assert (I : In (r, n) (get_r g w (-1))) by (apply R; auto). rewrite <- not_true_iff_false in E. apply E. apply existsb_exists. exists (r, n). split; [exact I|apply eqb_refl].
    + destruct (existsb _ _) eqn:E; [|reflexivity]. apply existsb_exists in E as ([r n] & I & E). apply eqb_eq in E. cbn [fst] in E. subst x. apply R in I as [W _].
      assert (X : beginsb lm rm (w ++ r) w = true) by (apply beginsb_spec; eauto). congruence.
Qed.
