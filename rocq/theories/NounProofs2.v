(** * Proofs about batch noun prediction *)
From Coq Require Import QArith Permutation Lqa Sorted.
From Verif Require Import PyBase PyDict PySort SortLemmas CountLemmas QLemmas UtilsModel UtilsSpec UtilsProofs UtilsProofs2 NounModel NounSpec NounProofs.
Open Scope Z_scope.

Lemma uni_cols lm rm f g r l n : uni lm rm f g -> (In (l, n) (get_l g r (-1)) <-> r <> [] /\ in_window lm rm l r = true /\ f (l ++ r) = Some n).
Proof.
  intros [I U]. unfold get_l. rewrite get_all, top_all_In by apply (inv_rl g I). rewrite (inv_eq g I).
  destruct r as [|x r]; [split; [discriminate|intros [H _]; congruence]|]. rewrite U. destruct (in_window lm rm l (x :: r)).
  - split; [intros E; split; [discriminate|auto]|intros (_ & _ & E); exact E].
  - split; [discriminate|intros (_ & E & _); discriminate].
Qed.
Lemma dkeys_dset {V} (d : dict str V) k v x : In x (dkeys (dset d k v)) <-> In x (dkeys d) \/ x = k.
Proof.
  rewrite dset_keys. destruct (dmem d k) eqn:M; [apply dmem_keys in M; split; [auto|intros [H | ->]; assumption]|]. rewrite in_app_iff. cbn. split; intros [H|H]; auto. destruct H as [H|[]]; auto.
Qed.
(** ** candidates *)
Definition cond_ok (condition : option str) (l : str) : bool := match condition with None => true | Some [] => true | Some p => eqb (firstn (length p) l) p end.
Lemma candidates_spec c g cond : NoDup (dkeys (noun_candidates c g cond)) /\
  forall w, In w (dkeys (noun_candidates c g cond)) <-> cond_ok cond w = true /\ exists r n, In r (pos_f c) /\ In (w, n) (get_l g r (-1)).
Proof.
  unfold noun_candidates.
  set (inner := fun (d : dict str Z) (lc : str * Z) => _).
  assert (In1 : forall L d, NoDup (dkeys d) -> NoDup (dkeys (fold_left inner L d)) /\ forall w, In w (dkeys (fold_left inner L d)) <-> In w (dkeys d) \/ cond_ok cond w = true /\ exists n, In (w, n) L).
  { induction L as [|[l n] L IH]; intros d N; [split; [exact N|]; intros w; split; [auto|intros [H|(_ & n & [])]; exact H]|].
    cbn [fold_left].
    assert (E : inner d (l, n) = if cond_ok cond l then dset d l (dgetd d l 0 + n) else d) by reflexivity.
    assert (S : NoDup (dkeys (inner d (l, n))) /\ forall w, In w (dkeys (inner d (l, n))) <-> In w (dkeys d) \/ cond_ok cond w = true /\ w = l).
    { rewrite E. destruct (cond_ok cond l) eqn:C.
      - split; [apply (dwf_dset d l _ N)|]. intros w. rewrite dkeys_dset. split; [intros [H|H]; subst; auto|intros [H|[_ H]]; auto].
      - split; [exact N|]. intros w. split; [auto|]. intros [H|[H ->]]; [exact H|congruence]. }
    destruct S as [S1 S2]. destruct (IH _ S1) as [I1 I2]. split; [exact I1|]. intros w. rewrite I2, S2. split.
    - intros [[H|[H ->]]|(H & m & I)]; [auto| |]; right; (split; [exact H|]); [exists n; left; reflexivity|exists m; right; exact I].
    - intros [H|(H & m & [I|I])]; [auto| |right; eauto]. injection I as <- _. auto. }
  assert (Out : forall R d, NoDup (dkeys d) -> let d' := fold_left (fun d r => fold_left inner (get_l g r (-1)) d) R d in
     NoDup (dkeys d') /\ forall w, In w (dkeys d') <-> In w (dkeys d) \/ cond_ok cond w = true /\ exists r n, In r R /\ In (w, n) (get_l g r (-1))).
  { induction R as [|r R IH]; intros d N; cbn [fold_left]; [split; [exact N|]; intros w; split; [auto|intros [H|(_ & r & n & [] & _)]; exact H]|].
    destruct (In1 (get_l g r (-1)) d N) as [S1 S2]. destruct (IH _ S1) as [I1 I2]. split; [exact I1|]. intros w. rewrite I2, S2. split.
    - intros [[H|(H & n & I)]|(H & r' & n & I & J)]; [auto| |]; right; (split; [exact H|]); [exists r, n|exists r', n]; (split; [|assumption]); [left; reflexivity|right; exact I].
    - intros [H|(H & r' & n & [<-|I] & J)]; [auto|left; right; eauto|right; split; [exact H|]; exists r', n; auto]. }
  destruct (Out (pos_f c) [] (NoDup_nil _)) as [A B]. split; [exact A|]. intros w. rewrite B. split; [intros [[]|H]; exact H|auto].
Qed.
Lemma candidates_uni c lm rm f g w : 0 < lm -> uni lm rm (dget f) g -> (In w (dkeys (noun_candidates c g None)) <-> noun_candidate c lm rm f w).
Proof.
  intros P U. destruct (candidates_spec c g None) as [_ H]. rewrite H. unfold noun_candidate. split.
  - intros (_ & r & n & I & J). apply (uni_cols lm rm _ g r w n U) in J as (N & W & F). exists r, n. rewrite (window_spec lm rm w r P) in W. auto.
  - intros (r & n & N & I & W & F). split; [reflexivity|]. exists r, n. split; [exact I|]. apply (uni_cols lm rm _ g r w n U). apply (window_spec lm rm w r P) in W. auto.
Qed.

(** ** the loop of batch prediction *)
Definition longer (x y : str) : Prop := (length y <= length x)%nat.
Lemma sort_len_sorted ws : StronglySorted longer (sort_len ws).
Proof.
  eapply StronglySorted_impl; [|apply (sort_sorted longer_first)].
  - intros x y H. apply Nat.leb_le, H.
  - intros x y. unfold longer_first. destruct (Nat.leb_spec (length y) (length x)); [auto|right]. apply Nat.leb_le. lia.
  - intros x y z. unfold longer_first. rewrite !Nat.leb_le. lia.
Qed.
Definition taken (lm rm : Z) (ms : Q) (S : dict str (Z * Q)) (x : str) : bool := existsb (fun p => Qle_bool ms (snd (snd p)) && beginsb lm rm x (fst p)) S.
Definition left_b (lm rm : Z) (ms : Q) (S : dict str (Z * Q)) (f : str -> option Z) (w r : str) (n : Z) : Prop :=
  in_window lm rm w r = true /\ f (w ++ r) = Some n /\
  forall p, In p S -> Qle_bool ms (snd (snd p)) = true -> (length w < length (fst p))%nat -> beginsb lm rm (w ++ r) (fst p) = false.
Lemma begins_same_length lm rm x w w' : beginsb lm rm x w = true -> beginsb lm rm x w' = true -> length w = length w' -> w = w'.
Proof.
  intros A B L. apply beginsb_spec in A as (r & -> & _), B as (r' & E & _).
  apply (f_equal (firstn (length w))) in E. rewrite firstn_app, firstn_all, Nat.sub_diag, firstn_O, app_nil_r in E. rewrite L, firstn_app, firstn_all, Nat.sub_diag, firstn_O, app_nil_r in E. exact E.
Qed.
Definition scored (c : nconf) (lm rm : Z) (ms : Q) (f : str -> option Z) (S : dict str (Z * Q)) : Prop :=
  forall w p, In (w, p) S -> forall fs, NoDup (map fst fs) -> (forall r n, In (r, n) fs <-> left_b lm rm ms S f w r n) -> p = predict_features c w fs ms.
Lemma dset_fresh {V} (d : dict str V) k v : ~ In k (dkeys d) -> dset d k v = d ++ [(k, v)].
Proof.
  induction d as [|[k0 v0] d IH]; intros N; [reflexivity|]. cbn [dset]. destruct (eqb_spec k0 k) as [->|n]; [exfalso; apply N; left; reflexivity|].
  cbn [app]. f_equal. apply IH. intros I. apply N. right. exact I.
Qed.
Lemma NoDup_pairs (fs : list (str * Z)) : NoDup (map fst fs) -> NoDup fs.
Proof. apply NoDup_map_inv. Qed.
Lemma batch_loop c lm rm ms f todo : forall S g, NoDup (dkeys S ++ todo) -> StronglySorted longer (dkeys S ++ todo) ->
  uni lm rm (fun x => if taken lm rm ms S x then None else f x) g -> scored c lm rm ms f S ->
  let st := fold_left (batch_step c ms) todo (g, S) in
  dkeys (snd st) = dkeys S ++ todo /\ uni lm rm (fun x => if taken lm rm ms (snd st) x then None else f x) (fst st) /\ scored c lm rm ms f (snd st) /\ origin (fst st) = origin g.
Proof.
  induction todo as [|w todo IH]; intros S g ND SS U SC; cbn [fold_left].
  - rewrite app_nil_r. auto.
  - set (p := noun_predict c g w ms).
    assert (NI : ~ In w (dkeys S)) by (intros I; apply NoDup_remove_2 in ND; apply ND, in_or_app; left; exact I).
    set (S1 := S ++ [(w, p)]).
    assert (K : dkeys S1 ++ todo = dkeys S ++ w :: todo) by (unfold S1, dkeys; rewrite map_app, <- app_assoc; reflexivity).
    assert (LE : forall q, In q S -> (length w <= length (fst q))%nat).
    { intros q I. apply SS_app_inv in SS as (_ & _ & X). apply (X (fst q) w); [apply in_map, I|left; reflexivity]. }
    assert (T1 : forall x, taken lm rm ms S1 x = taken lm rm ms S x || (Qle_bool ms (snd p) && beginsb lm rm x w)).
    { intros x. unfold taken, S1. rewrite existsb_app. cbn [existsb fst snd]. rewrite orb_false_r. reflexivity. }
    set (g1 := if Qle_bool ms (snd p) then remove_rows g w (get_r g w (-1)) else g).
    assert (U1 : uni lm rm (fun x => if taken lm rm ms S1 x then None else f x) g1 /\ origin g1 = origin g).
    { unfold g1. destruct (Qle_bool ms (snd p)) eqn:A.
      - destruct (uni_take lm rm _ g w U) as [X O]. split; [|exact O]. eapply uni_ext; [|exact X]. intros x. cbv beta. rewrite T1. cbn [andb].
        destruct (taken lm rm ms S x), (beginsb lm rm x w); reflexivity.
      - split; [|reflexivity]. eapply uni_ext; [|exact U]. intros x. cbv beta. rewrite T1. cbn [andb]. rewrite orb_false_r. reflexivity. }
    destruct U1 as [U1 O1].
    assert (SC1 : scored c lm rm ms f S1).
    { intros w' p' I fs N H. unfold S1 in I. apply in_app_or in I as [I|[I|[]]].
      - apply (SC w' p' I fs N). intros r n. rewrite H. unfold left_b, S1. split; intros (A & B & C); (split; [exact A|]; split; [exact B|]); intros q Iq.
        + apply C, in_or_app. left. exact Iq.
        + apply in_app_or in Iq as [Iq|[<-|[]]]; [apply C, Iq|]. cbn [fst snd]. intros _ L. specialize (LE _ I). cbn [fst] in LE. lia.
      - injection I as <- <-. unfold p, noun_predict. destruct (uni_rows lm rm _ g w U) as [NR R].
        apply predict_ext; [apply same_features_refl|]. apply NoDup_Permutation; [apply NoDup_pairs, NR|apply NoDup_pairs, N|].
        intros [r n]. rewrite R, H. unfold left_b. split.
        + intros [W F]. destruct (taken lm rm ms S (w ++ r)) eqn:T; [discriminate|]. split; [exact W|]. split; [exact F|].
          intros q Iq A L. unfold S1 in Iq. apply in_app_or in Iq as [Iq|[<-|[]]]; [|cbn [fst] in L; lia].
          destruct (beginsb lm rm (w ++ r) (fst q)) eqn:B; [|reflexivity]. exfalso. rewrite <- not_true_iff_false in T. apply T. apply existsb_exists. exists q. rewrite A, B. auto.
        + intros (W & F & X). split; [exact W|]. destruct (taken lm rm ms S (w ++ r)) eqn:T; [|exact F]. exfalso.
          apply existsb_exists in T as (q & Iq & T). apply andb_true_iff in T as [A B]. destruct (Nat.eq_dec (length w) (length (fst q))) as [E|E].
          * assert (fst q = w); [|subst w; apply NI, in_map, Iq]. symmetry. eapply begins_same_length; [apply beginsb_spec; exists r; split; [reflexivity|exact W]|exact B|exact E].
          * specialize (LE q Iq). rewrite (X q) in B; [discriminate|apply in_or_app; left; exact Iq|exact A|lia]. }
    rewrite <- K in ND, SS. 
    assert (ST : batch_step c ms (g, S) w = (g1, S1)) by (unfold batch_step; cbn [fst snd]; fold p; rewrite (dset_fresh S w p NI); reflexivity).
    rewrite ST. specialize (IH S1 g1 ND SS U1 SC1). cbv zeta in IH. rewrite K, O1 in IH. exact IH.
Qed.
Lemma trained_uni ec lm rm : NoDup (map fst (ec_counter ec)) -> 1 < lm -> 0 < rm ->
  exists g, train_counter ec lm rm = Ok g /\ uni lm rm (dget (ec_counter ec)) g /\ origin g = Some (lr g) /\ rl g = make_rl (lr g).
Proof.
  intros N A B. destruct (to_lrgraph_ok ec lm rm false A B) as (g & E & L & O & R & _). exists g. split; [exact E|]. split; [|auto]. split.
  - unfold to_lrgraph in E. destruct (new_Inv _ _ _ _ _ (proj1 (to_lrgraph_wf lm rm (ec_counter ec))) E) as (I & _). exact I.
  - intros l r. rewrite L. apply to_lrgraph_pget, N.
Qed.
Lemma beginsb_begins lm rm x w : 0 < lm -> beginsb lm rm x w = true <-> begins_with lm rm x w.
Proof. intros P. rewrite beginsb_spec. unfold begins_with. split; intros (r & E & W); exists r; (split; [exact E|]); apply (window_spec lm rm w r P), W. Qed.
Lemma taken_spec lm rm ms S x : 0 < lm -> NoDup (dkeys S) -> (taken lm rm ms S x = true <-> exists w, accepted S ms w /\ begins_with lm rm x w).
Proof.
  intros P N. unfold taken. rewrite existsb_exists. split.
  - intros ([w p] & I & H). apply andb_true_iff in H as [A B]. cbn [fst snd] in *. exists w. split; [|apply beginsb_begins; assumption].
    exists p. split; [apply In_dget; assumption|apply Qle_bool_iff, A].
  - intros (w & (p & D & A) & B). exists (w, p). split; [apply dget_In, D|]. cbn [fst snd]. apply andb_true_iff. split; [apply Qle_bool_iff, A|apply beginsb_begins; assumption].
Qed.
Lemma left_spec lm rm ms S f w r n : 0 < lm -> NoDup (dkeys S) -> (left_b lm rm ms S (dget f) w r n <-> left_for S ms lm rm f w r n).
Proof.
  intros P N. unfold left_b, left_for. rewrite (window_spec lm rm w r P). split; intros (A & B & C); (split; [exact A|]; split; [exact B|]).
  - intros w' (p & D & Q) L H. apply (beginsb_begins lm rm _ _ P) in H. specialize (C (w', p) (dget_In _ _ _ D)). cbn [fst snd] in C. rewrite C in H; [discriminate|apply Qle_bool_iff, Q|exact L].
  - intros [w' p] I Q L. cbn [fst snd] in *. destruct (beginsb lm rm (w ++ r) w') eqn:E; [|reflexivity]. exfalso. apply (C w'); [exists p; split; [apply In_dget; assumption|apply Qle_bool_iff, Q]|exact L|apply beginsb_begins; assumption].
Qed.
(** everything about batch prediction, with the graph of a counter *)
Lemma batch_all c lm rm f g ms : 0 < lm -> uni lm rm (dget f) g -> let st := batch_predict c g (dkeys (noun_candidates c g None)) ms in
  NoDup (dkeys (snd st)) /\ (forall w, In w (dkeys (snd st)) <-> noun_candidate c lm rm f w) /\
  (forall w p fs, dget (snd st) w = Some p -> NoDup (map fst fs) -> (forall r n, In (r, n) fs <-> left_for (snd st) ms lm rm f w r n) -> p = predict_features c w fs ms) /\
  uni lm rm (fun x => if taken lm rm ms (snd st) x then None else dget f x) (fst st) /\ origin (fst st) = origin g /\
  exists ws, dkeys (snd st) = sort_len ws /\ ws = dkeys (noun_candidates c g None).
Proof.
  intros P U st. set (ws := dkeys (noun_candidates c g None)) in *.
  assert (NW : NoDup (sort_len ws)) by (eapply Permutation_NoDup; [apply Permutation_sym, sort_perm|apply (candidates_spec c g None)]).
  assert (X : dkeys (snd st) = sort_len ws /\ uni lm rm (fun x => if taken lm rm ms (snd st) x then None else dget f x) (fst st) /\ scored c lm rm ms (dget f) (snd st) /\ origin (fst st) = origin g).
  { apply (batch_loop c lm rm ms (dget f) (sort_len ws) [] g); [exact NW|apply sort_len_sorted|eapply uni_ext; [|exact U]; reflexivity|intros w p []]. }
  destruct X as (K & U' & SC & O). clearbody st.
  assert (ND : NoDup (dkeys (snd st))) by (rewrite K; exact NW).
  split; [exact ND|]. split; [|split; [|split; [exact U'|split; [exact O|exists ws; auto]]]].
  - intros w. rewrite K. unfold sort_len. rewrite sort_In. unfold ws. apply candidates_uni; assumption.
  - intros w p fs D N H. apply (SC w p (dget_In _ _ _ D) fs N). intros r n. rewrite H. symmetry. apply left_spec; assumption.
Qed.
(** every row exists as a list *)
Lemma left_rows lm rm f g S ms w : 0 < lm -> uni lm rm (dget f) g -> NoDup (dkeys S) ->
  exists fs, NoDup (map fst fs) /\ forall r n, In (r, n) fs <-> left_for S ms lm rm f w r n.
Proof.
  intros P U N. destruct (uni_rows lm rm _ g w U) as [NR R].
  exists (filter (fun rc => negb (existsb (fun p => Qle_bool ms (snd (snd p)) && (length w <? length (fst p))%nat && beginsb lm rm (w ++ fst rc) (fst p)) S)) (get_r g w (-1))).
  split; [apply (NoDup_filter_map (K:=str)); exact NR|]. intros r n. rewrite filter_In, R, <- left_spec by assumption. unfold left_b. cbn [fst].
  rewrite negb_true_iff, <- not_true_iff_false, existsb_exists. split.
  - intros [[A B] C]. split; [exact A|]. split; [exact B|]. intros p I Q L. destruct (beginsb lm rm (w ++ r) (fst p)) eqn:E; [|reflexivity]. exfalso. apply C. exists p. split; [exact I|].
    rewrite Q. cbn [andb]. rewrite E, andb_true_r. apply Nat.ltb_lt, L.
  - intros (A & B & C). split; [auto|]. intros (p & I & H). rewrite !andb_true_iff in H. destruct H as [[Q L] E]. rewrite (C p I Q) in E; [discriminate|apply Nat.ltb_lt, L].
Qed.
