(** * C70: extract_domain_pos_features finds exactly the domain josa *)
From Coq Require Import QArith Reals Permutation Lra Lqa Sorted.
From Verif Require Import PyBase PyDict PySort SortLemmas CountLemmas QLemmas UtilsModel UtilsSpec UtilsProofs NounModel NounSpec NounProofs NounProofs2 WordModel WordSpec WordProofs4 JosaModel JosaSpec VectorizerSpec PredProofs4 PredProofs5 JosaProofs.
Open Scope Z_scope.

(** The extraction never fails; the result holds exactly the strings that pass the test, where "josa" means a known feature or a member of the result itself. *)
Theorem C70_exact : forall ec lm rm g th scores known ignore, NoDup (map fst (ec_counter ec)) -> (forall e n, dget (ec_counter ec) e = Some n -> 0 < n) -> 1 < lm -> 0 < rm -> to_lrgraph ec lm rm false = Ok g ->
  NoDup (dkeys scores) -> 0 < j_pos_freq th ->
  exists d, josa_extract th g scores known ignore = Ok d /\ NoDup (dkeys d) /\
  forall r v, dget d r = Some v <-> josa_feature th scores lm rm (ec_counter ec) known ignore (fun x => In x known \/ dget d x <> None) r v.
Proof. exact josa_extract_spec. Qed.
Print Assumptions C70_exact.

(** This fixed-point equation has only one solution: a candidate is tested with the shorter josa only. *)
Theorem C70_unique : forall th scores lm rm f known ignore (d d' : dict str (Q * Z)),
  (forall r v, dget d r = Some v <-> josa_feature th scores lm rm f known ignore (fun x => In x known \/ dget d x <> None) r v) ->
  (forall r v, dget d' r = Some v <-> josa_feature th scores lm rm f known ignore (fun x => In x known \/ dget d' x <> None) r v) ->
  forall r, dget d r = dget d' r.
Proof.
  intros th scores lm rm f known ignore d d' H H' r. remember (length r) as k eqn:K. revert r K. induction k as [k IH] using lt_wf_ind. intros r ->.
  assert (J : forall x, (length x < length r)%nat -> (In x known \/ dget d x <> None <-> In x known \/ dget d' x <> None)) by (intros x X; rewrite (IH (length x) X x eq_refl); reflexivity).
  assert (J' : forall x, (length x < length r)%nat -> (In x known \/ dget d' x <> None <-> In x known \/ dget d x <> None)) by (intros x X; symmetry; apply J, X).
  assert (A : forall v, dget d r = Some v <-> dget d' r = Some v) by (intros v; rewrite H, H'; split; apply josa_feature_ext; assumption).
  destruct (dget d r) as [v|]; [symmetry; apply A; reflexivity|]. destruct (dget d' r) as [v|]; [|reflexivity]. apply A. reflexivity.
Qed.
Print Assumptions C70_unique.

(** Hence the order in which Python iterates over the sets of nouns and candidates, and the order of the given collections, do not matter. *)
Theorem C70_order : forall ec lm rm g th scores scores' known known' ignore ignore' d d', NoDup (map fst (ec_counter ec)) -> (forall e n, dget (ec_counter ec) e = Some n -> 0 < n) -> 1 < lm -> 0 < rm -> to_lrgraph ec lm rm false = Ok g ->
  NoDup (dkeys scores) -> 0 < j_pos_freq th -> Permutation scores scores' -> (forall x, In x known <-> In x known') -> (forall x, In x ignore <-> In x ignore') ->
  josa_extract th g scores known ignore = Ok d -> josa_extract th g scores' known' ignore' = Ok d' -> forall r, dget d r = dget d' r.
Proof.
  intros ec lm rm g th scores scores' known known' ignore ignore' d d' N POS L R E NS PF PS KK II X X'.
  assert (NS' : NoDup (dkeys scores')) by (eapply Permutation_NoDup; [apply Permutation_map, PS|exact NS]).
  destruct (C70_exact ec lm rm g th scores known ignore N POS L R E NS PF) as (d0 & X0 & _ & H). rewrite X in X0. injection X0 as <-.
  destruct (C70_exact ec lm rm g th scores' known' ignore' N POS L R E NS' PF) as (d0 & X0 & _ & H'). rewrite X' in X0. injection X0 as <-.
  apply (C70_unique th scores lm rm (ec_counter ec) known ignore d d' H). intros r v. rewrite H'.
  assert (DG : forall w, dget scores w = dget scores' w).
  { intros w. destruct (dget scores w) as [a|] eqn:D.
    - symmetry. apply In_dget; [exact NS'|]. apply (Permutation_in _ PS), dget_In, D.
    - destruct (dget scores' w) as [a|] eqn:D'; [|reflexivity]. apply dget_In in D'. apply (Permutation_in _ (Permutation_sym PS)), (In_dget _ _ _ NS) in D'. congruence. }
  assert (GN : forall w, good_noun th scores w <-> good_noun th scores' w) by (intros w; unfold good_noun; rewrite DG; reflexivity).
  unfold josa_feature. rewrite <- GN, <- KK, <- II. split; intros (A & B & C & (xs & X1 & X2 & X3) & fs & FS & T); (split; [exact A|]); (split; [exact B|]); (split; [exact C|]).
  - split; [exists xs; split; [exact X1|]; split; [|exact X3]; intros l n; rewrite X2, GN; reflexivity|]. exists fs. split; [exact FS|]. revert T. apply josa_test_ext; [intros x; symmetry; apply GN|intros x _; rewrite KK; reflexivity].
  - split; [exists xs; split; [exact X1|]; split; [|exact X3]; intros l n; rewrite X2, GN; reflexivity|]. exists fs. split; [exact FS|]. revert T. apply josa_test_ext; [exact GN|intros x _; rewrite KK; reflexivity].
Qed.
Print Assumptions C70_order.

(** What is found: never a known or ignored feature, never a noun; the score lies between the threshold and 1 and the frequency between the
    threshold and the number of eojeols that end with the feature. *)
Theorem C70_bounds : forall ec lm rm g th scores known ignore d r s n, NoDup (map fst (ec_counter ec)) -> (forall e n, dget (ec_counter ec) e = Some n -> 0 < n) -> 1 < lm -> 0 < rm -> to_lrgraph ec lm rm false = Ok g ->
  NoDup (dkeys scores) -> 0 < j_pos_freq th -> josa_extract th g scores known ignore = Ok d -> dget d r = Some (s, n) ->
  r <> [] /\ ~ In r known /\ ~ In r ignore /\ ~ good_noun th scores r /\ (j_pos_score th <= s <= 1)%Q /\
  j_pos_freq th <= n <= Zsum (fun e => if ends_b r (fst e) then snd e else 0) (ec_counter ec).
Proof.
  intros ec lm rm g th scores known ignore d r s n N POS L R E NS PF X G.
  destruct (C70_exact ec lm rm g th scores known ignore N POS L R E NS PF) as (d0 & X0 & _ & H). rewrite X in X0. injection X0 as <-. apply H in G as (A & B & C & _ & fs & FS & T).
  destruct T as (ks & lc & ns & F & LC & [N1 N2] & _ & _ & _ & V). cbv zeta in V. cbn [fst snd] in V. destruct V as (V1 & V2 & V3 & V4).
  destruct FS as [FN FI]. assert (PF' : Forall (fun lc => 0 < snd lc) fs) by (apply Forall_forall; intros [l m] I; apply FI in I as (_ & _ & _ & I); exact (POS _ _ I)).
  assert (W : 0 <= jweight ks fs JPos /\ 0 <= jweight ks fs JNeg /\ jweight ks fs JPos + jweight ks fs JNeg <= Zsum snd fs).
  { clear -F PF'. revert ks F. induction fs as [|[l m] fs IH]; intros ks F; [inversion F; subst; unfold jweight; cbn; lia|]. inversion F as [|? k0 ? ks0 K F']; subst. inversion PF' as [|? ? P1 P2]; subst. specialize (IH P2 _ F'). unfold jweight in *. cbn [combine map fold_right fst snd Zsum] in *. destruct k0; cbn [jcls_eqb]; lia. }
  split. { intros ->. assert (Z0 : fs = []). { destruct fs as [|[l m] t]; [reflexivity|]. exfalso. destruct (proj1 (FI l m) (or_introl eq_refl)) as [Y _]. congruence. } rewrite Z0 in W, V4. cbn [Zsum] in W. lia. }
  split; [exact A|]. split; [exact B|]. split; [exact C|]. split; [split; [exact V3|]|].
  - rewrite V1. set (pos := jweight ks fs JPos) in *. set (neg := jweight ks fs JNeg) in *. destruct (Z.eqb_spec (pos + neg) 0) as [Y|Y]; [discriminate|]. rewrite <- qdiv_inject by lia. apply ratio_bounds; lia.
  - split; [lia|]. rewrite V2. assert (Q : Zsum snd fs <= Zsum (fun e : str * Z => if ends_b r (fst e) then snd e else 0) (ec_counter ec)); [|lia].
    assert (M : Zsum snd fs = Zsum snd (map (fun lm : str * Z => (fst lm ++ r, snd lm)) fs)) by (rewrite Zsum_map; reflexivity). rewrite M.
    assert (I : NoDup (map (fun lm : str * Z => (fst lm ++ r, snd lm)) fs) /\ forall e k, In (e, k) (map (fun lm : str * Z => (fst lm ++ r, snd lm)) fs) -> In (e, k) (ec_counter ec) /\ ends_b r e = true).
    { split.
      - apply FinFun.Injective_map_NoDup; [|exact FN]. intros [l1 m1] [l2 m2] Y. cbn [fst snd] in Y. injection Y as Y1 Y2. apply app_inv_tail in Y1. congruence.
      - intros e k I. apply in_map_iff in I as ([l m] & Y & I). injection Y as <- <-. apply FI in I as (_ & _ & _ & I). split; [apply dget_In, I|]. cbn [fst]. unfold ends_b. rewrite app_length, Nat.add_sub, firstn_pre. apply eqb_refl. }
    revert I. generalize (map (fun lm : str * Z => (fst lm ++ r, snd lm)) fs). intros xs [XN XI].
    assert (PP : Permutation xs (filter (fun e => if in_dec (fun a b : str * Z => ltac:(decide equality; [apply Z.eq_dec|apply (list_eq_dec N.eq_dec)])) e xs then true else false) (ec_counter ec))).
    { apply NoDup_Permutation; [exact XN|apply NoDup_filter, (NoDup_map_inv fst), N|]. intros [e k]. rewrite filter_In. destruct (in_dec _ (e, k) xs) as [Y|Y]; [|split; [contradiction|intros [_ Y']; discriminate]]. split; [|tauto]. intros _. split; [apply XI, Y|reflexivity]. }
    rewrite (Zsum_perm _ _ _ PP). clear PP XN. assert (PC : forall e, In e (ec_counter ec) -> 0 < snd e) by (intros [e k] Y; apply (POS e k), (In_dget _ _ _ N), Y).
    assert (GEN : forall M0 : list (str * Z), (forall e, In e M0 -> 0 < snd e) -> forall p : str * Z -> bool, (forall e, p e = true -> ends_b r (fst e) = true) -> Zsum snd (filter p M0) <= Zsum (fun e : str * Z => if ends_b r (fst e) then snd e else 0) M0).
    { clear. induction M0 as [|[e k] M0 IH]; intros PC p HP; [cbn; lia|]. assert (IH' := IH (fun e I => PC e (or_intror I)) p HP). specialize (PC (e, k) (or_introl eq_refl)). cbn [snd] in PC. cbn [filter]. destruct (p (e, k)) eqn:Y; cbn [Zsum fst snd].
      - apply HP in Y. cbn [fst] in Y. rewrite Y. lia.
      - destruct (ends_b r e); lia. }
    apply GEN; [exact PC|]. intros [e k] Y. destruct (in_dec _ (e, k) xs) as [Y'|]; [|discriminate]. apply (proj2 (XI _ _ Y')).
Qed.
Print Assumptions C70_bounds.

(** ** examples: without entropy thresholds the extraction can be computed *)
Definition josa_predict_q (th : jth) (r : str) (features : list (str * Z)) (nouns pos_r : list str) : Q * Z :=
  if (Z.of_nat (length (last_counter features)) <? j_lastchar th) then (0%Q, 0) else
  let '(pos, neg, unk) := josa_predict3 r features nouns pos_r in
  let score := if pos + neg >? 0 then qdiv (pos - neg) (pos + neg) else 0%Q in
  let freq := if Qle_bool (j_pos_score th) score then pos else neg + unk in
  if freq <? j_pos_freq th then (0%Q, freq) else (score, freq).
Definition josa_step_q (th : jth) (g : lrg) (nouns known : list str) (dom : dict str (Q * Z)) (r : str) : dict str (Q * Z) :=
  if mem r known || mem r nouns then dom else
  let p := josa_predict_q th r (noun_feature g r) nouns (known ++ dkeys dom) in
  if Qle_bool (j_pos_score th) (fst p) && (j_pos_freq th <=? snd p) then dset dom r p else dom.
Definition josa_extract_q (th : jth) (g : lrg) (scores : dict str (Q * Q)) (known ignore : list str) : dict str (Q * Z) :=
  let nouns := josa_nouns th scores in
  fold_left (josa_step_q th g nouns known) (sort (fun x y : str => (length x <=? length y)%nat) (dkeys (josa_candidates th g nouns known ignore))) [].
Lemma josa_extract_q_eq ec lm rm g th scores known ignore : NoDup (map fst (ec_counter ec)) -> (forall e n, dget (ec_counter ec) e = Some n -> 0 < n) -> 1 < lm -> 0 < rm -> to_lrgraph ec lm rm false = Ok g ->
  j_last_entropy th = 0%R -> j_noun_entropy th = 0%R -> josa_extract th g scores known ignore = Ok (josa_extract_q th g scores known ignore).
Proof.
  intros N POS L R E E1 E2. destruct (trained_uni ec lm rm N L R) as (g0 & E0 & U & _). unfold train_counter in E0. rewrite E in E0. injection E0 as <-.
  unfold josa_extract, josa_extract_q. cbv zeta. set (nouns := josa_nouns th scores). generalize (sort (fun x y : str => (length x <=? length y)%nat) (dkeys (josa_candidates th g nouns known ignore))). intros rs.
  generalize (@nil (str * (Q * Z))). induction rs as [|r rs IH]; intros dom; [reflexivity|]. cbn [foldM fold_left].
  assert (S : josa_step th g nouns known dom r = Ok (josa_step_q th g nouns known dom r)); [|rewrite S; cbn [bind]; apply IH].
  unfold josa_step, josa_step_q. destruct (mem r known || mem r nouns); [reflexivity|]. set (fs := noun_feature g r). cbv zeta.
  assert (FP : Forall (fun lc => 0 < snd lc) fs). { apply Forall_forall. intros [l n] I. apply filter_In in I as [I _]. apply (uni_cols lm rm _ g r l n U) in I as (_ & _ & I). exact (POS _ _ I). }
  assert (NE : Forall (fun lc => fst lc <> []) fs). { apply Forall_forall. intros [l n] I. apply filter_In in I as [_ I]. cbn [fst] in *. intros ->. discriminate. }
  assert (LP : Forall (fun n => 0 < n) (map snd (last_counter fs))).
  { destruct (last_counter_spec fs NE) as [LC _]. apply Forall_map, Forall_forall. intros [x n] I. cbn [snd]. apply (proj2 LC) in I as [(l & m & I) ->]. rewrite Forall_forall in FP.
    assert (J : In (l ++ [x], m) (filter (fun lm => eqb (last (fst lm) 0%N) x) fs)) by (apply filter_In; split; [exact I|]; cbn [fst]; rewrite last_last; apply eqb_refl).
    assert (Q : forall y, In y (filter (fun lm => eqb (last (fst lm) 0%N) x) fs) -> 0 < snd y) by (intros y Y; apply filter_In in Y as [Y _]; apply FP, Y).
    revert J Q. generalize (filter (fun lm : str * Z => eqb (last (fst lm) 0%N) x) fs). intros M J Q. destruct M as [|y M]; [destruct J|]. cbn [map fold_right]. pose proof (Q y (or_introl eq_refl)).
    assert (0 <= fold_right Z.add 0 (map snd M)); [|lia]. assert (QM : forall z, In z M -> 0 < snd z) by (intros z Z0; apply Q; right; exact Z0). clear -QM. induction M as [|z M IH]; cbn [map fold_right]; [lia|]. pose proof (QM z (or_introl eq_refl)). specialize (IH (fun y Y => QM y (or_intror Y))). lia. }
  assert (NP : Forall (fun n => 0 < n) (map snd (filter (fun lc => mem (fst lc) nouns) fs))). { apply Forall_map, Forall_forall. intros y Y. apply filter_In in Y as [Y _]. rewrite Forall_forall in FP. apply FP, Y. }
  unfold josa_predict, josa_predict_q. rewrite (josa_entropy_shannon _ LP), E1. cbn [bind].
  destruct (Rlt_dec (shannon (map snd (last_counter fs))) 0) as [X|_]; [exfalso; exact (Rlt_not_le _ _ X (shannon_nonneg _ LP))|]. rewrite orb_false_r.
  assert (RL : (if Rle_dec (j_noun_entropy th) (shannon (map snd (filter (fun lc => mem (fst lc) nouns) fs))) then true else false) = true).
  { rewrite E2. destruct (Rle_dec _ _) as [X|X]; [reflexivity|]. exfalso. apply X. apply shannon_nonneg, NP. }
  rewrite (josa_entropy_shannon _ NP).
  destruct (Z.of_nat (length (last_counter fs)) <? j_lastchar th); [cbn [bind]; rewrite RL, andb_true_r; reflexivity|].
  destruct (josa_predict3 r fs nouns (known ++ dkeys dom)) as [[pos neg] unk]. destruct (_ <? j_pos_freq th); cbn [bind]; rewrite RL, andb_true_r; reflexivity.
Qed.
Definition jx_th : jth := mkJth (3#10) (5#1) (3#10) 8 4 0%R 0%R.
Definition jx_counter : dict str Z := map (fun p => (u (fst p), snd p))
  [("학교에서"%string, 3); ("서울에서"%string, 4); ("나라에서"%string, 2); ("하늘에서"%string, 3); ("학교은행에서"%string, 2);
   ("학교은행"%string, 2); ("서울은행"%string, 3); ("나라은행"%string, 3); ("하늘은행"%string, 4);
   ("학교에게서"%string, 3); ("서울에게서"%string, 4); ("나라에게서"%string, 2); ("하늘에게서"%string, 3)]%list.
Definition jx_ec : ecounter := mkCounter jx_counter.
Definition jx_graph (ec : ecounter) : lrg := match to_lrgraph ec 10 9 false with Ok g => g | Err _ => mkLrg [] [] None 0 0 end.
Definition jx_scores : dict str (Q * Q) := map (fun w => (u w, ((9#10)%Q, (9#1)%Q))) ["학교"; "서울"; "나라"; "하늘"; "에게"]%string.
Lemma jx_ok : NoDup (map fst (ec_counter jx_ec)) /\ (forall e n, dget (ec_counter jx_ec) e = Some n -> 0 < n) /\ to_lrgraph jx_ec 10 9 false = Ok (jx_graph jx_ec) /\ NoDup (dkeys jx_scores).
Proof.
  assert (Q : forall (l : list str), (fix nd (l : list str) := match l with [] => true | x :: t => negb (mem x t) && nd t end) l = true -> NoDup l).
  { induction l as [|x l IH]; intros H; [constructor|]. apply andb_true_iff in H as [A B]. constructor; [apply mem_In_false; apply negb_true_iff, A|exact (IH B)]. }
  split; [apply Q; vm_compute; reflexivity|]. split; [|split; [vm_compute; reflexivity|apply Q; vm_compute; reflexivity]].
  intros e n D. apply dget_In in D. assert (F : forallb (fun p : str * Z => 0 <? snd p) (ec_counter jx_ec) = true) by (vm_compute; reflexivity). rewrite forallb_forall in F. specialize (F _ D). apply Z.ltb_lt in F. exact F.
Qed.
(** 에서 and 은행 are found, 에게서 (noun 에게 and josa 서) is not *)
Example C70_ex : exists d, josa_extract jx_th (jx_graph jx_ec) jx_scores [u "서"] [] = Ok d /\ map fst d = [u "에서"; u "은행"] /\ (exists s, dget d (u "에서") = Some (s, 12) /\ (s == 1)%Q).
Proof.
  destruct jx_ok as (A & B & C & D). eexists. split; [apply (josa_extract_q_eq jx_ec 10 9 _ jx_th _ _ _ A B eq_refl eq_refl C eq_refl eq_refl)|]. split; [vm_compute; reflexivity|]. eexists. split; [vm_compute; reflexivity|reflexivity].
Qed.
(** If 에 is a noun as well, only 에 is split off, so that 에게서 is found although it is a noun followed by a known josa *)
Theorem C70_noun_josa_refuted : exists ec lm rm g th scores known d a b v, to_lrgraph ec lm rm false = Ok g /\ josa_extract th g scores known [] = Ok d /\
  a <> [] /\ good_noun th scores a /\ In b known /\ dget d (a ++ b) = Some v.
Proof.
  destruct jx_ok as (A & B & C & D).
  exists jx_ec, 10, 9, (jx_graph jx_ec), jx_th, (jx_scores ++ [(u "에", ((9#10)%Q, (9#1)%Q))]), [u "서"].
  do 4 eexists. split; [exact C|]. split; [apply (josa_extract_q_eq jx_ec 10 9 _ jx_th _ _ _ A B eq_refl eq_refl C eq_refl eq_refl)|].
  split; [|split; [|split; [left; reflexivity|]]].
  3: { instantiate (2 := u "에게"). vm_compute. reflexivity. }
  - discriminate.
  - exists (9#10)%Q, (9#1)%Q. split; [vm_compute; reflexivity|]. split; discriminate.
Qed.
Print Assumptions C70_noun_josa_refuted.
