(** * Properties C51, C52, C64, C65: LRNounExtractor_v2, prediction and post-processing *)
From Coq Require Import QArith Permutation Lqa Sorted.
From Verif Require Import PyBase PyDict PySort PyText PyFile SortLemmas CountLemmas QLemmas UtilsModel UtilsSpec UtilsProofs UtilsProofs2 NounModel NounSpec NounProofs NounProofs2.
Open Scope Z_scope.

(** ** C51: predict *)
(** every right part has exactly one role, and the total count splits over the roles *)
Theorem C51_roles : forall c w fs, (forall r, exists k, class_of c w r k /\ forall k', class_of c w r k' -> k' = k) /\
  exists ks, Forall2 (class_of c w) (map fst fs) ks /\
    weight ks fs Pos + weight ks fs Common + weight ks fs Neg + weight ks fs Unk + weight ks fs End + weight ks fs Skip = fold_right Z.add 0 (map snd fs).
Proof.
  intros c w fs. split.
  - intros r. exists (cls_b c w r). split; [apply cls_b_spec; reflexivity|]. intros k' H. apply cls_b_spec in H. auto.
  - exists (map (fun rc : str * Z => cls_b c w (fst rc)) fs). split; [apply classes_exist|]. rewrite !(weight_wsum c w) by apply classes_exist.
    induction fs as [|[r n] fs IH]; [reflexivity|]. rewrite !wsum_cons. cbn [map snd fold_right]. destruct (cls_b c w r); cbn [cls_eqb]; lia.
Qed.
Print Assumptions C51_roles.
(** the result of predict: the decision table *)
Theorem C51_predict_exact : forall c g w ms ks n ds, let fs := get_r g w 0 in
  Forall2 (class_of c w) (map fst fs) ks -> how_many (informative c w) (map fst fs) n -> NoDup ds -> (forall x, In x ds <-> first_char_of c w fs x) ->
  let P := weight ks fs Pos in let C := weight ks fs Common in let N := weight ks fs Neg in let U := weight ks fs Unk in let E := weight ks fs End in
  let total := P + C + N + U + E in
  let score := (if P + N =? 0 then 0 else inject_Z (P - N) / inject_Z (P + N))%Q in
  let support := if Qle_bool ms score then P + E + C else N + E + C in
  let share := (inject_Z (P + C + E) / inject_Z total)%Q in
  noun_predict c g w ms =
    if Z.of_nat n >? min_nf c then (support, score)
    else if total =? 0 then (support, 0%Q)
    else if (E >? max_eoj c) && (P >=? N) then (support, score)
    else if ((0 <? C) || (0 <? P)) && Qle_bool (3 # 10) (inject_Z E / inject_Z total) && (C >=? N) then (P + C + E, share)
    else if (2 <=? length ds)%nat then (P + C + E, share)
    else (support, 0%Q).
Proof.
  intros c g w ms ks n ds fs F H ND D. cbv zeta. unfold noun_predict. replace (get_r g w (-1)) with fs by reflexivity. unfold predict_features. rewrite predict5_eq. cbn [f_pos f_common f_neg f_unk f_end].
  rewrite !(weight_wsum c w fs ks) by exact F.
  replace (length (nonempty_features c w fs)) with n.
  2:{ eapply how_many_fun; [exact H|]. apply (how_many_filter _ (informative_b c w)), informative_spec. }
  destruct (first_chars_spec c w fs) as [N1 N2]. replace (length ds) with (length (first_chars c w fs)).
  2:{ apply NoDup_same_length; [assumption..|]. intros x. rewrite N2, D. reflexivity. }
  rewrite !Z.gtb_ltb. reflexivity.
Qed.
Print Assumptions C51_predict_exact.

Lemma qdiv_range a b : 0 < b -> - b <= a <= b -> (-1 <= qdiv a b <= 1)%Q.
Proof.
  intros B [L U]. unfold qdiv. assert (PB : (0 < inject_Z b)%Q) by (change 0%Q with (inject_Z 0); rewrite <- Zlt_Qlt; exact B). split.
  - apply Qle_shift_div_l; [exact PB|]. change (-1)%Q with (inject_Z (-1)). rewrite <- inject_Z_mult, <- Zle_Qle. lia.
  - apply Qle_shift_div_r; [exact PB|]. rewrite Qmult_1_l, <- Zle_Qle. lia.
Qed.
Lemma predict_bounds c w fs ms : (forall r n, In (r, n) fs -> 0 <= n) ->
  let p := predict_features c w fs ms in (-1 <= snd p <= 1)%Q /\ 0 <= fst p <= fold_right Z.add 0 (map snd fs).
Proof.
  intros NN. cbv zeta.
  assert (P : forall k, 0 <= wsum c w k fs). { intros k. apply Zsum_nonneg. intros [r n] I. cbn [fst snd]. destruct (cls_eqb _ k); [apply (NN r), I|lia]. }
  assert (T : wsum c w Pos fs + wsum c w Common fs + wsum c w Neg fs + wsum c w Unk fs + wsum c w End fs + wsum c w Skip fs = fold_right Z.add 0 (map snd fs)).
  { clear. induction fs as [|[r n] fs IH]; [reflexivity|]. rewrite !wsum_cons. cbn [map snd fold_right]. destruct (cls_b c w r); cbn [cls_eqb]; lia. }
  pose proof (P Pos) as P1. pose proof (P Common) as P2. pose proof (P Neg) as P3. pose proof (P Unk) as P4. pose proof (P End) as P5. pose proof (P Skip) as P6.
  unfold predict_features. rewrite predict5_eq. cbn [f_pos f_common f_neg f_unk f_end]. rewrite <- T. clear T.
  revert P1 P2 P3 P4 P5 P6. generalize (wsum c w Pos fs) (wsum c w Common fs) (wsum c w Neg fs) (wsum c w Unk fs) (wsum c w End fs) (wsum c w Skip fs). intros a b d e h s P1 P2 P3 P4 P5 P6.
  assert (SC : (-1 <= (if a + d =? 0 then 0 else qdiv (a - d) (a + d)) <= 1)%Q). { destruct (Z.eqb_spec (a + d) 0) as [Z0|Z0]; [split; discriminate|]. apply qdiv_range; lia. }
  assert (Z1 : (-1 <= 0 <= 1)%Q) by (split; discriminate).
  set (sc := if a + d =? 0 then 0%Q else qdiv (a - d) (a + d)) in *. clearbody sc.
  assert (SU : 0 <= (if Qle_bool ms sc then a + h + b else d + h + b) <= a + b + d + e + h + s) by (destruct (Qle_bool ms sc); lia).
  set (su := if Qle_bool ms sc then a + h + b else d + h + b) in *. clearbody su.
  destruct (_ >? min_nf c); [cbn [fst snd]; auto|]. destruct (Z.eqb_spec (a + b + d + e + h) 0) as [Z0|Z0]; [cbn [fst snd]; auto|].
  assert (SH : (-1 <= qdiv (a + b + h) (a + b + d + e + h) <= 1)%Q) by (apply qdiv_range; lia).
  destruct (_ && (a >=? d)); [cbn [fst snd]; auto|]. destruct (_ && (b >=? d)); [cbn [fst snd]; split; [exact SH|lia]|].
  destruct (2 <=? _)%nat; cbn [fst snd]; [split; [exact SH|lia]|auto].
Qed.
(** predicted scores lie in [-1, 1], supports are at least 0 and at most the number of eojeols that begin with the word *)
Theorem C51_bounds : forall c g w ms, (forall r n, In (r, n) (get_r g w 0) -> 0 <= n) ->
  let p := noun_predict c g w ms in (-1 <= snd p <= 1)%Q /\ 0 <= fst p <= fold_right Z.add 0 (map snd (get_r g w 0)).
Proof. intros c g w ms NN. exact (predict_bounds c w (get_r g w 0) ms NN). Qed.
Print Assumptions C51_bounds.
Definition ex_conf := mkNconf [u "은"; u "에게"; u "이었"] [u "다"; u "었다"] [u "로"] 1 30.
Definition ex_counter := mkCounter [(u "아이은", 5); (u "아이에게", 2); (u "아이로", 3); (u "아이다", 1); (u "아이", 40); (u "학교은", 4); (u "학교이었다", 2); (u "학교이었다가", 1)].
Definition ex_graph := match train_counter ex_counter 10 9 with Ok g => g | Err _ => mkLrg [] [] None 0 0 end.
Example C51_ex : noun_predict ex_conf ex_graph (u "아이") (3 # 10) = (50, 6 # 8) /\
  class_of ex_conf (u "학교이") (u "었다") Neg /\ class_of ex_conf (u "학교이었") (u "다") Skip.
Proof. split; [vm_compute; reflexivity|]. split; apply cls_b_spec; vm_compute; reflexivity. Qed.

(** ** C52: post-processing *)
Theorem C52_detaching : forall (nouns : dict str (Q * Q)) features w s, NoDup (map fst nouns) ->
  dget (fst (detaching_features nouns features)) w = Some s <->
  dget nouns w = Some s /\ ~ exists l r, w = l ++ r /\ (2 <= length l)%nat /\ (2 <= length r)%nat /\ dget nouns l <> None /\ In r features.
Proof.
  intros nouns features w s N. unfold detaching_features. cbn [fst]. rewrite dget_dfilter by exact N.
  assert (H : forall w, detach_removed nouns features w = true <-> exists l r, w = l ++ r /\ (2 <= length l)%nat /\ (2 <= length r)%nat /\ dget nouns l <> None /\ In r features).
  { clear. intros w. unfold detach_removed. rewrite andb_true_iff, negb_true_iff, Nat.leb_gt, existsb_exists. split.
    - intros [L (e & I & H)]. apply in_seq in I. rewrite !andb_true_iff, negb_true_iff, Nat.leb_gt, dmem_keys, mem_In in H. destruct H as (R & D & F).
      exists (firstn e w), (skipn e w). rewrite firstn_skipn, firstn_length. split; [reflexivity|]. split; [lia|]. split; [lia|]. split; [apply dget_keys, D|exact F].
    - intros (l & r & -> & A & B & D & F). rewrite app_length. split; [lia|]. exists (length l). split; [apply in_seq; lia|].
      rewrite firstn_app, firstn_all, Nat.sub_diag, firstn_O, app_nil_r, skipn_app, skipn_all, Nat.sub_diag. cbn [app skipn]. apply dget_keys in D. apply dmem_keys in D. apply mem_In in F. rewrite D, F.
      destruct (Nat.leb_spec (length r) 1); [lia|reflexivity]. }
  destruct (dget nouns w) as [s0|] eqn:D; [|split; [discriminate|intros [E _]; discriminate]].
  rewrite <- H. destruct (mem w (filter (detach_removed nouns features) (dkeys nouns))) eqn:M.
  - apply mem_In, filter_In in M as [_ M]. cbn [negb]. split; [discriminate|]. intros [_ X]. congruence.
  - cbn [negb]. split; [intros E; split; [exact E|]|intros [E _]; exact E]. intros X. apply mem_In_false in M. apply M, filter_In. split; [|exact X]. apply dget_keys. congruence.
Qed.
Print Assumptions C52_detaching.
Theorem C52_ignore_features : forall (nouns : dict str (Q * Q)) features w s, NoDup (map fst nouns) ->
  dget (fst (ignore_features nouns features)) w = Some s <-> dget nouns w = Some s /\ ~ In w features.
Proof.
  intros nouns features w s N. unfold ignore_features. cbn [fst]. rewrite dget_dfilter by exact N.
  destruct (dget nouns w) as [s0|] eqn:D; [|split; [discriminate|intros [E _]; discriminate]].
  destruct (mem w (filter (fun w => mem w features) (dkeys nouns))) eqn:M; cbn [negb].
  - apply mem_In, filter_In in M as [_ M]. apply mem_In in M. split; [discriminate|]. intros [_ X]. contradiction.
  - split; [intros E; split; [exact E|]|intros [E _]; exact E]. intros X. apply mem_In_false in M. apply M, filter_In. split; [apply dget_keys; congruence|apply mem_In, X].
Qed.
Print Assumptions C52_ignore_features.
(** removed are the nouns l + josa where the noun l is strictly more frequent and was seen with at least five josas *)
Theorem C52_NJ : forall josa suffix (nouns : dict str (Q * Q)) o k w s, NoDup (map fst nouns) -> is_graph o ->
  dget (fst (check_N_is_NJ josa suffix nouns o k)) w = Some s <->
  dget nouns w = Some s /\ ~ exists l r sl m, w = l ++ r /\ (2 <= length l)%nat /\ r <> [] /\ In r josa /\ ~ In r suffix /\ dget nouns l = Some sl /\ (fst s < fst sl)%Q /\
     how_many (fun j => In j josa) (map fst (match dget o l with Some x => x | None => [] end)) m /\ k <= Z.of_nat m.
Proof.
  intros josa suffix nouns o k w s N G. unfold check_N_is_NJ. cbn [fst]. rewrite dget_dfilter by exact N.
  assert (H : forall w s, is_nj josa suffix nouns o k w s = true <-> exists l r sl m, w = l ++ r /\ (2 <= length l)%nat /\ r <> [] /\ In r josa /\ ~ In r suffix /\ dget nouns l = Some sl /\ (fst s < fst sl)%Q /\
     how_many (fun j => In j josa) (map fst (match dget o l with Some x => x | None => [] end)) m /\ k <= Z.of_nat m).
  { clear -G. intros w s. unfold is_nj. rewrite andb_true_iff, negb_true_iff, Nat.leb_gt, existsb_exists. split.
    - intros [L (e & I & H)]. apply in_seq in I. destruct (dget nouns (firstn e w)) as [sl|] eqn:D; [|discriminate].
      rewrite !andb_true_iff, !negb_true_iff, mem_In, mem_In_false in H. destruct H as [[[J S] F] K].
      exists (firstn e w), (skipn e w), sl. eexists. rewrite firstn_skipn, firstn_length. split; [reflexivity|]. split; [lia|]. split; [intros X; apply (f_equal (@length _)) in X; rewrite skipn_length in X; cbn in X; lia|].
      split; [exact J|]. split; [exact S|]. split; [exact D|]. split.
      + apply Qnot_le_lt. intros X. apply Qle_bool_iff in X. congruence.
      + split; [apply (how_many_filter _ (fun r => mem r josa)); intros; apply mem_In|]. apply Z.leb_le, K.
    - intros (l & r & sl & m & -> & A & R & J & S & D & F & M & K). rewrite app_length. split; [destruct r; [congruence|cbn; lia]|]. exists (length l). split; [apply in_seq; destruct r; [congruence|cbn; lia]|].
      rewrite firstn_app, firstn_all, Nat.sub_diag, firstn_O, app_nil_r, skipn_app, skipn_all, Nat.sub_diag. cbn [app skipn]. rewrite D. apply mem_In in J. apply mem_In_false in S. rewrite J, S.
      assert (Q : Qle_bool (fst sl) (fst s) = false) by (rewrite <- not_true_iff_false, Qle_bool_iff; intros X; apply (Qlt_not_le _ _ F X)). rewrite Q. cbn [negb andb].
      apply Z.leb_le. assert (HM : how_many (fun j => In j josa) (map fst (match dget o l with Some x => x | None => [] end)) (length (filter (fun r => mem r josa) (map fst (match dget o l with Some x => x | None => [] end))))) by (apply how_many_filter; intros; apply mem_In). rewrite <- (how_many_fun _ _ _ _ HM M) in K. exact K. }
  destruct (dget nouns w) as [s0|] eqn:D; [|split; [discriminate|intros [E _]; discriminate]].
  assert (M : mem w (map fst (filter (fun p => is_nj josa suffix nouns o k (fst p) (snd p)) nouns)) = is_nj josa suffix nouns o k w s0).
  { apply eq_true_iff_eq. rewrite mem_In, in_map_iff. split.
    - intros ([w' s'] & E & I). cbn [fst] in E. subst w'. apply filter_In in I as [I X]. cbn [fst snd] in X. apply In_dget in I; [|exact N]. congruence.
    - intros X. exists (w, s0). split; [reflexivity|]. apply filter_In. split; [apply dget_In, D|exact X]. }
  rewrite M. destruct (is_nj josa suffix nouns o k w s0) eqn:E; cbn [negb].
  - split; [discriminate|]. intros [X Y]. injection X as ->. destruct Y. apply H, E.
  - split; [intros X; split; [exact X|]; injection X as ->; rewrite <- H; congruence|intros [X _]; exact X].
Qed.
Print Assumptions C52_NJ.
Example C52_ex : let ns := [(u "아이", (5%Q, 1%Q)); (u "아이에게", (2%Q, 1%Q)); (u "고양이", (2%Q, 1%Q)); (u "고양", (9%Q, 1%Q)); (u "에게", (3%Q, 1%Q)); (u "고양이이었", (1%Q, 1%Q))] in
  map fst (fst (detaching_features ns (pos_f ex_conf))) = [u "아이"; u "고양이"; u "고양"; u "에게"] /\
  map fst (fst (ignore_features ns (pos_f ex_conf))) = [u "아이"; u "아이에게"; u "고양이"; u "고양"; u "고양이이었"] /\
  map fst (fst (check_N_is_NJ [u "이"; u "은"; u "에게"] [u "이"] ns [(u "아이", [(u "은", 2); (u "에게", 1)])] 2)) = [u "아이"; u "고양이"; u "고양"; u "에게"; u "고양이이었"].
Proof. vm_compute. auto. Qed.
