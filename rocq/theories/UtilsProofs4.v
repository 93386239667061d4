(** * EojeolCounter *)
From Coq Require Import QArith.
From Verif Require Import PyBase PyDict PySort PyText PyFile SortLemmas UtilsModel UtilsSpec UtilsProofs UtilsProofs2 UtilsProofs3.
Open Scope Z_scope.

Lemma occurrences_cons w s ss : occurrences w (s :: ss) = Z.of_nat (length (filter (eqb w) (split s))) + occurrences w ss.
Proof. unfold occurrences. cbn [map concat]. rewrite filter_app, app_length. lia. Qed.
Lemma occurrences_app w s1 s2 : occurrences w (s1 ++ s2) = occurrences w s1 + occurrences w s2.
Proof. unfold occurrences. rewrite map_app, concat_app, filter_app, app_length. lia. Qed.
Lemma occurrences_nonneg w ss : 0 <= occurrences w ss.
Proof. unfold occurrences. lia. Qed.

Definition cnt_ok (d : dict str Z) : Prop := is_dict d /\ Forall (fun kv => 0 < snd kv) d.
Lemma cnt_get_pos d e v : cnt_ok d -> dget d e = Some v -> 0 < v.
Proof. intros [_ F] E. apply dget_In in E. rewrite Forall_forall in F. exact (F _ E). Qed.
Lemma cnt_getd_nonneg d e : cnt_ok d -> 0 <= dgetd d e 0.
Proof. intros C. unfold dgetd. destruct (dget d e) eqn:E; [|lia]. apply (cnt_get_pos _ _ _ C) in E. lia. Qed.
Lemma cnt_ok_dset d e v : cnt_ok d -> 0 < v -> cnt_ok (dset d e v).
Proof.
  intros [W F] V. split; [apply (dwf_dset (K:=str)); exact W|]. apply Forall_forall. intros p I.
  apply dset_keys_In in I as [->|I]; [exact V|]. rewrite Forall_forall in F. auto.
Qed.
Lemma cnt_ok_filter f d : cnt_ok d -> cnt_ok (dfilter f d).
Proof.
  intros [W F]. split; [apply (dwf_dfilter (K:=str)); exact W|]. apply Forall_forall. intros p I. apply filter_In in I as [I _].
  rewrite Forall_forall in F. auto.
Qed.
Lemma count_eojeols_spec ml d s : cnt_ok d -> cnt_ok (count_eojeols ml d s) /\
  forall e, dgetd (count_eojeols ml d s) e 0 = dgetd d e 0 + (if Z.of_nat (length e) <=? ml then Z.of_nat (length (filter (eqb e) (split s))) else 0).
Proof.
  unfold count_eojeols. pose proof (split_words s) as W. revert d.
  induction W as [|w ws [NE _] W IH]; intros d C; cbn [fold_left filter length].
  - split; [exact C|]. intros e. destruct (_ <=? ml); lia.
  - destruct w as [|x w]; [congruence|]. set (y := x :: w) in *.
    destruct (Z.of_nat (length y) >? ml) eqn:L.
    + destruct (IH d C) as [A B]. split; [exact A|]. intros e. rewrite B.
      destruct (eqb_spec e y) as [->|n]; [|reflexivity]. replace (Z.of_nat (length y) <=? ml) with false by lia. lia.
    + assert (C' : cnt_ok (dset d y (dgetd d y 0 + 1))) by (apply cnt_ok_dset; [exact C|pose proof (cnt_getd_nonneg d y C); lia]).
      destruct (IH _ C') as [A B]. split; [exact A|]. intros e. rewrite B. unfold dgetd at 1. rewrite dget_dset.
      rewrite (eqb_sym y e). destruct (eqb_spec e y) as [->|n].
      * replace (Z.of_nat (length y) <=? ml) with true by lia. cbn [length]. lia.
      * reflexivity.
Qed.
Definition occ_in (ml : Z) (e : str) (ss : list str) : Z := if Z.of_nat (length e) <=? ml then occurrences e ss else 0.
Lemma occ_in_cons ml e s ss : occ_in ml e (s :: ss) = (if Z.of_nat (length e) <=? ml then Z.of_nat (length (filter (eqb e) (split s))) else 0) + occ_in ml e ss.
Proof. unfold occ_in. rewrite occurrences_cons. destruct (_ <=? ml); lia. Qed.
Lemma occ_in_app ml e a b : occ_in ml e (a ++ b) = occ_in ml e a + occ_in ml e b.
Proof. unfold occ_in. rewrite occurrences_app. destruct (_ <=? ml); lia. Qed.
Lemma occ_in_nil ml e : occ_in ml e [] = 0.
Proof. unfold occ_in, occurrences. cbn. destruct (_ <=? ml); reflexivity. Qed.
Lemma occ_in_nonneg ml e ss : 0 <= occ_in ml e ss.
Proof. unfold occ_in. pose proof (occurrences_nonneg e ss). destruct (_ <=? ml); lia. Qed.

Lemma dgetd_dfilter_ge d m e : cnt_ok d -> dgetd (dfilter (fun _ v => v >=? m) d) e 0 = if dgetd d e 0 >=? m then dgetd d e 0 else 0.
Proof.
  intros [W _]. unfold dgetd. rewrite (dget_dfilter (K:=str)) by exact W. destruct (dget d e) as [v|].
  - destruct (v >=? m); reflexivity.
  - destruct (0 >=? m); reflexivity.
Qed.

Lemma loop_plain pre mc ml cp : (mc <= 1 \/ cp <= 0) -> forall sents i d, cnt_ok d ->
  cnt_ok (counting_loop pre mc ml cp i sents d) /\
  forall e, dgetd (counting_loop pre mc ml cp i sents d) e 0 = dgetd d e 0 + occ_in ml e (map pre sents).
Proof.
  intros H. induction sents as [|s sents IH]; intros i d C; cbn [counting_loop map].
  - split; [exact C|]. intros e. unfold occ_in, occurrences. cbn. destruct (_ <=? ml); lia.
  - replace ((mc >? 1) && (cp >? 0) && (i >? 0) && (i mod cp =? 0)) with false by lia.
    destruct (count_eojeols_spec ml d (pre s) C) as [A B]. destruct (IH (i + 1) _ A) as [A' B'].
    split; [exact A'|]. intros e. rewrite B', B, occ_in_cons. lia.
Qed.
Lemma loop_ok pre mc ml cp : forall sents i d, cnt_ok d -> cnt_ok (counting_loop pre mc ml cp i sents d).
Proof.
  induction sents as [|s sents IH]; intros i d C; cbn [counting_loop]; [exact C|]. apply IH. apply count_eojeols_spec.
  destruct (_ && _); [apply cnt_ok_filter|]; exact C.
Qed.
Lemma loop_filtered pre mc ml cp e : 0 < cp -> forall sents i d, cnt_ok d -> 0 <= i ->
  dgetd (counting_loop pre mc ml cp i sents d) e 0 = dgetd d e 0 + occ_in ml e (map pre sents) \/
  exists j, (j < length sents)%nat /\ (0 < i + Z.of_nat j) /\ (i + Z.of_nat j) mod cp = 0 /\
    dgetd (counting_loop pre mc ml cp i sents d) e 0 = occ_in ml e (map pre (skipn j sents)).
Proof.
  intros H. induction sents as [|s sents IH]; intros i d C Hi; cbn [counting_loop map].
  - left. unfold occ_in, occurrences. cbn. destruct (_ <=? ml); lia.
  - match goal with |- context [count_eojeols ml (if ?b then _ else _) _] => destruct b eqn:T end.
    + set (d1 := dfilter (fun _ v => v >=? mc) d). assert (C1 : cnt_ok d1) by (apply cnt_ok_filter; exact C).
      destruct (count_eojeols_spec ml d1 (pre s) C1) as [A B].
      destruct (IH (i + 1) _ A ltac:(lia)) as [E|(j & J1 & J2 & J3 & J4)].
      * rewrite B in E. unfold d1 in E at 2. rewrite dgetd_dfilter_ge in E by exact C. destruct (dgetd d e 0 >=? mc).
        -- left. rewrite E, occ_in_cons. lia.
        -- right. exists 0%nat. cbn [skipn length map]. split; [lia|]. split; [lia|]. split; [rewrite Z.add_0_r; lia|]. rewrite E, occ_in_cons. lia.
      * right. exists (S j). cbn [skipn length]. split; [lia|]. split; [lia|]. split; [replace (i + Z.of_nat (S j)) with (i + 1 + Z.of_nat j) by lia; exact J3|exact J4].
    + destruct (count_eojeols_spec ml d (pre s) C) as [A B].
      destruct (IH (i + 1) _ A ltac:(lia)) as [E|(j & J1 & J2 & J3 & J4)].
      * left. rewrite E, B, occ_in_cons. lia.
      * right. exists (S j). cbn [skipn length]. split; [lia|]. split; [lia|]. split; [replace (i + Z.of_nat (S j)) with (i + 1 + Z.of_nat j) by lia; exact J3|exact J4].
Qed.
Lemma loop_survives pre mc ml cp e : 0 < cp -> 1 < mc -> forall sents done d, cnt_ok d -> dgetd d e 0 = occ_in ml e (map pre done) ->
  (forall m, (length done <= m < length done + length sents)%nat -> (0 < m)%nat -> Z.of_nat m mod cp = 0 ->
      occ_in ml e (map pre (firstn m (done ++ sents))) = 0 \/ mc <= occ_in ml e (map pre (firstn m (done ++ sents)))) ->
  dgetd (counting_loop pre mc ml cp (Z.of_nat (length done)) sents d) e 0 = occ_in ml e (map pre (done ++ sents)).
Proof.
  intros H M. induction sents as [|s sents IH]; intros done d C D S; cbn [counting_loop].
  - rewrite app_nil_r. exact D.
  - replace (Z.of_nat (length done) + 1) with (Z.of_nat (length (done ++ [s]))) by (rewrite app_length; cbn; lia).
    assert (X : done ++ s :: sents = (done ++ [s]) ++ sents) by (rewrite <- app_assoc; reflexivity).
    assert (K : forall d1, cnt_ok d1 -> dgetd d1 e 0 = occ_in ml e (map pre done) ->
      dgetd (counting_loop pre mc ml cp (Z.of_nat (length (done ++ [s]))) sents (count_eojeols ml d1 (pre s))) e 0 = occ_in ml e (map pre (done ++ s :: sents))).
    { intros d1 C1 D1. rewrite X. destruct (count_eojeols_spec ml d1 (pre s) C1) as [A B]. apply IH.
      - exact A.
      - rewrite B, D1, map_app, occ_in_app. cbn [map]. rewrite occ_in_cons, occ_in_nil. lia.
      - intros m L P Q. rewrite <- X. apply S; [|exact P|exact Q]. rewrite app_length in L. cbn [length] in *. lia. }
    match goal with |- context [count_eojeols ml (if ?b then _ else _) _] => destruct b eqn:T end; [|apply K; assumption].
    apply K; [apply cnt_ok_filter; exact C|]. rewrite dgetd_dfilter_ge, D by exact C.
    specialize (S (length done)). cbn [length] in S. specialize (S ltac:(lia) ltac:(lia) ltac:(lia)).
    rewrite firstn_app, Nat.sub_diag, firstn_all in S. cbn [firstn] in S. rewrite app_nil_r in S.
    destruct (occ_in ml e (map pre done) >=? mc) eqn:G; lia.
Qed.

(** ** coverage *)
Lemma zsum_filter_le d f : Forall (fun kv : str * Z => 0 < snd kv) d -> 0 <= zsum (dvals (dfilter f d)) <= zsum (dvals d).
Proof.
  unfold dvals, dfilter. induction 1 as [|kv d P F IH]; cbn [filter map]; [cbn; lia|].
  change (zsum (snd kv :: map snd d)) with (snd kv + zsum (map snd d)).
  destruct (f (fst kv) (snd kv)); cbn [map]; [change (zsum (snd kv :: map snd (filter (fun kv => f (fst kv) (snd kv)) d))) with (snd kv + zsum (map snd (filter (fun kv => f (fst kv) (snd kv)) d)))|]; lia.
Qed.
Definition cov (c : ecounter) : Prop := (ec_coverage c == 1 - inject_Z (zsum (dvals (ec_counter c))) / inject_Z (ec_sum c))%Q.
Lemma Qdiv01 a b : 0 <= a <= b -> 0 < b -> (0 <= inject_Z a / inject_Z b <= 1)%Q.
Proof.
  intros A B. split.
  - apply Qle_shift_div_l; [change 0%Q with (inject_Z 0); rewrite <- Zlt_Qlt; lia|]. rewrite Qmult_0_l. change 0%Q with (inject_Z 0). rewrite <- Zle_Qle. lia.
  - apply Qle_shift_div_r; [change 0%Q with (inject_Z 0); rewrite <- Zlt_Qlt; lia|]. rewrite Qmult_1_l, <- Zle_Qle. lia.
Qed.
Lemma remove_covered_spec c es : cnt_ok (ec_counter c) -> 0 < ec_sum c -> zsum (dvals (ec_counter c)) <= ec_sum c ->
  exists c', remove_covered c es = (c', None) /\ ec_counter c' = dfilter (fun k _ => negb (mem k es)) (ec_counter c) /\ ec_sum c' = ec_sum c /\
    cov c' /\ (0 <= ec_coverage c' <= 1)%Q /\ cnt_ok (ec_counter c') /\ zsum (dvals (ec_counter c')) <= zsum (dvals (ec_counter c)).
Proof.
  intros C S L. unfold remove_covered. replace (ec_sum c =? 0) with false by lia.
  set (d := dfilter (fun k _ => negb (mem k es)) (ec_counter c)).
  assert (Z1 : 0 <= zsum (dvals d) <= zsum (dvals (ec_counter c))) by (apply zsum_filter_le, C).
  assert (Q1 : (0 <= inject_Z (zsum (dvals d)) / inject_Z (ec_sum c) <= 1)%Q) by (apply Qdiv01; lia).
  set (q := (inject_Z (zsum (dvals d)) / inject_Z (ec_sum c))%Q) in *.
  assert (B : (0 <= 1 - q <= 1)%Q) by (split; [apply (Qplus_le_l _ _ q)|apply (Qplus_le_l _ _ (q - 1))]; ring_simplify; apply Q1).
  replace (Qle_bool 0 (1 - q) && Qle_bool (1 - q) 1) with true.
  2:{ symmetry. apply andb_true_iff. split; apply Qle_bool_iff, B. }
  eexists. split; [reflexivity|]. cbn [ec_counter ec_sum ec_coverage].
  split; [reflexivity|]. split; [reflexivity|]. split; [unfold cov; cbn [ec_counter ec_sum ec_coverage]; apply Qeq_refl|].
  split; [exact B|]. split; [apply cnt_ok_filter; exact C|]. lia.
Qed.
