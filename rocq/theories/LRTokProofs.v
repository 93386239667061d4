(** * Proofs about MaxLRScoreTokenizer (C23) *)
From Coq Require Import QArith Lqa.
From Verif Require Import PyBase PyDict PySort SortLemmas PyText TokenizerModel TokenizerSpec QLemmas RegexTokProofs MaxScoreProofs MaxScoreProofs2.
Open Scope nat_scope.

(** text of a list of L-R words *)
Definition lrtext (ws : list lrw) : str := concat (map (fun w => wl w ++ wr w) ws).
Lemma lrtext_app a b : lrtext (a ++ b) = lrtext a ++ lrtext b.
Proof. unfold lrtext. rewrite map_app, concat_app. reflexivity. Qed.
Lemma lr_flatten_text ws : concat (map fst (lr_flatten ws)) = lrtext ws.
Proof.
  unfold lr_flatten, lrtext. induction ws as [|w ws IH]; [reflexivity|]. cbn [flat_map app filter map concat].
  destruct (wl w) as [|c l] eqn:E1, (wr w) as [|d r] eqn:E2; cbn [fst length Nat.eqb negb filter map concat app]; rewrite IH, ?app_nil_r, <- ?app_assoc; reflexivity.
Qed.

Lemma perm4 {A} (m a c b : list A) : Permutation (m ++ a ++ c ++ b) (a ++ (m ++ b) ++ c).
Proof.
  rewrite (app_assoc m a), (Permutation_app_comm m a), <- !app_assoc. apply Permutation_app_head, Permutation_app_head, Permutation_app_comm.
Qed.

Section LR.
  Variables Dl Dr Pl Pr : dict str Q.
  Variables mld mldr esl eslr : Q.
  Variable t : str.
  Let n := length t.
  Notation lrok := (lrok Dl Dr t).


  Lemma init_LR_ok w : In w (lr_init_LR Dl Dr t) -> lrok w.
  Proof.
    unfold lr_init_LR. rewrite sort_In, in_flat_map. intros ([[l b] e] & I & J). apply in_flat_map in J as (k & Ik & J).
    unfold lr_init_L in I. apply in_flat_map in I as (b' & Ib & I). apply in_flat_map in I as (e' & Ie & I).
    destruct (dmem Dl (slice b' e' t)) eqn:M; [|destruct I]. destruct I as [E|[]]. injection E as <- <- <-.
    apply in_seq in Ib, Ie, Ik. fold n in Ib, Ie, Ik.
    assert (Le : e' <= n) by lia. rewrite slice_length in J by exact Le.
    destruct (Nat.eqb_spec (e' - b') 1) as [E1|E1]; destruct (Nat.eqb_spec k 0) as [E2|E2]; cbn [andb] in J; try (destruct J; fail).
    all: destruct (negb (length (slice e' (e' + k) t) =? 0) && negb (dmem Dr (slice e' (e' + k) t))) eqn:R; [destruct J|];
      destruct J as [<-|[]]; unfold TokenizerSpec.lrok; cbn [p0 p1 p2 wl wr];
      repeat split; try lia; try assumption;
      try (apply andb_false_iff in R; rewrite !negb_false_iff in R; destruct R as [R|R]; [left; apply length_zero_iff_nil, Nat.eqb_eq, R|right; exact R]);
      try (intros [H1 H2]; apply (f_equal (fun l => length l)) in H2; rewrite slice_length in H2 by lia; simpl in H2; lia).
  Qed.

  Lemma remove_l_loop_In l : forall l', remove_l_loop mld mldr esl l = Ok l' -> forall w, In w l' -> In w l.
  Proof.
    induction l as [|b l IH]; intros l' E w I; simpl in E; [injection E as <-; destruct I|].
    destruct (exist_longer mld mldr esl b l) as [ex|]; [|discriminate]. destruct (remove_l_loop mld mldr esl l) as [r|]; [|discriminate].
    cbn [bind] in E. injection E as <-. destruct ex; [right; eapply IH; eauto|]. destruct I as [<-|I]; [left; reflexivity|right; eapply IH; eauto].
  Qed.

  Lemma score_loop_ok all cands : forall scored, Forall lrok scored -> Forall lrok cands -> Forall lrok (lr_score_loop Pl Pr esl eslr all scored cands).
  Proof.
    induction cands as [|c cs IH]; intros scored F G; simpl; [exact F|]. inversion G as [|? ? Hc G']; subst.
    destruct (r_overlapped Pl esl eslr all scored c); [apply IH; assumption|]. apply IH; [|exact G'].
    apply Forall_app. split; [exact F|]. constructor; [|constructor]. exact Hc.
  Qed.

  Definition lrdisj (l : list lrw) : Prop := NoDup l /\ forall x y, In x l -> In y l -> x <> y -> lr_overlaps x y = false.
  Lemma lr_overlaps_false x y : lr_overlaps x y = false <-> p2 y <= p0 x \/ p2 x <= p0 y.
  Proof. unfold lr_overlaps. qb. lia. Qed.
  Lemma lr_pick_In f : forall l w, In w (lr_pick f l) -> In w l.
  Proof.
    induction f as [|f IH]; intros l w I; [destruct I|]. destruct l as [|x l]; [destruct I|]. destruct I as [<-|I]; [left; reflexivity|].
    apply IH, filter_In in I. right. apply I.
  Qed.
  Lemma lr_pick_disj f : forall l, (forall x, In x l -> p0 x < p2 x) -> lrdisj (lr_pick f l).
  Proof.
    induction f as [|f IH]; intros l W; [split; [constructor|intros ? ? []]|]. destruct l as [|x l]; [split; [constructor|intros ? ? []]|]. simpl.
    destruct (IH (filter (fun c => negb (lr_overlaps x c)) l)) as [ND D]. { intros y I. apply filter_In in I as [I _]. apply W. right. exact I. }
    assert (X : forall y, In y (lr_pick f (filter (fun c => negb (lr_overlaps x c)) l)) -> lr_overlaps x y = false).
    { intros y I. apply lr_pick_In, filter_In in I as [_ I]. apply negb_true_iff, I. }
    split.
    - constructor; [|exact ND]. intros I. apply X, lr_overlaps_false in I. specialize (W x (or_introl eq_refl)). lia.
    - intros a b [<-|Ia] [<-|Ib] N; [congruence|apply X, Ib| |apply D; assumption].
      apply X, lr_overlaps_false in Ia. apply lr_overlaps_false. lia.
  Qed.

  (** the selected words: valid, disjoint, in order *)
  Lemma lr_best_ok best : lr_best Dl Dr Pl Pr mld mldr esl eslr t = Ok best -> Forall lrok best /\ StronglySorted (fun x y => p2 x <= p0 y) best.
  Proof.
    unfold lr_best. destruct (remove_l_subset mld mldr esl (lr_init_LR Dl Dr t)) as [c|] eqn:E; [|discriminate]. cbn [bind]. intros H. injection H as <-.
    assert (Fc : Forall lrok c).
    { apply Forall_forall. intros w I. apply init_LR_ok. unfold remove_l_subset in E. apply (remove_l_loop_In _ _ E) in I. apply sort_In in I. exact I. }
    assert (Fs : Forall lrok (lr_score Pl Pr esl eslr c)).
    { unfold lr_score. apply score_loop_ok; [constructor|]. eapply Permutation_Forall; [apply Permutation_sym, sort_perm|exact Fc]. }
    unfold lr_find_best. set (s := sort (fun x y => Qle_bool (total y) (total x)) (lr_score Pl Pr esl eslr c)).
    assert (Fp : Forall lrok (lr_pick (length s) s)).
    { apply Forall_forall. intros w I. apply lr_pick_In in I. unfold s in I. apply sort_In in I. rewrite Forall_forall in Fs. apply Fs, I. }
    assert (D : lrdisj (lr_pick (length s) s)).
    { apply lr_pick_disj. intros x I. unfold s in I. apply sort_In in I. rewrite Forall_forall in Fs. destruct (Fs x I) as (? & ? & _). lia. }
    split; [eapply Permutation_Forall; [apply Permutation_sym, sort_perm|exact Fp]|].
    generalize (lr_pick (length s) s) as l, Fp, D. clear - n. intros l F D.
    assert (F' : Forall lrok (sort le_p0 l)) by (eapply Permutation_Forall; [apply Permutation_sym, sort_perm|exact F]).
    assert (D' : lrdisj (sort le_p0 l)).
    { destruct D as [ND D]. split; [eapply Permutation_NoDup; [apply Permutation_sym, sort_perm|exact ND]|]. intros x y Ix Iy. apply sort_In in Ix, Iy. apply D; assumption. }
    pose proof (sort_sorted le_p0 (le_key_total p0) (le_key_trans p0) l) as S. unfold sorted_le in S.
    induction S as [|x m S IH Fx]; constructor.
    - inversion F'; subst. apply IH; [assumption|]. destruct D' as [ND' D']. split; [inversion ND'; assumption|]. intros; apply D'; auto; right; assumption.
    - rewrite Forall_forall in Fx, F' |- *. intros y I. specialize (Fx y I). unfold le_p0 in Fx. qb. destruct D' as [ND D'].
      assert (N : x <> y) by (intros ->; inversion ND; contradiction).
      specialize (D' x y (or_introl eq_refl) (or_intror I) N). apply lr_overlaps_false in D'. destruct (F' y (or_intror I)) as (? & ? & _). lia.
  Qed.

  (** ** base tokens *)
  Lemma split_nonspace s : s <> [] -> Forall (fun c => nonspace c = true) s -> split s = [s].
  Proof.
    intros N F. unfold split. rewrite <- (app_nil_r s) at 1. rewrite runs_run; [reflexivity|exact N|exact F|exact I].
  Qed.
  Lemma lr_base_ok s b ws : Forall (fun c => nonspace c = true) s -> lr_base Dr s b = Ok ws ->
    lrtext ws = s /\ Forall (fun w => p0 w = b /\ wr w = [] /\ dmem Dr (wl w) = false) ws.
  Proof.
    intros F E. unfold lr_base in E. destruct (ms_flat_text Dr 0%Q 10 s) as (ts & Et & C & _); [lia|]. rewrite Et in E. cbn [bind] in E.
    rewrite filter_nonspace_id in C by exact F. rewrite <- C. clear Et C F. revert ws E. induction ts as [|w ts IH]; intros ws E; simpl in E.
    - injection E as <-. split; [reflexivity|constructor].
    - destruct (dmem Dr w) eqn:M; [discriminate|]. cbn [bind] in E. destruct (mapM _ ts) as [r|]; [|discriminate]. cbn [bind] in E. injection E as <-.
      destruct (IH r eq_refl) as [E1 E2]. split.
      + unfold lrtext in *. cbn [map concat wl wr]. rewrite E1, app_nil_r. reflexivity.
      + constructor; [auto|exact E2].
  Qed.

  Hypothesis t_ns : Forall (fun c => nonspace c = true) t.
  Lemma slice_ns b e : Forall (fun c => nonspace c = true) (slice b e t).
  Proof. unfold slice. apply Forall_forall. intros c I. rewrite Forall_forall in t_ns. apply t_ns. rewrite <- (firstn_skipn b t). apply in_or_app. right. rewrite <- (firstn_skipn (e - b) (skipn b t)). apply in_or_app. left. exact I. Qed.

  Definition bok := block_ok p0.
  Definition sing (w : lrw) : block (A := lrw) := (p0 w, [w]).
  Lemma flat_sing ws : flat (map sing ws) = ws.
  Proof. unfold flat. induction ws as [|w ws IH]; simpl; [reflexivity|]. rewrite IH. reflexivity. Qed.
  Lemma flat_app {A} (a b : list (block (A := A))) : flat (a ++ b) = flat a ++ flat b.
  Proof. apply flat_map_app. Qed.
  Lemma lrok_text w : lrok w -> wl w ++ wr w = slice (p0 w) (p2 w) t.
  Proof. intros (A & B & C & -> & -> & _). apply slice_app; lia. Qed.

  Lemma inter_blocks x l : forall a3, Forall lrok (x :: l) -> StronglySorted (fun x y => p2 x <= p0 y) (x :: l) -> lr_inter Dr t (x :: l) = Ok a3 ->
    exists B W, a3 = flat B /\ Permutation (map sing (x :: l) ++ B) W /\ Forall bok W /\
      StronglySorted (fun b c : block (A := lrw) => fst b < fst c) W /\ (forall b, In b W -> p0 x <= fst b <= p0 (last (x :: l) x)) /\
      lrtext (flat W) = slice (p0 x) (p2 (last (x :: l) x)) t.
  Proof.
    revert x. induction l as [|y l IH]; intros x a3 F S E.
    - cbn [lr_inter] in E. injection E as <-. exists [], [sing x]. inversion F as [|? ? Ox _]; subst. cbn [map app last].
      split; [reflexivity|]. split; [reflexivity|]. split; [constructor; [|constructor]; unfold bok, block_ok, sing; simpl; auto|].
      split; [repeat constructor|]. split; [intros b [<-|[]]; simpl; lia|].
      cbn [flat flat_map sing snd app]. unfold lrtext. cbn [map concat]. rewrite app_nil_r. apply lrok_text, Ox.
    - change (lr_inter Dr t (x :: y :: l)) with (do a <- (if p2 x =? p0 y then Ok [] else lr_base Dr (slice (p2 x) (p0 y) t) (p2 x)); do b <- lr_inter Dr t (y :: l); Ok (a ++ b)) in E.
      destruct (if p2 x =? p0 y then Ok [] else lr_base Dr (slice (p2 x) (p0 y) t) (p2 x)) as [a|] eqn:Ea; [|discriminate]. cbn [bind] in E.
      destruct (lr_inter Dr t (y :: l)) as [b|] eqn:Eb; [|discriminate]. cbn [bind] in E. injection E as <-.
      inversion F as [|? ? Ox F']; inversion S as [|? ? S' Fx]; subst.
      destruct (IH y b F' S' Eb) as (B & W & EB & P & FW & SW & RW & TW).
      assert (El : last (x :: y :: l) x = last (y :: l) y) by (change (last (x :: y :: l) x) with (last (y :: l) x); apply last_default).
      rewrite El. inversion Fx as [|? ? Lxy Fl]; subst. pose proof Ox as (Ox1 & Ox2 & Ox3 & _). inversion F' as [|? ? Oy _]; subst. pose proof Oy as (Oy1 & Oy2 & Oy3 & _).
      assert (Lyl : p0 y <= p0 (last (y :: l) y)).
      { assert (I : In (last (y :: l) y) (y :: l)) by (apply last_In; discriminate). destruct I as [<-|I]; [lia|]. inversion S' as [|? ? _ Fy]; subst. rewrite Forall_forall in Fy. specialize (Fy _ I). lia. }
      assert (Ll2 : p0 (last (y :: l) y) <= p2 (last (y :: l) y)).
      { assert (I : In (last (y :: l) y) (y :: l)) by (apply last_In; discriminate). rewrite Forall_forall in F'. destruct (F' _ I) as (? & ? & _). lia. }
      destruct (Nat.eqb_spec (p2 x) (p0 y)) as [Exy|Nxy].
      + injection Ea as <-. exists B, (sing x :: W). split; [reflexivity|]. split; [cbn [map app]; constructor; exact P|].
        split; [constructor; [unfold bok, block_ok, sing; simpl; auto|exact FW]|].
        split. { constructor; [exact SW|]. apply Forall_forall. intros c I. apply RW in I. cbn [sing fst]. lia. }
        split. { intros c [<-|I]; [cbn [sing fst]; lia|]. apply RW in I. lia. }
        change (flat (sing x :: W)) with ([x] ++ flat W). rewrite lrtext_app, TW. unfold lrtext at 1. cbn [map concat]. rewrite app_nil_r, (lrok_text x Ox), Exy. apply slice_app; lia.
      + destruct (lr_base_ok _ _ _ (slice_ns _ _) Ea) as [Ta Fa].
        exists ((p2 x, a) :: B), (sing x :: (p2 x, a) :: W). split; [reflexivity|].
        split. { cbn [map app]. constructor. change (sing y :: map sing l ++ (p2 x, a) :: B) with (map sing (y :: l) ++ (p2 x, a) :: B). rewrite <- Permutation_middle. constructor. exact P. }
        split. { constructor; [unfold bok, block_ok, sing; simpl; auto|]. constructor; [|exact FW]. unfold bok, block_ok. simpl. eapply Forall_impl; [|exact Fa]. intros w [H _]; exact H. }
        split. { constructor; [constructor; [exact SW|]|].
          - apply Forall_forall. intros c I. apply RW in I. cbn [sing fst]. lia.
          - constructor; [cbn [sing fst]; lia|]. apply Forall_forall. intros c I. apply RW in I. cbn [sing fst]. lia. }
        split. { intros c [<-|[<-|I]]; [cbn [sing fst]; lia|cbn [sing fst]; lia|]. apply RW in I. lia. }
        change (flat (sing x :: (p2 x, a) :: W)) with ([x] ++ a ++ flat W). rewrite !lrtext_app, TW, Ta. unfold lrtext at 1. cbn [map concat]. rewrite app_nil_r, (lrok_text x Ox).
        rewrite slice_app by lia. apply slice_app; lia.
  Qed.

  Definition opt_block (c : bool) (k : nat) (a : list lrw) : list (block (A := lrw)) := if c then [(k, a)] else [].
  Lemma sort_le_p0 bs bs' l : l = flat bs -> Permutation bs bs' -> Forall bok bs -> StronglySorted (fun b c : block (A := lrw) => fst b < fst c) bs' -> sort le_p0 l = flat bs'.
  Proof. apply (sort_blocks p0). Qed.

  Lemma lr_postprocessing_text w0 ws post : Forall lrok (w0 :: ws) -> StronglySorted (fun x y => p2 x <= p0 y) (w0 :: ws) ->
    lr_postprocessing Dr t (w0 :: ws) = Ok post ->
    let wn := last (w0 :: ws) w0 in lrtext post = firstn (p2 wn) t ++ skipn (p1 wn) t.
  Proof.
    intros F S E wn. unfold lr_postprocessing in E. fold wn n in E.
    assert (Iwn : In wn (w0 :: ws)) by (apply last_In; discriminate).
    pose proof F as F0. rewrite Forall_forall in F0. pose proof (F0 _ Iwn) as (Wn1 & Wn2 & Wn3 & _). pose proof (F0 w0 (or_introl eq_refl)) as (Z1 & Z2 & Z3 & _).
    assert (L0n : p0 w0 <= p0 wn). { destruct Iwn as [<-|I]; [lia|]. inversion S as [|? ? _ Fx]; subst. rewrite Forall_forall in Fx. specialize (Fx _ I). lia. }
    destruct (if 0 <? p0 w0 then lr_base Dr (firstn (p0 w0) t) 0 else Ok []) as [a1|] eqn:E1; [|discriminate]. cbn [bind] in E.
    destruct (if p1 wn <? n then lr_base Dr (skipn (p1 wn) t) (p1 wn) else Ok []) as [a2|] eqn:E2; [|discriminate]. cbn [bind] in E.
    destruct (lr_inter Dr t (w0 :: ws)) as [a3|] eqn:E3; [|discriminate]. cbn [bind] in E. injection E as <-.
    destruct (inter_blocks w0 ws a3 F S E3) as (B & W & EB & P & FW & SW & RW & TW). fold wn in RW, TW.
    set (B1 := opt_block (0 <? p0 w0) 0 a1).
    set (B2 := opt_block (p1 wn <? n) (p1 wn) a2).
    assert (X1 : a1 = flat B1 /\ Forall bok B1 /\ lrtext a1 = firstn (p0 w0) t /\ StronglySorted (fun b c : block (A := lrw) => fst b < fst c) B1 /\ (forall b, In b B1 -> fst b < p0 w0)).
    { unfold B1, opt_block. destruct (Nat.ltb_spec 0 (p0 w0)) as [H|H].
      - assert (NS : Forall (fun c => nonspace c = true) (firstn (p0 w0) t)). { pose proof (slice_ns 0 (p0 w0)) as X. unfold slice in X. rewrite Nat.sub_0_r in X. exact X. }
        destruct (lr_base_ok _ _ _ NS E1) as [T1 F1]. cbn [flat flat_map snd]. rewrite app_nil_r. split; [reflexivity|]. split.
        + constructor; [|constructor]. unfold bok, block_ok. simpl. eapply Forall_impl; [|exact F1]. intros w [H' _]; exact H'.
        + split; [exact T1|]. split; [repeat constructor|]. intros b [<-|[]]. simpl. lia.
      - injection E1 as <-. split; [reflexivity|]. split; [constructor|]. replace (p0 w0) with 0 by lia. split; [reflexivity|]. split; [constructor|]. intros b []. }
    assert (X2 : a2 = flat B2 /\ Forall bok B2 /\ lrtext a2 = skipn (p1 wn) t /\ StronglySorted (fun b c : block (A := lrw) => fst b < fst c) B2 /\ (forall b, In b B2 -> p0 wn < fst b)).
    { unfold B2, opt_block. destruct (Nat.ltb_spec (p1 wn) n) as [H|H].
      - assert (NS : Forall (fun c => nonspace c = true) (skipn (p1 wn) t)).
        { pose proof (slice_ns (p1 wn) n) as X. unfold slice in X. rewrite firstn_all2 in X by (rewrite skipn_length; fold n; lia). exact X. }
        destruct (lr_base_ok _ _ _ NS E2) as [T1 F1]. cbn [flat flat_map snd]. rewrite app_nil_r. split; [reflexivity|]. split.
        + constructor; [|constructor]. unfold bok, block_ok. simpl. eapply Forall_impl; [|exact F1]. intros w [H' _]; exact H'.
        + split; [exact T1|]. split; [repeat constructor|]. intros b [<-|[]]. simpl. lia.
      - injection E2 as <-. split; [reflexivity|]. split; [constructor|]. split; [|split; [constructor|intros b []]]. rewrite skipn_all2 by (fold n; lia). reflexivity. }
    destruct X1 as (A1 & O1 & T1 & S1 & R1), X2 as (A2 & O2 & T2 & S2 & R2).
    transitivity (lrtext (flat (B1 ++ W ++ B2))); [f_equal; change (sort le_p0 ((w0 :: ws) ++ a1 ++ a2 ++ a3) = flat (B1 ++ W ++ B2)); apply (sort_le_p0 (map sing (w0 :: ws) ++ B1 ++ B2 ++ B) (B1 ++ W ++ B2))|].
    - rewrite !flat_app, flat_sing. rewrite <- A1, <- A2, <- EB. reflexivity.
    - rewrite perm4. apply Permutation_app_head, Permutation_app_tail, P.
    - apply Forall_app. split; [|apply Forall_app; split; [exact O1|apply Forall_app; split; [exact O2|]]].
      + apply Forall_forall. intros b I. apply in_map_iff in I as (w & <- & _). unfold bok, block_ok, sing. simpl. auto.
      + apply Forall_forall. intros b I. rewrite Forall_forall in FW. apply FW. eapply Permutation_in; [exact P|]. apply in_or_app. right. exact I.
    - apply SS_app; [exact S1| |].
      + apply SS_app; [exact SW|exact S2|]. intros b c Ib Ic. apply RW in Ib. apply R2 in Ic. lia.
      + intros b c Ib Ic. apply R1 in Ib. apply in_app_or in Ic as [Ic|Ic]; [apply RW in Ic; lia|]. apply R2 in Ic.
        lia.
    - rewrite !flat_app, !lrtext_app, TW, <- A1, <- A2, T1, T2. rewrite app_assoc. f_equal.
      rewrite <- (Nat.sub_0_r (p0 w0)) at 1. change (firstn (p0 w0 - 0) t) with (slice 0 (p0 w0) t). rewrite slice_app; [unfold slice; rewrite Nat.sub_0_r; reflexivity|lia|].
      lia.
  Qed.

  (** the text of the output *)
  Lemma lr_tokenize1_text best post : lr_best Dl Dr Pl Pr mld mldr esl eslr t = Ok best ->
    lr_tokenize1 Dl Dr Pl Pr mld mldr esl eslr t = Ok post ->
    lrtext post = match rev best with [] => t | wn :: _ => firstn (p2 wn) t ++ skipn (p1 wn) t end.
  Proof.
    intros Eb E. destruct (lr_best_ok best Eb) as [F S]. unfold lr_tokenize1 in E. rewrite Eb in E. cbn [bind] in E.
    destruct best as [|w0 ws].
    - apply lr_base_ok in E as [T _]; [exact T|exact t_ns].
    - pose proof (lr_postprocessing_text w0 ws post F S E) as T. cbv zeta in T. rewrite T.
      destruct (last_nonnil (w0 :: ws) ltac:(discriminate)) as (l' & x & El). rewrite El, rev_app_distr, last_last. reflexivity.
  Qed.
End LR.
