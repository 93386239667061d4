(** * Proofs about the selection of MaxLRScoreTokenizer (C80) *)
From Coq Require Import QArith Lqa.
From Verif Require Import PyBase PyDict PySort SortLemmas PyText TokenizerModel TokenizerSpec QLemmas MaxScoreProofs MaxScoreProofs2 LRTokProofs LRTokSpec.
Open Scope nat_scope.

(** ** sorting keeps the given order among equals *)
Lemma insert_lex {A} (le : A -> A -> bool) (R : A -> A -> Prop) : (forall x y, le x y = true \/ le y x = true) -> (forall x y z, le x y = true -> le y z = true -> le x z = true) ->
  forall x l, (forall y, In y l -> R x y) -> StronglySorted (fun x y => le x y = true /\ (le y x = true -> R x y)) l -> StronglySorted (fun x y => le x y = true /\ (le y x = true -> R x y)) (insert le x l).
Proof.
  intros TOT TR x l. induction l as [|y l IH]; intros HR HS; cbn [insert]; [repeat constructor|].
  inversion HS as [|? ? S' F]; subst. destruct (le x y) eqn:E.
  - constructor; [exact HS|]. constructor; [split; [exact E|intros _; apply HR; left; reflexivity]|]. apply Forall_forall. intros z I. rewrite Forall_forall in F. destruct (F z I) as [L _]. split; [apply (TR x y z E L)|intros _; apply HR; right; exact I].
  - constructor; [apply IH; [intros z I; apply HR; right; exact I|exact S']|]. apply Forall_forall. intros z I. apply (Permutation_in _ (insert_perm le x l)) in I as [<-|I]; [|rewrite Forall_forall in F; apply F, I].
    destruct (TOT x y) as [H|H]; [congruence|]. split; [exact H|congruence].
Qed.
Lemma sort_lex {A} (le : A -> A -> bool) (R : A -> A -> Prop) l : (forall x y, le x y = true \/ le y x = true) -> (forall x y z, le x y = true -> le y z = true -> le x z = true) ->
  StronglySorted R l -> StronglySorted (fun x y => le x y = true /\ (le y x = true -> R x y)) (sort le l).
Proof.
  intros TOT TR. induction 1 as [|x l S IH F]; cbn [sort]; [constructor|]. apply insert_lex; auto. intros y I. apply sort_In in I. rewrite Forall_forall in F. apply F, I.
Qed.
Lemma SS_weaken {A} (R R' : A -> A -> Prop) l : (forall x y, In x l -> In y l -> R x y -> R' x y) -> StronglySorted R l -> StronglySorted R' l.
Proof.
  intros H S. induction S as [|x l S IH F]; constructor; [apply IH; intros y z I J; apply H; right; assumption|]. rewrite Forall_forall in *. intros y I. apply H; [left; reflexivity|right; exact I|apply F, I].
Qed.
Lemma SS_flat_map {A B} (R : B -> B -> Prop) (f : A -> list B) l : (forall x, In x l -> StronglySorted R (f x)) -> (forall l1 x l2 y u v, l = l1 ++ x :: l2 -> In y l2 -> In u (f x) -> In v (f y) -> R u v) -> StronglySorted R (flat_map f l).
Proof.
  induction l as [|x l IH]; intros H1 H2; cbn [flat_map]; [constructor|]. apply SS_app.
  - apply H1. left. reflexivity.
  - apply IH; [intros y I; apply H1; right; exact I|]. intros l1 y l2 z u v E. apply (H2 (x :: l1) y l2 z u v). rewrite E. reflexivity.
  - intros u v I J. apply in_flat_map in J as (y & J & K). apply (H2 [] x l y u v eq_refl J I K).
Qed.
Lemma seq_split_lt a n l1 x l2 y : seq a n = l1 ++ x :: l2 -> In y l2 -> x < y.
Proof.
  revert a l1. induction n as [|n IH]; intros a l1 E I; [destruct l1; discriminate|]. cbn [seq] in E. destruct l1 as [|z l1].
  - injection E as <- <-. apply in_seq in I. lia.
  - injection E as <- E. apply (IH (S a) l1 E I).
Qed.
Lemma SS_filter {A} (R : A -> A -> Prop) f l : StronglySorted R l -> StronglySorted R (filter f l).
Proof.
  induction 1 as [|x l S IH F]; cbn [filter]; [constructor|]. destruct (f x); [|exact IH]. constructor; [exact IH|]. rewrite Forall_forall in *. intros y I. apply filter_In in I as [I _]. apply F, I.
Qed.

Section LR.
  Variables Dl Dr Pl Pr : dict str Q.
  Variables mld mldr esl eslr : Q.
  Variable t : str.
  Let n := length t.
  Notation cand := (candidate Dl Dr t).
  Notation survivor := (survivor Dl Dr mld mldr esl t).
  Notation close := (close mld mldr esl).

  Lemma maxlen_le d w : dmem d w = true -> length w <= maxlen d.
  Proof.
    unfold maxlen. rewrite dmem_keys. induction (dkeys d) as [|x l IH]; intros I; [destruct I|]. cbn [map fold_right]. destruct I as [->|I]; [lia|]. specialize (IH I). lia.
  Qed.
  (** the candidates are the L-R words of the text, in order *)
  Definition pos_lt (x y : lrw) : Prop := p0 x < p0 y \/ (p0 x = p0 y /\ (p1 x < p1 y \/ (p1 x = p1 y /\ p2 x < p2 y))).
  Lemma init_In w : In w (lr_init_LR Dl Dr t) <-> cand w.
  Proof.
    split.
    - intros I. split; [apply init_LR_ok; exact I|]. unfold lr_init_LR in I. rewrite sort_In, in_flat_map in I. destruct I as ([[l b] e] & _ & J). apply in_flat_map in J as (k & _ & J).
      destruct ((length l =? 1) && (k =? 0)); [destruct J|]. cbv zeta in J. destruct (negb (length (slice e (e + k) t) =? 0) && negb (dmem Dr (slice e (e + k) t))); [destruct J|]. destruct J as [<-|[]]. repeat split.
    - intros ((A & B & C & WL & WR & ML & MR & N1) & SL & SR & TT). unfold lr_init_LR. rewrite sort_In, in_flat_map. exists (wl w, p0 w, p1 w). split.
      + unfold lr_init_L. apply in_flat_map. exists (p0 w). split; [apply in_seq; lia|]. apply in_flat_map. exists (p1 w). rewrite <- WL, ML. split; [|left; reflexivity]. apply in_seq. unfold lmax. pose proof (maxlen_le Dl _ ML) as L. rewrite WL, slice_length in L by lia. lia.
      + apply in_flat_map. exists (p2 w - p1 w). assert (LR : length (wr w) = p2 w - p1 w) by (rewrite WR, slice_length by lia; lia). split.
        * apply in_seq. unfold rmax. destruct MR as [MR|MR]; [rewrite MR in LR; cbn [length] in LR; lia|]. pose proof (maxlen_le Dr _ MR) as L. rewrite LR in L. lia.
        * assert (LL : length (wl w) = p1 w - p0 w) by (rewrite WL, slice_length by lia; lia). rewrite LL. replace (p1 w + (p2 w - p1 w)) with (p2 w) by lia. rewrite <- WR.
          destruct (Nat.eqb_spec (p1 w - p0 w) 1) as [E1|E1]; destruct (Nat.eqb_spec (p2 w - p1 w) 0) as [E2|E2]; cbn [andb].
          1: { exfalso. apply N1. split; [lia|]. destruct (wr w); [reflexivity|cbn [length] in LR; lia]. }
          all: assert (B2 : negb (length (wr w) =? 0) && negb (dmem Dr (wr w)) = false) by (destruct MR as [->| ->]; [reflexivity|apply andb_false_r]); rewrite B2; left; destruct w; cbn in *; congruence.
  Qed.
  Lemma init_sorted : StronglySorted (fun x y => (p2 x <=? p2 y) = true /\ ((p2 y <=? p2 x) = true -> pos_lt x y)) (lr_init_LR Dl Dr t).
  Proof.
    unfold lr_init_LR. apply sort_lex; [intros x y; rewrite !Nat.leb_le; lia|intros x y z; rewrite !Nat.leb_le; lia|].
    apply SS_flat_map.
    - intros [[l b] e] _. apply SS_flat_map.
      + intros k _. destruct ((length l =? 1) && (k =? 0)); [constructor|]. cbv zeta. destruct (negb (length (slice e (e + k) t) =? 0) && negb (dmem Dr (slice e (e + k) t))); repeat constructor.
      + intros l1 k l2 k' u v E I Iu Iv. pose proof (seq_split_lt _ _ _ _ _ _ E I) as L.
        destruct ((length l =? 1) && (k =? 0)); [destruct Iu|]. destruct ((length l =? 1) && (k' =? 0)); [destruct Iv|]. cbv zeta in Iu, Iv.
        destruct (negb (length (slice e (e + k) t) =? 0) && negb (dmem Dr (slice e (e + k) t))); [destruct Iu|]. destruct (negb (length (slice e (e + k') t) =? 0) && negb (dmem Dr (slice e (e + k') t))); [destruct Iv|].
        destruct Iu as [<-|[]], Iv as [<-|[]]. unfold pos_lt. cbn [p0 p1 p2]. lia.
    - intros l1 [[l b] e] l2 [[l' b'] e'] u v E I Iu Iv.
      assert (PU : p0 u = b /\ p1 u = e). { apply in_flat_map in Iu as (k & _ & Iu). destruct ((length l =? 1) && (k =? 0)); [destruct Iu|]. cbv zeta in Iu. destruct (negb (length (slice e (e + k) t) =? 0) && negb (dmem Dr (slice e (e + k) t))); [destruct Iu|]. destruct Iu as [<-|[]]. split; reflexivity. }
      assert (PV : p0 v = b' /\ p1 v = e'). { apply in_flat_map in Iv as (k & _ & Iv). destruct ((length l' =? 1) && (k =? 0)); [destruct Iv|]. cbv zeta in Iv. destruct (negb (length (slice e' (e' + k) t) =? 0) && negb (dmem Dr (slice e' (e' + k) t))); [destruct Iv|]. destruct Iv as [<-|[]]. split; reflexivity. }
      assert (SL : StronglySorted (fun x y : str * nat * nat => snd (fst x) < snd (fst y) \/ (snd (fst x) = snd (fst y) /\ snd x < snd y)) (lr_init_L Dl t)).
      { unfold lr_init_L. apply SS_flat_map.
        - intros x _. apply SS_flat_map.
          + intros y _. cbv zeta. destruct (dmem Dl (slice x y t)); repeat constructor.
          + intros m1 y m2 y' a c E' I' Ia Ic. pose proof (seq_split_lt _ _ _ _ _ _ E' I') as L. cbv zeta in Ia, Ic. destruct (dmem Dl (slice x y t)); [|destruct Ia]. destruct (dmem Dl (slice x y' t)); [|destruct Ic]. destruct Ia as [<-|[]], Ic as [<-|[]]. cbn [fst snd]. lia.
        - intros m1 x m2 x' a c E' I' Ia Ic. pose proof (seq_split_lt _ _ _ _ _ _ E' I') as L. apply in_flat_map in Ia as (y & _ & Ia). apply in_flat_map in Ic as (y' & _ & Ic). cbv zeta in Ia, Ic. destruct (dmem Dl (slice x y t)); [|destruct Ia]. destruct (dmem Dl (slice x' y' t)); [|destruct Ic]. destruct Ia as [<-|[]], Ic as [<-|[]]. cbn [fst snd]. lia. }
      rewrite E in SL. clear - SL I PU PV. assert (H : StronglySorted (fun x y : str * nat * nat => snd (fst x) < snd (fst y) \/ (snd (fst x) = snd (fst y) /\ snd x < snd y)) ((l, b, e) :: l2)).
      { induction l1 as [|a l1 IH]; [exact SL|]. inversion SL; subst. apply IH. assumption. }
      inversion H as [|? ? _ F]; subst. rewrite Forall_forall in F. specialize (F _ I). cbn [fst snd] in F. unfold pos_lt. lia.
  Qed.
  (** the sorted candidates of the first filter *)
  Definition order1 : list lrw := sort (fun x y => Qle_bool (sl y) (sl x)) (lr_init_LR Dl Dr t).
  Lemma order1_sorted : StronglySorted before1 order1.
  Proof.
    unfold order1. eapply SS_weaken; [|apply sort_lex; [| |exact init_sorted]].
    - intros x y _ _ [H1 H2]. cbv beta in *. rewrite !Qle_bool_iff in *. rewrite !Nat.leb_le in H2. unfold before1. destruct (Qlt_le_dec (sl y) (sl x)) as [L|L]; [left; exact L|right]. specialize (H2 L). unfold pos_lt in H2. split; [apply Qle_antisym; assumption|]. destruct H2 as [H3 H4]. destruct (Nat.eq_dec (p2 x) (p2 y)) as [E|E]; [right; split; [exact E|]; specialize (H4 ltac:(lia)); lia|left; lia].
    - intros x y. rewrite !Qle_bool_iff. destruct (Qlt_le_dec (sl x) (sl y)) as [L|L]; [right; apply Qlt_le_weak; exact L|left; exact L].
    - intros x y z. rewrite !Qle_bool_iff. intros H1 H2. eapply Qle_trans; eassumption.
  Qed.
  Lemma order1_In w : In w order1 <-> cand w. Proof. unfold order1. rewrite sort_In. apply init_In. Qed.
  Lemma before1_asym x y : before1 x y -> before1 y x -> False.
  Proof. unfold before1. intros [H|[H1 H2]] [K|[K1 K2]]; try lra; lia. Qed.

  Lemma longer_ok_spec w c b : longer_ok mld mldr esl (sl w) (sl c) = Ok b -> (b = true <-> close w c).
  Proof.
    unfold longer_ok, LRTokSpec.close. destruct (qltb (sl w - sl c) mld) eqn:E1.
    - intros [= <-]. apply qltb_true in E1. tauto.
    - apply qltb_false in E1. destruct (qltb (esl * (1 # 2)) (sl w)) eqn:E2.
      + apply qltb_true in E2. cbv zeta. destruct (Qeq_bool (sl c + (1 # 100000)) 0) eqn:E3; [discriminate|]. intros [= <-]. rewrite qltb_true. apply Qeq_bool_neq in E3. split; [intros H; right; auto|intros [H|(_ & _ & H)]; [lra|exact H]].
      + apply qltb_false in E2. intros [= <-]. split; [discriminate|intros [H|(H & _)]; lra].
  Qed.
  Lemma longer_ok_err w c e : longer_ok mld mldr esl (sl w) (sl c) = Err e -> e = ZeroDivisionError /\ (sl c == - (1 # 100000))%Q.
  Proof.
    unfold longer_ok. destruct (qltb (sl w - sl c) mld); [discriminate|]. destruct (qltb (esl * (1 # 2)) (sl w)); [|discriminate]. cbv zeta. destruct (Qeq_bool (sl c + (1 # 100000)) 0) eqn:E3; [|discriminate]. intros [= <-]. split; [reflexivity|]. apply Qeq_bool_iff in E3. lra.
  Qed.
  Lemma covers_b best c : ((p0 best <? p0 c) || (p1 c <? p1 best) || negb ((p0 c <? p0 best) || (p1 best <? p1 c))) = false <-> covers c best.
  Proof. unfold covers. rewrite !orb_false_iff, negb_false_iff, orb_true_iff, !Nat.ltb_ge, !Nat.ltb_lt. lia. Qed.
  Lemma exist_longer_spec w l b : exist_longer mld mldr esl w l = Ok b -> (b = true <-> exists c, In c l /\ covers c w /\ close w c).
  Proof.
    induction l as [|c l IH]; cbn [exist_longer]; [intros [= <-]; split; [discriminate|intros (? & [] & _)]|].
    destruct ((p0 w <? p0 c) || (p1 c <? p1 w) || negb ((p0 c <? p0 w) || (p1 w <? p1 c))) eqn:B.
    - intros E. rewrite (IH E). assert (NC : ~ covers c w) by (intros H; apply covers_b in H; congruence). split; [intros (x & I & H); exists x; split; [right; exact I|exact H]|]. intros (x & [<-|I] & H1 & H2); [contradiction|exists x; auto].
    - apply covers_b in B. destruct (longer_ok mld mldr esl (sl w) (sl c)) as [[|]|e] eqn:L; cbn [bind]; [| |discriminate]; pose proof (longer_ok_spec _ _ _ L) as LS.
      + intros [= <-]. split; [intros _; exists c; split; [left; reflexivity|]; split; [exact B|apply LS; reflexivity]|reflexivity].
      + intros E. rewrite (IH E). split; [intros (x & I & H); exists x; split; [right; exact I|exact H]|]. intros (x & [<-|I] & H1 & H2); [apply LS in H2; discriminate|exists x; auto].
  Qed.
  Lemma remove_l_loop_spec l l' : remove_l_loop mld mldr esl l = Ok l' -> StronglySorted before1 l -> exists b : lrw -> bool, l' = filter b l /\ forall w, In w l -> (b w = true <-> forall c, In c l -> before1 w c -> covers c w -> ~ close w c).
  Proof.
    revert l'. induction l as [|x l IH]; intros l' E S; cbn [remove_l_loop] in E.
    - injection E as <-. exists (fun _ => true). split; [reflexivity|intros w []].
    - destruct (exist_longer mld mldr esl x l) as [ex|] eqn:EX; [|discriminate]. cbn [bind] in E. destruct (remove_l_loop mld mldr esl l) as [r|] eqn:ER; [|discriminate]. cbn [bind] in E.
      inversion S as [|? ? S' F]; subst. destruct (IH r eq_refl S') as (b & -> & HB). pose proof (exist_longer_spec _ _ _ EX) as HX.
      assert (NI : forall w, In w l -> ~ before1 w x) by (intros w I H; rewrite Forall_forall in F; exact (before1_asym _ _ H (F w I))).
      assert (NX : forall w, In w l -> same_pos x w && (if Qeq_bool (sl x) (sl w) then true else false) = true -> False).
      { intros w I H. rewrite Forall_forall in F. specialize (F w I). apply andb_true_iff in H as [H H']. unfold same_pos in H. rewrite !andb_true_iff, !Nat.eqb_eq in H. destruct (Qeq_bool (sl x) (sl w)) eqn:Q; [|discriminate]. apply Qeq_bool_iff in Q. unfold before1 in F. destruct F as [F|[_ F]]; [lra|lia]. }
      exists (fun w => if same_pos x w && (if Qeq_bool (sl x) (sl w) then true else false) then negb ex else b w). split.
      + injection E as <-. cbn [filter]. assert (SX : same_pos x x && (if Qeq_bool (sl x) (sl x) then true else false) = true) by (unfold same_pos; rewrite !Nat.eqb_refl, (proj2 (Qeq_bool_iff _ _) (Qeq_refl _)); reflexivity).
        cbv beta. rewrite SX. assert (FE : filter (fun w => if same_pos x w && (if Qeq_bool (sl x) (sl w) then true else false) then negb ex else b w) l = filter b l).
        { apply filter_ext_in. intros w I. destruct (same_pos x w && (if Qeq_bool (sl x) (sl w) then true else false)) eqn:Q; [destruct (NX w I Q)|reflexivity]. }
        rewrite FE. destruct ex; reflexivity.
      + intros w [<-|I].
        * assert (SX : same_pos x x && (if Qeq_bool (sl x) (sl x) then true else false) = true) by (unfold same_pos; rewrite !Nat.eqb_refl, (proj2 (Qeq_bool_iff _ _) (Qeq_refl _)); reflexivity). rewrite SX, negb_true_iff. split.
          -- intros -> c [<-|I] B C D; [destruct (before1_asym _ _ B B)|]. assert (T : false = true) by (apply HX; exists c; auto). discriminate.
          -- intros H. destruct ex; [|reflexivity]. destruct (proj1 HX eq_refl) as (c & I & C & D). exfalso. rewrite Forall_forall in F. apply (H c (or_intror I) (F c I) C D).
        * destruct (same_pos x w && (if Qeq_bool (sl x) (sl w) then true else false)) eqn:Q; [destruct (NX w I Q)|]. rewrite (HB w I). split.
          -- intros H c [<-|J] B; [destruct (NI w I B)|apply H; assumption].
          -- intros H c J. apply H. right. exact J.
  Qed.
  (** the first filter *)
  Lemma remove_l_subset_spec l' : remove_l_subset mld mldr esl (lr_init_LR Dl Dr t) = Ok l' -> StronglySorted before1 l' /\ forall w, In w l' <-> survivor w.
  Proof.
    unfold remove_l_subset. fold order1. intros E. destruct (remove_l_loop_spec _ _ E order1_sorted) as (b & -> & HB). split; [apply SS_filter, order1_sorted|].
    intros w. rewrite filter_In. unfold LRTokSpec.survivor. rewrite order1_In. split; intros [C H]; (split; [exact C|]).
    - intros c C' . apply HB; [apply order1_In, C|exact H|apply order1_In, C'].
    - apply HB; [apply order1_In, C|]. intros c I. apply H. apply order1_In, I.
  Qed.
  Lemma remove_l_loop_ok l : (forall c, In c l -> ~ (sl c == - (1 # 100000))%Q) -> exists l', remove_l_loop mld mldr esl l = Ok l'.
  Proof.
    induction l as [|x l IH]; intros H; cbn [remove_l_loop]; [eauto|]. destruct IH as [r ER]; [intros c I; apply H; right; exact I|].
    assert (EX : exists ex, exist_longer mld mldr esl x l = Ok ex).
    { clear r ER. induction l as [|c l IH]; cbn [exist_longer]; [eauto|]. destruct ((p0 x <? p0 c) || (p1 c <? p1 x) || negb ((p0 c <? p0 x) || (p1 x <? p1 c))); [apply IH; intros d [<-|I]; apply H; [left; reflexivity|right; right; exact I]|].
      destruct (longer_ok mld mldr esl (sl x) (sl c)) as [[|]|e] eqn:L; cbn [bind]; [eauto|apply IH; intros d [<-|I]; apply H; [left; reflexivity|right; right; exact I]|]. apply longer_ok_err in L as [_ L]. destruct (H c (or_intror (or_introl eq_refl)) L). }
    destruct EX as [ex ->]. cbn [bind]. rewrite ER. cbn [bind]. eauto.
  Qed.
End LR.
