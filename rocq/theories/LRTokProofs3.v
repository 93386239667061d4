(** * Proofs about the scoring and selection of MaxLRScoreTokenizer (C80) *)
From Coq Require Import QArith Lqa.
From Verif Require Import PyBase PyDict PySort SortLemmas PyText TokenizerModel TokenizerSpec QLemmas MaxScoreProofs MaxScoreProofs2 LRTokProofs LRTokSpec LRTokProofs2.
Open Scope nat_scope.

(** a predicate defined from its values at earlier elements of an order is unique *)
Lemma order_unique {A} (R : A -> A -> Prop) (O : list A) (F : (A -> Prop) -> A -> Prop) (K K' : A -> Prop) :
  (forall x y, R x y -> R y x -> False) -> StronglySorted R O -> (forall J J' v, (forall w, R w v -> (J w <-> J' w)) -> (F J v <-> F J' v)) ->
  (forall J v, F J v -> In v O) -> (forall v, K v <-> F K v) -> (forall v, K' v <-> F K' v) -> forall v, K v <-> K' v.
Proof.
  intros AS S HF HO HK HK'.
  assert (M : forall n l1 v l2, length l1 <= n -> O = l1 ++ v :: l2 -> (K v <-> K' v)).
  { induction n as [|n IH]; intros l1 v l2 L E.
    - destruct l1; [|cbn [length] in L; lia]. rewrite HK, HK'. apply HF. intros w RW.
      assert (N : ~ In w O). { rewrite E. intros [<-|I]; [exact (AS _ _ RW RW)|]. rewrite E in S. inversion S as [|? ? _ FA]; subst. rewrite Forall_forall in FA. exact (AS _ _ RW (FA w I)). }
      split; intros H; exfalso; apply N; [apply HK in H|apply HK' in H]; apply HO in H; exact H.
    - rewrite HK, HK'. apply HF. intros w RW.
      assert (N : In w O -> exists a b, l1 = a ++ w :: b).
      { rewrite E. intros I. apply in_app_or in I as [I|[<-|I]]; [apply in_split in I as (a & b & ->); eauto|destruct (AS _ _ RW RW)|]. exfalso. rewrite E in S. assert (S2 : StronglySorted R (v :: l2)) by (clear - S; induction l1 as [|x l1 IH]; [exact S|inversion S; subst; auto]). inversion S2 as [|? ? _ FA]; subst. rewrite Forall_forall in FA. exact (AS _ _ RW (FA w I)). }
      assert (G : In w O -> (K w <-> K' w)). { intros I. destruct (N I) as (a & b & E1). apply (IH a w (b ++ v :: l2)); [rewrite E1, app_length in L; cbn [length] in L; lia|]. rewrite E, E1, <- app_assoc. reflexivity. }
      split; intros H; apply G; try exact H; [apply HK in H|apply HK' in H]; apply HO in H; exact H. }
  intros v. split; intros H.
  - assert (I : In v O) by (apply HK in H; apply HO in H; exact H). apply in_split in I as (a & b & E). apply (M (length a) a v b (le_n _) E), H.
  - assert (I : In v O) by (apply HK' in H; apply HO in H; exact H). apply in_split in I as (a & b & E). apply (M (length a) a v b (le_n _) E), H.
Qed.
Lemma SS_tail {A} (R : A -> A -> Prop) l1 l2 : StronglySorted R (l1 ++ l2) -> StronglySorted R l2.
Proof. induction l1 as [|x l1 IH]; [auto|]. intros S. inversion S; subst. auto. Qed.
Lemma SS_before {A} (R : A -> A -> Prop) l1 v l2 w : (forall x y, R x y -> R y x -> False) -> StronglySorted R (l1 ++ v :: l2) -> In w (l1 ++ v :: l2) -> (In w l1 <-> R w v).
Proof.
  intros AS S I. split.
  - clear I. intros I. induction l1 as [|x l1 IH]; [destruct I|]. cbn [app] in S. inversion S as [|? ? S' F]; subst. destruct I as [<-|I]; [rewrite Forall_forall in F; apply F, in_or_app; right; left; reflexivity|apply IH; assumption].
  - intros RW. apply in_app_or in I as [I|[<-|I]]; [exact I|destruct (AS _ _ RW RW)|]. apply SS_tail in S. inversion S as [|? ? _ F]; subst. rewrite Forall_forall in F. destruct (AS _ _ RW (F w I)).
Qed.
Lemma filter_len_le {A} (f : A -> bool) l : length (filter f l) <= length l.
Proof. induction l as [|x l IH]; cbn [filter length]; [lia|]. destruct (f x); cbn [length]; lia. Qed.
Lemma before2_asym x y : before2 x y -> before2 y x -> False.
Proof. unfold before2. intros [H|[H [H1|[H1 H2]]]] [K|[K [K1|[K1 K2]]]]; try lra; lia. Qed.
Lemma sc_le_iff x y : sc_le x y = true <-> (sl y < sl x)%Q \/ ((sl x == sl y)%Q /\ ((sr y < sr x)%Q \/ ((sr x == sr y)%Q /\ (p0 x < p0 y \/ (p0 x = p0 y /\ length (wl y) <= length (wl x)))))).
Proof. unfold sc_le. rewrite !orb_true_iff, !andb_true_iff, !orb_true_iff, !andb_true_iff, !orb_true_iff, !andb_true_iff, !qltb_true, !Qeq_bool_iff, Nat.ltb_lt, Nat.eqb_eq, Nat.leb_le. tauto. Qed.
Lemma sc_le_total x y : sc_le x y = true \/ sc_le y x = true.
Proof.
  rewrite !sc_le_iff. destruct (Q_dec (sl x) (sl y)) as [[H|H]|H]; [right; left; exact H|left; left; exact H|].
  destruct (Q_dec (sr x) (sr y)) as [[H'|H']|H']; [right; right; split; [symmetry; exact H|left; exact H']|left; right; split; [exact H|left; exact H']|].
  assert (D : (p0 x < p0 y \/ p0 x = p0 y /\ length (wl y) <= length (wl x)) \/ (p0 y < p0 x \/ p0 y = p0 x /\ length (wl x) <= length (wl y))) by lia.
  destruct D as [D|D]; [left|right]; right; (split; [assumption || (symmetry; assumption)|]); right; (split; [assumption || (symmetry; assumption)|exact D]).
Qed.
Lemma sc_le_trans x y z : sc_le x y = true -> sc_le y z = true -> sc_le x z = true.
Proof.
  rewrite !sc_le_iff. intros [H|[H H']] [K|[K K']]; [left; lra|left; lra|left; lra|]. right. split; [lra|].
  destruct H' as [H'|[H' H2]], K' as [K'|[K' K2]]; [left; lra|left; lra|left; lra|]. right. split; [lra|lia].
Qed.

Section LR.
  Variables Dl Dr Pl Pr : dict str Q.
  Variables mld mldr esl eslr : Q.
  Variable t : str.
  Notation cand := (candidate Dl Dr t).
  Notation survivor := (survivor Dl Dr mld mldr esl t).
  Notation reported := (reported Pl Pr).
  Notation total_score := (total_score Pl Pr).
  Notation before3 := (before3 Pl Pr).
  Notation scoring := (scoring Dl Dr Pl mld mldr esl eslr t).

  Lemma cand_pos x y : cand x -> cand y -> same_pos x y = true -> x = y.
  Proof.
    intros ((_ & _ & _ & A1 & A2 & _) & A3 & A4 & A5) ((_ & _ & _ & B1 & B2 & _) & B3 & B4 & B5) E. unfold same_pos in E. rewrite !andb_true_iff, !Nat.eqb_eq in E. destruct E as [[E0 E1] E2].
    destruct x, y. cbn in *. subst. reflexivity.
  Qed.
  Lemma same_pos_refl x : same_pos x x = true. Proof. unfold same_pos. rewrite !Nat.eqb_refl. reflexivity. Qed.

  (** the candidates in the order of scoring *)
  Section Scoring.
    Variable cs : list lrw.
    Hypothesis cs_sorted : StronglySorted before1 cs.
    Hypothesis cs_In : forall w, In w cs <-> survivor w.
    Definition order2 : list lrw := sort sc_le cs.
    Lemma order2_In w : In w order2 <-> survivor w. Proof. unfold order2. rewrite sort_In. apply cs_In. Qed.
    Lemma order2_sorted : StronglySorted before2 order2.
    Proof.
      unfold order2. eapply SS_weaken; [|apply sort_lex; [exact sc_le_total|exact sc_le_trans|exact cs_sorted]]. cbv beta. intros x y Ix Iy [H1 H2]. rewrite sort_In, cs_In in Ix, Iy. destruct Ix as [((X0 & X2 & X1 & XL & _) & _) _], Iy as [((Y0 & Y2 & Y1 & YL & _) & _) _].
      assert (LX : length (wl x) = p1 x - p0 x) by (rewrite XL, slice_length by lia; lia). assert (LY : length (wl y) = p1 y - p0 y) by (rewrite YL, slice_length by lia; lia).
      rewrite sc_le_iff in H1, H2. unfold before2. destruct H1 as [H1|[H1 [H3|[H3 H4]]]]; [left; exact H1|right; split; [exact H1|left; exact H3]|]. right. split; [exact H1|]. right. split; [exact H3|].
      destruct H4 as [H4|[H4 H5]]; [left; exact H4|right]. split; [exact H4|]. destruct (Nat.eq_dec (p1 x) (p1 y)) as [E|E]; [right|left; lia]. split; [exact E|].
      assert (B : before1 x y) by (apply H2; right; split; [lra|]; right; split; [lra|lia]). unfold before1 in B. destruct B as [B|[_ B]]; [lra|]. lia.
    Qed.
    Definition worry (scored : list lrw) (c w : lrw) : Prop := p1 c <= p0 w < p2 c /\ ((esl <= word_m2 scored w)%Q \/ (eslr < word_m2 scored w + dgetd Pl (wl w) 0%Q - sr c)%Q).
    Lemma r_overlapped_iff all scored c : r_overlapped Pl esl eslr all scored c = true <-> exists w, In w all /\ worry scored c w.
    Proof.
      unfold r_overlapped, worry. rewrite andb_true_iff, negb_true_iff, Nat.eqb_neq, existsb_exists. split.
      - intros [_ (b & I & B)]. apply in_seq in I. apply existsb_exists in B as (w & J & B). rewrite andb_true_iff, Nat.eqb_eq, orb_true_iff, Qle_bool_iff, qltb_true in B. destruct B as [EB B]. exists w. split; [exact J|]. split; [lia|exact B].
      - intros (w & J & P & B). split; [lia|]. exists (p0 w). split; [apply in_seq; lia|]. apply existsb_exists. exists w. split; [exact J|]. rewrite andb_true_iff, Nat.eqb_eq, orb_true_iff, Qle_bool_iff, qltb_true. tauto.
    Qed.
    Lemma score_loop_spec all O : forall acc, StronglySorted (fun x y => same_pos x y = false) O -> exists b : lrw -> bool, lr_score_loop Pl Pr esl eslr all acc O = acc ++ map reported (filter b O) /\
      forall l1 v l2, O = l1 ++ v :: l2 -> b v = negb (r_overlapped Pl esl eslr all (acc ++ map reported (filter b l1)) v).
    Proof.
      induction O as [|c O IH]; intros acc D; cbn [lr_score_loop].
      - exists (fun _ => true). cbn [filter map]. rewrite app_nil_r. split; [reflexivity|]. intros l1 v l2 E. destruct l1; discriminate.
      - inversion D as [|? ? D' F]; subst. rewrite Forall_forall in F. set (o := r_overlapped Pl esl eslr all acc c).
        destruct (IH (if o then acc else acc ++ [reported c]) D') as (b & E & HB).
        exists (fun w => if same_pos c w then negb o else b w).
        assert (FE : forall l, (forall w, In w l -> In w O) -> filter (fun w => if same_pos c w then negb o else b w) l = filter b l) by (intros l HL; apply filter_ext_in; intros w I; rewrite (F w (HL w I)); reflexivity).
        assert (FC : forall l, (forall w, In w l -> In w O) -> acc ++ map reported (filter (fun w => if same_pos c w then negb o else b w) (c :: l)) = (if o then acc else acc ++ [reported c]) ++ map reported (filter b l)).
        { intros l HL. cbn [filter]. rewrite same_pos_refl, (FE l HL). destruct o; cbn [negb map]; [reflexivity|rewrite <- app_assoc; reflexivity]. }
        split.
        + rewrite (FC O) by auto. rewrite <- E. fold o. destruct o; reflexivity.
        + intros [|c' l1] v l2 EQ.
          * injection EQ as <- <-. cbn [filter map]. rewrite app_nil_r, same_pos_refl. reflexivity.
          * injection EQ as <- EQ. assert (HL : forall w, In w l1 -> In w O) by (intros w I; rewrite EQ; apply in_or_app; left; exact I). rewrite (FC l1 HL). rewrite (F v) by (rewrite EQ; apply in_or_app; right; left; reflexivity). apply (HB l1 v l2 EQ).
    Qed.
    (** the scored words, in order *)
    Lemma lr_score_spec : exists b : lrw -> bool, lr_score Pl Pr esl eslr cs = map reported (filter b order2) /\ scoring (fun v => In v (filter b order2)).
    Proof.
      assert (D : StronglySorted (fun x y => same_pos x y = false) order2).
      { eapply SS_weaken; [|exact order2_sorted]. intros x y Ix Iy B. destruct (same_pos x y) eqn:E; [|reflexivity]. apply order2_In in Ix, Iy. apply cand_pos in E; [|apply Ix|apply Iy]. subst y. destruct (before2_asym _ _ B B). }
      destruct (score_loop_spec cs order2 [] D) as (b & E & HB). exists b. split; [exact E|]. cbn [app] in HB.
      intros v. rewrite filter_In, order2_In.
      assert (M2 : forall l1 l2 w, order2 = l1 ++ v :: l2 -> survivor w -> let K := fun w => In w (filter b order2) in
        exists s, word_m2 (map reported (filter b l1)) w = s /\ ((K w /\ before2 w v /\ s = sr w) \/ (~ (K w /\ before2 w v) /\ s = sl w))).
      { intros l1 l2 w EQ SW K. exists (word_m2 (map reported (filter b l1)) w). split; [reflexivity|].
        assert (I : In w order2) by (apply order2_In, SW). pose proof (SS_before before2 l1 v l2 w before2_asym) as BEF. rewrite <- EQ in BEF. specialize (BEF order2_sorted I).
        assert (X : existsb (same_pos w) (map reported (filter b l1)) = true <-> K w /\ before2 w v).
        { rewrite existsb_exists. split.
          - intros (x & J & P). apply in_map_iff in J as (y & <- & J). apply filter_In in J as [J BY]. assert (P' : same_pos w y = true) by exact P.
            assert (IY : In y order2) by (rewrite EQ; apply in_or_app; left; exact J). apply cand_pos in P'; [|apply SW|apply order2_In in IY; apply IY]. subst y. split; [unfold K; apply filter_In; auto|apply BEF, J].
          - intros [KW BW]. exists (reported w). split; [apply in_map, filter_In; split; [apply BEF, BW|unfold K in KW; apply filter_In in KW; apply KW]|exact (same_pos_refl w)]. }
        unfold word_m2. destruct (existsb (same_pos w) (map reported (filter b l1))) eqn:XB; [left|right].
        - destruct (proj1 X eq_refl) as [X1 X2]. auto.
        - split; [|reflexivity]. intros H. apply X in H. discriminate. }
      assert (MAIN : survivor v -> (b v = true <-> ~ exists w s, survivor w /\ p1 v <= p0 w < p2 v /\ ((In w (filter b order2) /\ before2 w v /\ s = sr w) \/ (~ (In w (filter b order2) /\ before2 w v) /\ s = sl w)) /\
        ((esl <= s)%Q \/ (eslr < s + dgetd Pl (wl w) 0%Q - sr v)%Q))).
      { intros SV. assert (I : In v order2) by (apply order2_In, SV). apply in_split in I as (l1 & l2 & EQ). rewrite (HB l1 v l2 EQ), negb_true_iff, <- not_true_iff_false, r_overlapped_iff.
        apply not_iff_compat. split.
        - intros (w & IW & P & H). apply cs_In in IW. destruct (M2 l1 l2 w EQ IW) as (s & ES & HS). cbv zeta in HS. exists w, s. rewrite ES in H. auto.
        - intros (w & s & SW & P & HS & H). exists w. split; [apply cs_In, SW|]. split; [exact P|]. destruct (M2 l1 l2 w EQ SW) as (s' & ES & HS'). cbv zeta in HS'. rewrite ES. assert (s' = s) by (destruct HS as [(A1 & A2 & ->)|(A1 & ->)], HS' as [(B1 & B2 & ->)|(B1 & ->)]; tauto). rewrite H0. exact H. }
      split; [intros [SV BV]; split; [exact SV|apply MAIN; assumption]|intros [SV H]; split; [exact SV|apply MAIN; assumption]].
    Qed.
  End Scoring.

  (** greedy selection *)
  Lemma lr_pick_spec (R : lrw -> lrw -> Prop) f : (forall x y, R x y -> R y x -> False) -> forall l, length l <= f -> StronglySorted R l ->
    forall x, In x (lr_pick f l) <-> In x l /\ forall y, In y (lr_pick f l) -> R y x -> p2 y <= p0 x \/ p2 x <= p0 y.
  Proof.
    intros AS. induction f as [|f IH]; intros l L S x; [destruct l; [|cbn [length] in L; lia]; cbn [lr_pick In]; tauto|]. destruct l as [|h l]; [cbn [lr_pick In]; tauto|]. cbn [lr_pick].
    inversion S as [|? ? S' F]; subst. rewrite Forall_forall in F. assert (L2 : length (filter (fun c => negb (lr_overlaps h c)) l) <= f) by (cbn [length] in L; pose proof (filter_len_le (fun c => negb (lr_overlaps h c)) l); lia).
    specialize (IH _ L2 (SS_filter R _ l S')). set (pk := lr_pick f (filter (fun c => negb (lr_overlaps h c)) l)) in *. assert (SUB : forall y, In y pk -> In y l /\ lr_overlaps h y = false) by (intros y I; apply IH in I as [I _]; apply filter_In in I as [I B]; apply negb_true_iff in B; auto).
    cbn [In]. split.
    - intros [<-|I].
      + split; [left; reflexivity|]. intros y [<-|J] RY; [destruct (AS _ _ RY RY)|]. destruct (AS _ _ RY (F y (proj1 (SUB y J)))).
      + destruct (SUB x I) as [IL NO]. split; [right; exact IL|]. intros y [<-|J] RY; [apply (lr_overlaps_false t) in NO; clear - NO; tauto|]. apply IH in I as [_ I]. apply I; assumption.
    - intros [[->|I] H]; [left; reflexivity|right]. apply IH. split; [apply filter_In; split; [exact I|]|intros y J RY; apply H; [right; exact J|exact RY]].
      apply negb_true_iff, (lr_overlaps_false t). specialize (H h (or_introl eq_refl) (F x I)). clear - H. tauto.
  Qed.
  Lemma before3_asym x y : before3 x y -> before3 y x -> False.
  Proof. unfold LRTokSpec.before3. intros [H|[H H1]] [K|[K K1]]; try lra. exact (before2_asym _ _ H1 K1). Qed.
  Lemma find_best_spec (ks : list lrw) : StronglySorted before2 ks -> Forall cand ks -> exists B : lrw -> Prop,
    selecting Pl Pr (fun v => In v ks) B /\ forall x, In x (lr_find_best (map reported ks)) <-> exists v, B v /\ x = reported v.
  Proof.
    intros S C. unfold lr_find_best. set (s := sort (fun x y => Qle_bool (total y) (total x)) (map reported ks)).
    assert (SM : StronglySorted before2 (map reported ks)). { clear - S. induction S as [|x l S IH F]; cbn [map]; constructor; [exact IH|]. rewrite Forall_forall in *. intros y I. apply in_map_iff in I as (z & <- & I). exact (F z I). }
    assert (TS : forall x, In x s -> exists v, In v ks /\ x = reported v) by (intros x I; unfold s in I; apply sort_In, in_map_iff in I as (v & <- & I); eauto).
    assert (SS : StronglySorted before3 s).
    { eapply SS_weaken; [|apply sort_lex; [| |exact SM]].
      - intros x y Ix Iy [H1 H2]. destruct (TS x Ix) as (vx & _ & EX), (TS y Iy) as (vy & _ & EY). cbv beta in *. rewrite !Qle_bool_iff in *. unfold LRTokSpec.before3.
        assert (T1 : total x = total_score x) by (rewrite EX; reflexivity). assert (T2 : total y = total_score y) by (rewrite EY; reflexivity). rewrite <- T1, <- T2.
        destruct (Qlt_le_dec (total y) (total x)) as [L|L]; [left; exact L|right]. split; [apply Qle_antisym; assumption|apply H2, L].
      - intros x y. rewrite !Qle_bool_iff. destruct (Qlt_le_dec (total x) (total y)) as [L|L]; [right; apply Qlt_le_weak; exact L|left; exact L].
      - intros x y z. rewrite !Qle_bool_iff. intros H1 H2. eapply Qle_trans; eassumption. }
    pose proof (lr_pick_spec before3 (length s) before3_asym s (le_n _) SS) as PK. set (pk := lr_pick (length s) s) in *.
    exists (fun v => In v ks /\ In (reported v) pk). split.
    - intros v. split.
      + intros [I J]. split; [exact I|]. intros w [Iw Jw] B. apply PK in J as [_ J]. apply (J (reported w) Jw). exact B.
      + intros [I H]. split; [exact I|]. apply PK. split; [unfold s; apply sort_In, in_map, I|]. intros y J B. destruct (TS y) as (w & Iw & ->); [apply PK in J; apply J|]. apply (H w (conj Iw J) B).
    - intros x. rewrite sort_In. split.
      + intros I. destruct (TS x) as (v & Iv & ->); [apply PK in I; apply I|]. exists v. auto.
      + intros (v & [_ I] & ->). exact I.
  Qed.

  (** ** the selected words *)
  Theorem lr_best_exact best : lr_best Dl Dr Pl Pr mld mldr esl eslr t = Ok best ->
    (exists K B, scoring K /\ selecting Pl Pr K B) /\
    (forall K B, scoring K -> selecting Pl Pr K B -> forall x, In x best <-> exists v, B v /\ x = reported v).
  Proof.
    unfold lr_best. destruct (remove_l_subset mld mldr esl (lr_init_LR Dl Dr t)) as [cs|] eqn:E; [|discriminate]. cbn [bind]. intros [= <-].
    destruct (remove_l_subset_spec Dl Dr mld mldr esl t cs E) as [SC IC].
    destruct (lr_score_spec cs SC IC) as (b & ES & HK). rewrite ES.
    assert (S2 : StronglySorted before2 (filter b (order2 cs))) by (apply SS_filter, order2_sorted; assumption).
    assert (FC : Forall cand (filter b (order2 cs))) by (apply Forall_forall; intros w I; apply filter_In in I as [I _]; apply (order2_In cs IC) in I; apply I).
    destruct (find_best_spec (filter b (order2 cs)) S2 FC) as (B0 & HB0 & HI). split; [exists (fun v => In v (filter b (order2 cs))), B0; auto|].
    intros K B HK' HB x. rewrite HI.
    assert (KE : forall v, K v <-> In v (filter b (order2 cs))).
    { apply (order_unique before2 (order2 cs) (fun K v => survivor v /\ ~ exists w s, survivor w /\ p1 v <= p0 w < p2 v /\ ((K w /\ before2 w v /\ s = sr w) \/ (~ (K w /\ before2 w v) /\ s = sl w)) /\ ((esl <= s)%Q \/ (eslr < s + dgetd Pl (wl w) 0%Q - sr v)%Q)));
        [exact before2_asym|apply order2_sorted; assumption| |intros J v [SV _]; apply order2_In; assumption|exact HK'|exact HK].
      intros J J' v H. assert (P : forall w, J w /\ before2 w v <-> J' w /\ before2 w v) by (intros w; split; intros [A1 A2]; (split; [apply (H w A2), A1|exact A2])).
      apply and_iff_compat_l, not_iff_compat. split; intros (w & s & SW & PW & HS & Q); exists w, s; (split; [exact SW|]; split; [exact PW|]; split; [|exact Q]); specialize (P w); clear - HS P; tauto. }
    assert (BE : forall v, B v <-> B0 v).
    { set (O3 := sort (fun x y => Qle_bool (total_score y) (total_score x)) (filter b (order2 cs))).
      apply (order_unique before3 O3 (fun B v => In v (filter b (order2 cs)) /\ forall w, B w -> before3 w v -> p2 w <= p0 v \/ p2 v <= p0 w)); [exact before3_asym| | | | |].
      - eapply SS_weaken; [|apply sort_lex; [| |exact S2]].
        + intros y z _ _ [H1 H2]. cbv beta in *. rewrite !Qle_bool_iff in *. unfold LRTokSpec.before3. destruct (Qlt_le_dec (total_score z) (total_score y)) as [L|L]; [left; exact L|right]. split; [apply Qle_antisym; assumption|apply H2, L].
        + intros y z. rewrite !Qle_bool_iff. destruct (Qlt_le_dec (total_score y) (total_score z)) as [L|L]; [right; apply Qlt_le_weak; exact L|left; exact L].
        + intros y z w. rewrite !Qle_bool_iff. intros H1 H2. eapply Qle_trans; eassumption.
      - intros J J' v H. apply and_iff_compat_l. split; intros G w JW BW; apply G; try exact BW; apply (H w BW), JW.
      - intros J v [I _]. unfold O3. apply sort_In, I.
      - intros v. rewrite <- KE. apply HB.
      - exact HB0. }
    split; intros (v & H & EQ); exists v; (split; [apply BE, H|exact EQ]).
  Qed.
End LR.
