(** * Matchers, evaluators, postprocessor: proofs *)
From Coq Require Import QArith.
From Verif Require Import PyBase PyDict PySort PyText SortLemmas QLemmas TaggerModel TaggerDictProofs TaggerSpec.
Open Scope nat_scope.

(** ** before *)
Lemma before_cons {A} (z : A) l x y : before (z :: l) x y <-> (x = z /\ In y l) \/ before l x y.
Proof.
  split.
  - intros ([|a0 a] & b & E & I1 & I2); [destruct I1|]. cbn in E. injection E as -> ->. destruct I1 as [->|I1].
    + left. split; [reflexivity|]. apply in_or_app. right. exact I2.
    + right. exists a, b. auto.
  - intros [[-> I]|(a & b & -> & I1 & I2)].
    + exists [z], l. split; [reflexivity|]. split; [left; reflexivity|exact I].
    + exists (z :: a), b. split; [reflexivity|]. split; [right; exact I1|exact I2].
Qed.
Lemma before_nil {A} (x y : A) : ~ before [] x y.
Proof. intros ([|? ?] & b & E & I & _); [destruct I|discriminate]. Qed.
Lemma before_In {A} l (x y : A) : before l x y -> In x l /\ In y l.
Proof. intros (a & b & -> & I1 & I2). split; apply in_or_app; auto. Qed.
Lemma before_filter {A} (f : A -> bool) l x y : before (filter f l) x y <-> before l x y /\ f x = true /\ f y = true.
Proof.
  induction l as [|z l IH]; cbn [filter].
  - split; [intros H; destruct (before_nil _ _ H)|intros [H _]; destruct (before_nil _ _ H)].
  - destruct (f z) eqn:F; rewrite ?before_cons, IH.
    + rewrite filter_In. split; [intros [(-> & I & G)|(B & G)]; tauto|]. intros ([(-> & I)|B] & F1 & F2); tauto.
    + split; [tauto|]. intros ([(-> & I)|B] & F1 & F2); [congruence|tauto].
Qed.
Lemma before_or {A} l (x y : A) : In x l -> In y l -> x <> y -> before l x y \/ before l y x.
Proof.
  induction l as [|z l IH]; intros Ix Iy N; [destruct Ix|]. rewrite !before_cons. destruct Ix as [->|Ix], Iy as [->|Iy]; [congruence|left; left; auto|right; left; auto|].
  destruct (IH Ix Iy N); auto.
Qed.
Lemma before_anti {A} l (x y : A) : NoDup l -> before l x y -> before l y x -> False.
Proof.
  induction l as [|z l IH]; intros ND B1 B2; [apply before_nil in B1; exact B1|]. inversion ND as [|? ? NI ND']; subst. rewrite before_cons in B1, B2.
  destruct B1 as [[-> I1]|B1], B2 as [[-> I2]|B2]; auto.
  - apply before_In in B2 as [_ B2]. contradiction.
  - apply before_In in B1 as [_ B1]. contradiction.
Qed.
Lemma before_irrefl {A} l (x : A) : NoDup l -> ~ before l x x.
Proof. intros ND B. eapply before_anti; eauto. Qed.
Lemma before_sorted {A} (R : A -> A -> Prop) l x y : StronglySorted R l -> before l x y -> R x y.
Proof.
  intros S (a & b & -> & I1 & I2). apply SS_app_inv in S as (_ & _ & H). auto.
Qed.
Lemma before_map {A B} (f : A -> B) l x y : before l x y -> before (map f l) (f x) (f y).
Proof. intros (a & b & -> & I1 & I2). exists (map f a), (map f b). rewrite map_app. auto using in_map. Qed.

(** ** greedy selection *)
Definition ovb (x : lr) (y : lr) : bool := (b_of x <? e_of y) && (b_of y <? e_of x).
Lemma ovb_spec x y : ovb x y = true <-> overlap x y.
Proof. unfold ovb, overlap. rewrite andb_true_iff, !Nat.ltb_lt. reflexivity. Qed.
Fixpoint greedy (fuel : nat) (s : list lr) : list lr :=
  match fuel, s with
  | S f, x :: s' => x :: greedy f (filter (fun c => negb (ovb x c)) s')
  | _, _ => []
  end.
Lemma filter_map_fst (f : lr -> bool) (s : list (lr * Q)) : map fst (filter (fun cs => f (fst cs)) s) = filter f (map fst s).
Proof. induction s as [|[x q] s IH]; [reflexivity|]. cbn [filter map fst]. destruct (f x); cbn [map fst]; rewrite IH; reflexivity. Qed.
Lemma overlap_loop_greedy fuel s : overlap_loop fuel s = greedy fuel (map fst s).
Proof.
  revert s. induction fuel as [|f IH]; intros s; [reflexivity|]. destruct s as [|[x q] s]; [reflexivity|]. cbn [overlap_loop greedy map fst]. f_equal.
  rewrite IH. f_equal. apply (filter_map_fst (fun c => negb (ovb x c))).
Qed.
Lemma filter_le {A} (f : A -> bool) l : length (filter f l) <= length l.
Proof. induction l as [|x l IH]; cbn; [lia|]. destruct (f x); cbn; lia. Qed.
Lemma greedy_sub fuel s x : In x (greedy fuel s) -> In x s.
Proof.
  revert s. induction fuel as [|f IH]; intros s I; [destruct I|]. destruct s as [|y s]; [destruct I|]. destruct I as [->|I]; [left; reflexivity|].
  apply IH, filter_In in I as [I _]. right. exact I.
Qed.
Lemma greedy_exact fuel s : length s <= fuel -> NoDup s -> forall c,
  In c (greedy fuel s) <-> In c s /\ forall x, In x (greedy fuel s) -> before s x c -> ~ overlap x c.
Proof.
  revert s. induction fuel as [|f IH]; intros s L ND c.
  - destruct s; [cbn; tauto|cbn in L; lia].
  - destruct s as [|x s]; [cbn; tauto|]. inversion ND as [|? ? NI ND']; subst. cbn [length] in L.
    set (F := filter (fun c => negb (ovb x c)) s). assert (length F <= f) as LF by (pose proof (filter_le (fun c => negb (ovb x c)) s); subst F; lia).
    assert (NoDup F) as NF by (apply NoDup_filter, ND'). specialize (IH F LF NF).
    change (greedy (S f) (x :: s)) with (x :: greedy f F).
    split.
    + intros [<-|I].
      * split; [left; reflexivity|]. intros y Iy B. exfalso. apply before_cons in B as [[-> B]|B]; [contradiction|]. apply before_In in B as [_ B]. contradiction.
      * pose proof (proj1 (IH c) I) as [IF H]. apply filter_In in IF as [Is OF]. apply negb_true_iff in OF. split; [right; exact Is|].
        intros y Iy B. destruct Iy as [<-|Iy]; [intros O; apply ovb_spec in O; congruence|]. apply (H y Iy). apply before_filter. pose proof (greedy_sub _ _ _ Iy) as IyF. apply filter_In in IyF as [Iys OyF].
        split; [|split; [exact OyF|rewrite OF; reflexivity]]. apply before_cons in B as [[-> _]|B]; [contradiction|exact B].
    + intros [[<-|Is] H]; [left; reflexivity|]. right. apply IH. 
      assert (In c F) as IF. { apply filter_In. split; [exact Is|]. apply negb_true_iff. destruct (ovb x c) eqn:O; [|reflexivity]. exfalso. apply (H x (or_introl eq_refl)); [apply before_cons; left; auto|apply ovb_spec, O]. }
      split; [exact IF|]. intros y Iy B. apply (H y (or_intror Iy)). apply before_cons. right. apply before_filter in B as [B _]. exact B.
Qed.
Lemma greedy_disjoint fuel s : NoDup s -> forall x y, In x (greedy fuel s) -> In y (greedy fuel s) -> x <> y -> ~ overlap x y.
Proof.
  revert s. induction fuel as [|f IH]; intros s ND x y Ix Iy N; [destruct Ix|]. destruct s as [|z s]; [destruct Ix|]. inversion ND as [|? ? NI ND']; subst.
  cbn [greedy] in Ix, Iy. destruct Ix as [<-|Ix], Iy as [<-|Iy]; [congruence| | |eapply (IH _ (NoDup_filter _ ND')); eauto].
  - apply greedy_sub, filter_In in Iy as [_ O]. intros H. apply ovb_spec in H. rewrite H in O. discriminate.
  - apply greedy_sub, filter_In in Ix as [_ O]. intros [H1 H2]. assert (ovb z x = true) as H by (apply ovb_spec; split; assumption). rewrite H in O. discriminate.
Qed.
Lemma greedy_NoDup fuel s : NoDup s -> NoDup (greedy fuel s).
Proof.
  revert s. induction fuel as [|f IH]; intros s ND; [constructor|]. destruct s as [|z s]; [constructor|]. inversion ND as [|? ? NI ND']; subst. cbn [greedy]. constructor; [|apply IH, NoDup_filter, ND'].
  intros I. apply greedy_sub, filter_In in I as [I _]. contradiction.
Qed.

(** ranking of a stable descending sort *)
Definition desc {C} (x y : C * Q) : bool := Qle_bool (- snd x) (- snd y).
Lemma desc_le {C} (x y : C * Q) : desc x y = true <-> (snd y <= snd x)%Q.
Proof. unfold desc. rewrite Qle_bool_iff. split; intros H; [apply Qopp_le_compat in H; rewrite !Qopp_opp in H; exact H|apply Qopp_le_compat, H]. Qed.
Lemma desc_total {C} (x y : C * Q) : desc x y = true \/ desc y x = true.
Proof. rewrite !desc_le. destruct (Qlt_le_dec (snd x) (snd y)) as [H|H]; [right; apply Qlt_le_weak, H|left; exact H]. Qed.
Lemma desc_trans {C} (x y z : C * Q) : desc x y = true -> desc y z = true -> desc x z = true.
Proof. rewrite !desc_le. intros H1 H2. eapply Qle_trans; eauto. Qed.
Section Rank.
  Context {C : Type} (ev : C -> Q) (cs : list C).
  Hypothesis ND : NoDup cs.
  Let sc := map (fun c => (c, ev c)) cs.
  Let s := sort desc sc.
  Lemma sc_fst : map fst sc = cs.
  Proof. unfold sc. rewrite map_map. apply map_id. Qed.
  Lemma s_fst_perm : Permutation (map fst s) cs.
  Proof. rewrite <- sc_fst. apply Permutation_map, sort_perm. Qed.
  Lemma s_val x : In x s -> x = (fst x, ev (fst x)).
  Proof. intros I. apply sort_In in I. unfold sc in I. apply in_map_iff in I as (c & <- & _). reflexivity. Qed.
  Lemma rank_before x y : x <> y -> (before (map fst s) x y <-> In x cs /\ In y cs /\ ((ev y < ev x)%Q \/ (ev x == ev y)%Q /\ before cs x y)).
  Proof.
    intros N. pose proof s_fst_perm as PM. assert (forall c, In c (map fst s) <-> In c cs) as IN by (intros c; split; apply Permutation_in; [exact PM|apply Permutation_sym, PM]).
    assert (forall c, In c cs -> In (c, ev c) s) as INs by (intros c I; apply sort_In; unfold sc; apply in_map_iff; exists c; auto).
    assert (NoDup (map fst s)) as NDs by (eapply Permutation_NoDup; [apply Permutation_sym, PM|exact ND]).
    assert (forall x y, before s (x, ev x) (y, ev y) -> before (map fst s) x y) as BM by (intros a b B; apply (before_map fst) in B; exact B).
    assert (forall x y, In x cs -> In y cs -> x <> y -> (ev x == ev y)%Q -> before cs x y -> before (map fst s) x y) as EQ.
    { intros a b Ia Ib Nab E B. apply BM. 
      assert (before (filter (equivb desc (a, ev a)) s) (a, ev a) (b, ev b)) as B'.
      { unfold s. rewrite (sort_stable desc desc_total desc_trans). apply before_filter. split; [apply (before_map (fun c => (c, ev c)) _ _ _ B)|].
        unfold equivb. rewrite !andb_true_iff, !desc_le. cbn [snd]. rewrite E. repeat split; apply Qle_refl. }
      apply before_filter in B'. tauto. }
    assert (forall x y, before (map fst s) x y -> x <> y -> (ev y <= ev x)%Q) as LE.
    { intros a b B Nab. destruct (before_In _ _ _ B) as [Ia Ib]. apply IN in Ia, Ib. destruct (before_or s (a, ev a) (b, ev b) (INs a Ia) (INs b Ib)) as [B'|B']; [congruence| |].
      - apply (before_sorted (fun x y => desc x y = true)) in B'; [apply desc_le in B'; exact B'|]. apply sort_sorted; [apply desc_total|apply desc_trans].
      - apply BM in B'. exfalso. eapply before_anti; eauto. }
    split.
    - intros B. destruct (before_In _ _ _ B) as [Ia Ib]. apply IN in Ia, Ib. split; [exact Ia|]. split; [exact Ib|]. pose proof (LE _ _ B N) as L. apply Qle_lteq in L as [L|E]; [left; exact L|right].
      split; [symmetry; exact E|]. destruct (before_or cs x y Ia Ib N) as [B'|B']; [exact B'|]. exfalso. assert (y <> x) as N' by congruence. pose proof (EQ y x Ib Ia N' E B') as B2. eapply before_anti; eauto.
    - intros (Ia & Ib & [L|[E B]]); [|apply EQ; assumption]. destruct (before_or (map fst s) x y) as [B|B]; [apply IN, Ia|apply IN, Ib|exact N|exact B|].
      exfalso. assert (y <> x) as N' by congruence. pose proof (LE _ _ B N') as L'. apply (Qlt_not_le _ _ L L').
  Qed.
End Rank.
Lemma str_leb_total' a b : str_leb a b = true \/ str_leb b a = true.
Proof.
  revert b. induction a as [|x a IH]; intros [|y b]; cbn; auto. destruct (N.ltb_spec x y); [auto|]. destruct (N.ltb_spec y x); [auto|]. assert (x = y) as -> by lia. rewrite N.eqb_refl. apply IH.
Qed.
Lemma str_leb_trans' a b c : str_leb a b = true -> str_leb b c = true -> str_leb a c = true.
Proof.
  revert b c. induction a as [|x a IH]; intros [|y b] [|z c]; cbn; auto; try discriminate.
  destruct (N.ltb_spec x y), (N.ltb_spec y z), (N.ltb_spec x z), (N.eqb_spec x y), (N.eqb_spec y z), (N.eqb_spec x z); try lia; try discriminate; auto. subst. apply IH.
Qed.
Lemma index2_In l x : In x (sort_index2 l) <-> In x l. Proof. apply sort_In. Qed.
Lemma index2_idem l : sort_index2 (sort_index2 l) = sort_index2 l.
Proof. unfold sort_index2. apply sort_id. apply sort_sorted; intros; [apply str_leb_total'|eapply str_leb_trans'; eauto]. Qed.
Lemma lr_select_eq ev cs : lr_select_best ev cs = sort_index2 (greedy (length cs) (map fst (sort desc (map (fun c => (c, ev c)) cs)))).
Proof.
  unfold lr_select_best, remove_overlapped. cbv zeta. rewrite index2_idem, overlap_loop_greedy. do 2 f_equal. rewrite sort_length, map_length. reflexivity.
Qed.

(** ** select_best *)
Lemma insert_hd {C} (x : C * Q) l : (forall y, In y l -> desc x y = true) -> insert desc x l = x :: l.
Proof. destruct l as [|y l]; intros H; [reflexivity|]. cbn. rewrite (H y (or_introl eq_refl)). reflexivity. Qed.
Lemma select_best_first {C} (ev : C -> Q) cs c : select_best ev cs = Some c <-> exists pre post, cs = pre ++ c :: post /\ Forall (fun x => (ev x < ev c)%Q) pre /\ Forall (fun x => (ev x <= ev c)%Q) post.
Proof.
  unfold select_best. fold (@desc C). 
  assert (forall cs c, (exists t, sort desc (map (fun c => (c, ev c)) cs) = (c, ev c) :: t) <-> exists pre post, cs = pre ++ c :: post /\ Forall (fun x => (ev x < ev c)%Q) pre /\ Forall (fun x => (ev x <= ev c)%Q) post) as K.
  { clear. induction cs as [|a cs IH]; intros c; cbn [map sort].
    - split; [intros (t & E); discriminate|intros ([|? ?] & ? & E & _); discriminate].
    - destruct (sort desc (map (fun c => (c, ev c)) cs)) as [|[c0 q0] t0] eqn:S.
      + assert (cs = []) as ->. { destruct cs as [|x cs]; [reflexivity|]. apply (f_equal (@length _)) in S. rewrite sort_length in S. discriminate. }
        cbn [insert]. split.
        * intros (t & E). injection E as -> _. exists [], []. repeat split; constructor.
        * intros ([|y pre] & post & E & _); [injection E as -> <-; exists []; reflexivity|]. injection E as _ E. destruct pre; discriminate.
      + assert (q0 = ev c0) as ->. { assert (In (c0, q0) (sort desc (map (fun c => (c, ev c)) cs))) as I by (rewrite S; left; reflexivity). apply sort_In, in_map_iff in I as (x & E & _). congruence. }
        destruct (proj1 (IH c0) (ex_intro _ t0 eq_refl)) as (pre0 & post0 & E0 & F1 & F2).
        assert (forall x, In x cs -> (ev x <= ev c0)%Q) as MX. { intros x I. rewrite E0 in I. apply in_app_or in I as [I|[<-|I]]; [eapply Forall_forall in F1; [|exact I]; apply Qlt_le_weak, F1|apply Qle_refl|eapply Forall_forall in F2; [|exact I]; exact F2]. }
        cbn [insert]. destruct (desc (a, ev a) (c0, ev c0)) eqn:D.
        * apply desc_le in D. cbn [snd] in D. split.
          -- intros (t & E). injection E as -> _. exists [], cs. split; [reflexivity|]. split; [constructor|]. apply Forall_forall. intros x I. eapply Qle_trans; [apply MX, I|exact D].
          -- intros ([|y pre] & post & E & G1 & G2); [injection E as -> ->; eexists; reflexivity|]. injection E as -> ->. inversion G1 as [|? ? G _]; subst. exfalso.
             apply (Qlt_not_le _ _ G). eapply Qle_trans; [|exact D]. apply MX, in_or_app. right. left. reflexivity.
        * assert (ev a < ev c0)%Q as LT. { apply Qnot_le_lt. intros H. assert (desc (a, ev a) (c0, ev c0) = true) by (apply desc_le, H). congruence. }
          split.
          -- intros (t & E). injection E as -> _. exists (a :: pre0), post0. split; [rewrite E0; reflexivity|]. split; [constructor; assumption|exact F2].
          -- intros ([|y pre] & post & E & G1 & G2).
             ++ injection E as -> ->. exfalso. apply (Qlt_not_le _ _ LT). eapply Forall_forall in G2; [exact G2|]. rewrite E0. apply in_or_app. right. left. reflexivity.
             ++ injection E as -> ->. inversion G1 as [|? ? G G1']; subst. destruct (proj2 (IH c)) as (t & E); [exists pre, post; auto|]. injection E as -> _. eexists. reflexivity. }
  split.
  - destruct (sort desc (map (fun c => (c, ev c)) cs)) as [|[c0 q0] t0] eqn:S; [discriminate|]. cbn [fst]. intros E. injection E as ->. apply K.
    assert (In (c, q0) (sort desc (map (fun c => (c, ev c)) cs))) as I by (rewrite S; left; reflexivity). apply sort_In, in_map_iff in I as (x & E & _). injection E as -> <-. exists t0. exact S.
  - intros H. apply K in H as (t & E). rewrite E. reflexivity.
Qed.
Lemma select_best_none {C} (ev : C -> Q) cs : select_best ev cs = None <-> cs = [].
Proof.
  unfold select_best. split; [|intros ->; reflexivity]. destruct (sort _ _) as [|x t] eqn:S; [|discriminate]. intros _. apply (f_equal (@length _)) in S. rewrite sort_length, map_length in S. destruct cs; [reflexivity|discriminate].
Qed.
