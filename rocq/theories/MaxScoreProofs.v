(** * Proofs about MaxScoreTokenizer (C20, C21, C22) *)
From Coq Require Import QArith Lqa.
From Verif Require Import PyBase PyDict PySort SortLemmas PyText TokenizerModel TokenizerSpec QLemmas.
Open Scope nat_scope.

Definition disj (l : list tok) : Prop := NoDup l /\ forall x y, In x l -> In y l -> x <> y -> overlaps x y = false.

Lemma overlaps_false x y : overlaps x y = false <-> te x <= tb y \/ te y <= tb x.
Proof. unfold overlaps. qb. lia. Qed.
Lemma overlaps_true x y : overlaps x y = true <-> tb y < te x /\ tb x < te y.
Proof. unfold overlaps. qb. lia. Qed.

(** ** the loop of _find *)
Lemma ms_pick_incl f : forall i l x, In x (ms_pick f i l) -> In x l.
Proof.
  induction f as [|f IH]; intros i l x I; [destruct I|]. destruct l as [|y l]; [destruct I|]. simpl in I.
  destruct I as [->|I]; [left; reflexivity|]. right. destruct l as [|z l]; [destruct I|].
  destruct (100 <? i + 1); [destruct I|]. apply IH in I. apply filter_In in I. apply I.
Qed.
Lemma ms_pick_cons f i x l : ms_pick (S f) i (x :: l) = x :: match l with [] => [] | _ => if 100 <? i + 1 then [] else ms_pick f (i + 1) (filter (fun y => negb (overlaps x y)) l) end.
Proof. reflexivity. Qed.
Lemma ms_pick_disj f : forall i l, (forall x, In x l -> tb x < te x) -> disj (ms_pick f i l).
Proof.
  induction f as [|f IH]; intros i l W; [split; [constructor|intros ? ? []]|]. destruct l as [|x l]; [split; [constructor|intros ? ? []]|].
  rewrite ms_pick_cons.
  set (R := match l with [] => [] | _ => if 100 <? i + 1 then [] else ms_pick f (i + 1) (filter (fun y => negb (overlaps x y)) l) end).
  assert (HR : disj R /\ forall y, In y R -> overlaps x y = false).
  { unfold R. destruct l as [|z l]; [split; [split; [constructor|intros ? ? []]|intros ? []]|].
    destruct (100 <? i + 1); [split; [split; [constructor|intros ? ? []]|intros ? []]|]. split.
    - apply IH. intros y I. apply filter_In in I as [I _]. apply W. right. exact I.
    - intros y I. apply ms_pick_incl in I. apply filter_In in I as [_ I]. apply negb_true_iff in I. exact I. }
  destruct HR as [[ND D] X]. split.
  - constructor; [|exact ND]. intros I. apply X in I. apply overlaps_false in I. specialize (W x (or_introl eq_refl)). lia.
  - intros a b [<-|Ia] [<-|Ib] N.
    + congruence.
    + apply X, Ib.
    + apply X in Ia. apply overlaps_false in Ia. apply overlaps_false. lia.
    + apply D; assumption.
Qed.
Lemma ms_pick_nonnil f i l : l <> [] -> length l <= f -> ms_pick f i l <> [].
Proof. destruct l as [|x l]; [congruence|]. destruct f; simpl; [lia|discriminate]. Qed.

(** without the cut-off every candidate left out overlaps a chosen one that was ranked before it *)
Section Greedy.
  Variable le : tok -> tok -> Prop.
  Lemma ms_pick_greedy f : forall i l, length l <= f -> StronglySorted le l ->
    (forall y, In y l -> In y (ms_pick f i l) \/ exists x, In x (ms_pick f i l) /\ overlaps x y = true /\ le x y)
    \/ exists y, i + length (ms_pick f i l) = 101 /\ In y l /\ (forall x, In x (ms_pick f i l) -> overlaps x y = false)
    \/ 101 < i + length (ms_pick f i l).
  Proof.
    induction f as [|f IH]; intros i l L S; [destruct l; [left; intros ? []|simpl in L; lia]|].
    destruct l as [|x l]; [left; intros ? []|]. inversion S as [|? ? S' F]; subst. rewrite ms_pick_cons.
    destruct l as [|z l0] eqn:El. { left. intros y [->|[]]. left. left. reflexivity. } rewrite <- El in *. clear El z l0.
    assert (FL : length (filter (fun y => negb (overlaps x y)) l) <= length l).
    { clear. induction l as [|y l IH]; simpl; [lia|]. destruct (negb (overlaps x y)); simpl; lia. }
    destruct (Nat.ltb_spec 100 (i + 1)) as [B|B].
    - destruct (filter (fun y => negb (overlaps x y)) l) as [|y r] eqn:E.
      + left. intros y [->|I]; [left; left; reflexivity|]. right. exists x. split; [left; reflexivity|]. split.
        * destruct (overlaps x y) eqn:O; [reflexivity|]. assert (J : In y []) by (rewrite <- E; apply filter_In; rewrite O; auto). destruct J.
        * rewrite Forall_forall in F. apply F, I.
      + right. exists y. destruct (Nat.eq_dec i 100) as [->|N].
        * left. simpl. split; [reflexivity|]. assert (J : In y (filter (fun y => negb (overlaps x y)) l)) by (rewrite E; left; reflexivity).
          apply filter_In in J as [J1 J2]. split; [right; exact J1|]. intros w [<-|[]]. apply negb_true_iff, J2.
        * right. simpl. lia.
    - destruct (IH (i + 1) (filter (fun y => negb (overlaps x y)) l)) as [G|(y & [(E & I & D)|E])].
      + simpl in L. lia.
      + apply SS_filter, S'.
      + left. intros y [->|I]; [left; left; reflexivity|]. destruct (overlaps x y) eqn:O.
        * right. exists x. split; [left; reflexivity|]. split; [exact O|]. rewrite Forall_forall in F. apply F, I.
        * destruct (G y) as [J|(w & Iw & Ow & Lw)]; [apply filter_In; rewrite O; auto|left; right; exact J|].
          right. exists w. split; [right; exact Iw|]. auto.
      + right. exists y. left. simpl. split; [lia|]. apply filter_In in I as [I1 I2]. split; [right; exact I1|].
        intros w [<-|J]; [apply negb_true_iff, I2|apply D, J].
      + right. exists y. right. simpl. lia.
  Qed.
End Greedy.

Lemma ms_pick_length f : forall i l, i <= 100 -> i + length (ms_pick f i l) <= 101.
Proof.
  induction f as [|f IH]; intros i l L; [simpl; lia|]. destruct l as [|x l]; [simpl; lia|]. rewrite ms_pick_cons.
  destruct l as [|z l]; [simpl; lia|]. destruct (Nat.ltb_spec 100 (i + 1)); [simpl; lia|].
  cbn [length]. specialize (IH (i + 1) (filter (fun y => negb (overlaps x y)) (z :: l))). lia.
Qed.

(** ** disjoint intervals, sorted *)
Lemma le_b_key : le_b = le_key tb. Proof. reflexivity. Qed.
Lemma disj_perm l l' : Permutation l l' -> disj l -> disj l'.
Proof.
  intros P [ND D]. split; [eapply Permutation_NoDup; eassumption|]. intros x y Ix Iy. apply D; eapply Permutation_in; try eassumption; apply Permutation_sym, P.
Qed.
Lemma disj_chain l : disj l -> (forall x, In x l -> tb x < te x) -> StronglySorted (fun x y => te x <= tb y) (sort le_b l).
Proof.
  intros D W. assert (D' : disj (sort le_b l)) by (eapply disj_perm; [apply Permutation_sym, sort_perm|exact D]).
  assert (W' : forall x, In x (sort le_b l) -> tb x < te x) by (intros x I; apply W; apply sort_In in I; exact I).
  pose proof (sort_sorted le_b (le_key_total tb) (le_key_trans tb) l) as S. unfold sorted_le in S.
  clear D W. induction S as [|x m S IH F]; constructor.
  - apply IH; [|intros; apply W'; right; assumption]. destruct D' as [ND D]. split; [inversion ND; assumption|]. intros; apply D; auto; right; assumption.
  - rewrite Forall_forall in *. intros y I. specialize (F y I). unfold le_b in F. qb. destruct D' as [ND D].
    assert (N : x <> y) by (intros ->; inversion ND; contradiction).
    specialize (D x y (or_introl eq_refl) (or_intror I) N). apply overlaps_false in D.
    specialize (W' y (or_intror I)). lia.
Qed.
Lemma chain_space n l : StronglySorted (fun x y => te x <= tb y) l -> (forall x, In x l -> tb x + 2 <= te x /\ te x <= n) -> forall p, (forall x, In x l -> p <= tb x) -> p <= n -> p + 2 * length l <= n.
Proof.
  intros S W. induction S as [|x l S IH F]; intros p P Lp; simpl; [lia|].
  destruct (W x (or_introl eq_refl)). rewrite Forall_forall in F.
  assert (te x + 2 * length l <= n). { apply IH; [intros; apply W; right; assumption|exact F|lia]. }
  specialize (P x (or_introl eq_refl)). lia.
Qed.
Lemma disj_space n l : disj l -> (forall x, In x l -> tb x + 2 <= te x /\ te x <= n) -> 2 * length l <= n.
Proof.
  intros D W. rewrite <- (sort_length le_b l). change (2 * length (sort le_b l)) with (0 + 2 * length (sort le_b l)).
  apply chain_space; [apply disj_chain; [exact D|intros x I; apply W in I; lia]| |lia|lia].
  intros x I. apply sort_In in I. apply W, I.
Qed.

Lemma last_default {A} (l : list A) x d d' : last (x :: l) d = last (x :: l) d'.
Proof. revert x. induction l as [|y l IH]; intros x; [reflexivity|]. exact (IH y). Qed.

Section MS.
  Variable scores : dict str Q.
  Variable ds : Q.
  Variable max_length : Z.
  Variable token : str.
  Let n := length token.
  Let range_l := Z.to_nat (Z.min max_length (Z.of_nat n)).
  Let cands := ms_candidates scores ds token range_l n.
  Definition ctok (b e : nat) : tok := Tok (slice b e token) b e (score_of scores ds token b e) (e - b).

  Lemma In_cands t : In t cands <-> exists b e, cand max_length token b e /\ t = ctok b e.
  Proof.
    unfold cands, ms_candidates. rewrite in_flat_map. split.
    - intros (b & Ib & I). apply in_flat_map in I as (r & Ir & I). apply in_seq in Ib, Ir.
      destruct (Nat.ltb_spec n (b + r)); [destruct I|]. destruct I as [<-|[]]. exists b, (b + r). unfold cand, ctok. fold n.
      split; [unfold range_l in Ir; lia|]. f_equal. lia.
    - intros (b & e & (A & B & C) & ->). fold n in C. exists b. split; [apply in_seq; lia|]. apply in_flat_map. exists (e - b).
      split; [apply in_seq; unfold range_l; lia|]. replace (b + (e - b)) with e by lia.
      destruct (Nat.ltb_spec n e); [lia|]. left. reflexivity.
  Qed.

  Lemma ms_le_total x y : ms_le x y = true \/ ms_le y x = true.
  Proof.
    unfold ms_le. qb. destruct (Qtri (tsc x) (tsc y)) as [H|[H|H]]; auto.
    assert (D : tl y < tl x \/ tl x = tl y /\ tb x <= tb y \/ tl x < tl y \/ tl y = tl x /\ tb y <= tb x) by lia.
    assert (H' : (tsc y == tsc x)%Q) by lra. tauto.
  Qed.
  Lemma ms_le_trans x y z : ms_le x y = true -> ms_le y z = true -> ms_le x z = true.
  Proof.
    unfold ms_le. qb. intros [A|[A A']] [B|[B B']]; [left; lra|left; lra|left; lra|right; split; [lra|lia]].
  Qed.

  Let picks := ms_pick (length (ms_initialize scores ds token range_l n)) 0 (ms_initialize scores ds token range_l n).
  Lemma picks_cand t : In t picks -> exists b e, cand max_length token b e /\ t = ctok b e.
  Proof. intros I. apply ms_pick_incl in I. unfold ms_initialize in I. apply sort_In in I. apply In_cands, I. Qed.
  Lemma picks_w t : In t picks -> tb t + 2 <= te t /\ te t <= n.
  Proof. intros I. apply picks_cand in I as (b & e & (A & B & C) & ->). simpl. fold n in C. lia. Qed.
  Lemma picks_disj : disj picks.
  Proof. apply ms_pick_disj. intros x I. unfold ms_initialize in I. apply sort_In, In_cands in I as (b & e & (A & _) & ->). simpl. lia. Qed.
  Lemma picks_complete : n < 204 -> forall b e, cand max_length token b e ->
    In (ctok b e) picks \/ exists x, In x picks /\ overlaps x (ctok b e) = true /\ ms_le x (ctok b e) = true.
  Proof.
    intros Ln b e C. unfold picks. set (l := ms_initialize scores ds token range_l n).
    assert (Il : In (ctok b e) l) by (unfold l, ms_initialize; apply sort_In, In_cands; eauto).
    destruct (ms_pick_greedy (fun x y => ms_le x y = true) (length l) 0 l (le_n _)) as [G|(y & [(E & I & D)|E])].
    - apply sort_sorted; [apply ms_le_total|apply ms_le_trans].
    - apply G, Il.
    - exfalso. change (ms_pick (length l) 0 l) with picks in *.
      assert (Iy : exists b e, cand max_length token b e /\ y = ctok b e) by (unfold l, ms_initialize in I; apply sort_In, In_cands in I; exact I).
      destruct Iy as (b' & e' & (A & B & Cc) & ->). fold n in Cc.
      assert (X : 2 * length (ctok b' e' :: picks) <= n).
      { apply disj_space.
        - destruct picks_disj as [ND DD]. split.
          + constructor; [|exact ND]. intros J. apply D, overlaps_false in J. simpl in J. lia.
          + intros u v [<-|Iu] [<-|Iv] N; [congruence| | |apply DD; assumption].
            * apply D, overlaps_false in Iv. apply overlaps_false. lia.
            * apply D, Iu.
        - intros x [<-|J]; [simpl; lia|apply picks_w, J]. }
      simpl in X. lia.
    - exfalso. pose proof (ms_pick_length (length l) 0 l). lia.
  Qed.

  (** ** putting the gaps in *)
  Definition mkgap (sc : Q) (b e : nat) : tok := Tok (slice b e token) b e sc (e - b).
  Fixpoint weave (l : list tok) : list tok :=
    match l with
    | x :: ((y :: _) as rest) => x :: (if te x =? tb y then [] else [mkgap ds (te x) (tb y)]) ++ weave rest
    | [x] => [x]
    | [] => []
    end.
  Lemma weave_perm l : Permutation (l ++ ms_inter ds token l) (weave l).
  Proof.
    induction l as [|x l IH]; [reflexivity|]. destruct l as [|y l]; [reflexivity|].
    change (ms_inter ds token (x :: y :: l)) with ((if te x =? tb y then [] else [mkgap ds (te x) (tb y)]) ++ ms_inter ds token (y :: l)).
    change (weave (x :: y :: l)) with (x :: (if te x =? tb y then [] else [mkgap ds (te x) (tb y)]) ++ weave (y :: l)).
    rewrite <- IH. cbn [app]. constructor.
    set (i := ms_inter ds token (y :: l)). set (g := if te x =? tb y then [] else [mkgap ds (te x) (tb y)]).
    change (Permutation ((y :: l) ++ g ++ i) (g ++ (y :: l) ++ i)). rewrite !app_assoc. apply Permutation_app_tail, Permutation_app_comm.
  Qed.

  Definition okt (t : tok) : Prop := tb t < te t <= n /\ tw t = slice (tb t) (te t) token /\ tl t = te t - tb t.
  (** [steps p ts q]: the tokens cover [p, q) without gap or overlap *)
  Inductive steps : nat -> list tok -> nat -> Prop :=
  | steps_nil p : steps p [] p
  | steps_cons p t ts q : tb t = p -> okt t -> steps (te t) ts q -> steps p (t :: ts) q.
  Lemma steps_app p l1 q l2 r : steps p l1 q -> steps q l2 r -> steps p (l1 ++ l2) r.
  Proof. induction 1; intros S2; [exact S2|]. simpl. constructor; auto. Qed.
  Lemma steps_le p l q : steps p l q -> p <= q.
  Proof. induction 1 as [|p t ts q E O S IH]; [lia|]. destruct O. lia. Qed.
  Lemma steps_sorted p l q : steps p l q -> StronglySorted (fun x y => tb x < tb y) l /\ forall x, In x l -> p <= tb x.
  Proof.
    induction 1 as [|p t ts q E O S [IH1 IH2]]; [split; [constructor|intros ? []]|]. destruct O as [O _]. split.
    - constructor; [exact IH1|]. apply Forall_forall. intros y I. specialize (IH2 y I). lia.
    - intros x [<-|I]; [lia|]. specialize (IH2 x I). lia.
  Qed.
  Lemma steps_tiles p l q : steps p l q -> q = n -> tiles token p l.
  Proof.
    intros S. induction S as [p|p t ts q E O S IH]; intros Eq; subst; [unfold n; constructor|]. destruct O as (O1 & O2 & O3).
    constructor; auto.
  Qed.
  Lemma mkgap_ok sc b e : b < e <= n -> okt (mkgap sc b e).
  Proof. intros H. unfold okt, mkgap. simpl. auto. Qed.
  Lemma weave_steps x l : StronglySorted (fun x y => te x <= tb y) (x :: l) -> Forall okt (x :: l) -> steps (tb x) (weave (x :: l)) (te (last (x :: l) x)).
  Proof.
    revert x. induction l as [|y l IH]; intros x S F.
    - simpl. inversion F; subst. constructor; auto. constructor.
    - inversion S as [|? ? S' Fx]; inversion F as [|? ? Ox F']; subst. specialize (IH y S' F').
      change (weave (x :: y :: l)) with (x :: (if te x =? tb y then [] else [mkgap ds (te x) (tb y)]) ++ weave (y :: l)).
      change (last (x :: y :: l) x) with (last (y :: l) x).
      rewrite (last_default l y x y).
      constructor; [reflexivity|exact Ox|]. inversion Fx as [|? ? Lxy _]; subst. inversion F' as [|? ? Oy _]; subst. destruct Oy as [Oy _].
      destruct (Nat.eqb_spec (te x) (tb y)) as [E|E]; [simpl; rewrite E; exact IH|].
      simpl. constructor; [reflexivity|apply mkgap_ok; lia|exact IH].
  Qed.

  Lemma weave_In t x l : StronglySorted (fun x y => te x <= tb y) (x :: l) -> Forall okt (x :: l) ->
    (In t (weave (x :: l)) <-> In t (x :: l) \/ exists b e, In b (map te (x :: l)) /\ In e (map tb (x :: l)) /\ t = mkgap ds b e /\ b < e /\ forall z, In z (x :: l) -> te z <= b \/ e <= tb z).
  Proof.
    revert x. induction l as [|y l IH]; intros x S F.
    - simpl. split; [tauto|]. intros [H|(b & e & [<-|[]] & [<-|[]] & _ & H & _)]; [exact H|]. inversion F as [|? ? [O _] _]; subst. lia.
    - inversion S as [|? ? S' Fx]; inversion F as [|? ? Ox F']; subst. specialize (IH y S' F').
      change (weave (x :: y :: l)) with (x :: (if te x =? tb y then [] else [mkgap ds (te x) (tb y)]) ++ weave (y :: l)).
      inversion Fx as [|? ? Lxy Lxl]; subst. destruct Ox as [Ox _]. inversion F' as [|? ? Oy Fl]; subst. destruct Oy as [Oy _].
      inversion S' as [|? ? S'' Fy]; subst. rewrite Forall_forall in *.
      split.
      + intros [<-|I]; [left; left; reflexivity|]. apply in_app_or in I as [I|I].
        * destruct (Nat.eqb_spec (te x) (tb y)) as [E|E]; [destruct I|]. destruct I as [<-|[]]. right. exists (te x), (tb y).
          split; [left; reflexivity|]. split; [right; left; reflexivity|]. split; [reflexivity|]. split; [lia|].
          intros z [<-|[<-|I]]; [lia|lia|]. specialize (Fy z I). lia.
        * apply IH in I as [I|(b & e & Ib & Ie & -> & L & D)]; [left; right; exact I|]. right. exists b, e.
          split; [right; exact Ib|]. split; [right; exact Ie|]. split; [reflexivity|]. split; [exact L|].
          intros z [<-|I]; [|apply D, I]. left. apply in_map_iff in Ib as (w & <- & Iw).
          assert (Ow : tb w < te w) by (destruct (F w (or_intror Iw)) as [O _]; lia). specialize (Fx w Iw). lia.
      + intros [[<-|I]|(b & e & Ib & Ie & -> & L & D)]; [left; reflexivity|right; apply in_or_app; right; apply IH; left; exact I|].
        right. apply in_or_app. destruct Ib as [<-|Ib].
        * (* the gap starts at the end of x: it ends at tb y *)
          destruct (D y (or_intror (or_introl eq_refl))) as [H|H]; [lia|].
          assert (He : e = tb y). { destruct Ie as [<-|[<-|Ie]]; [lia|reflexivity|]. apply in_map_iff in Ie as (w & <- & Iw). specialize (Fy w Iw). lia. }
          subst e. left. destruct (Nat.eqb_spec (te x) (tb y)); [lia|]. left. reflexivity.
        * right. apply IH. right. exists b, e. split; [exact Ib|]. split.
          -- destruct Ie as [<-|Ie]; [|exact Ie]. exfalso. apply in_map_iff in Ib as (w & <- & Iw).
             assert (Ow : tb w < te w) by (destruct (F w (or_intror Iw)) as [O _]; lia). specialize (Fx w Iw). lia.
          -- split; [reflexivity|]. split; [exact L|]. intros z I. apply D. right. exact I.
  Qed.

  Hypothesis ml2 : (2 <= max_length)%Z.
  Hypothesis n3 : 3 <= n.

  Lemma picks_ok : Forall okt picks.
  Proof.
    apply Forall_forall. intros t I. apply picks_cand in I as (b & e & (A & B & C) & ->). unfold okt, ctok. simpl. fold n in C. repeat split; lia.
  Qed.
  Lemma picks_nonnil : picks <> [].
  Proof.
    apply ms_pick_nonnil; [|apply le_n]. intros E. assert (I : In (ctok 0 2) []).
    { rewrite <- E. unfold ms_initialize. apply sort_In, In_cands. exists 0, 2. split; [|reflexivity]. unfold cand. fold n. lia. }
    destruct I.
  Qed.

  Lemma last_In {A} (l : list A) d : l <> [] -> In (last l d) l.
  Proof. induction l as [|x l IH]; [congruence|]. intros _. destruct l as [|y l]; [left; reflexivity|]. right. apply IH. discriminate. Qed.

  (** the result: tokens tile the eojeol; they are the picks and the gaps between them *)
  Lemma ms_recursive_spec : exists out, ms_recursive scores ds max_length token = Ok out /\ tiles token 0 out /\ StronglySorted (fun x y => tb x < tb y) out /\ (forall t, In t picks -> In t out) /\ (forall t, In t out -> In t picks \/
       tb t < te t /\ (forall z, In z picks -> te z <= tb t \/ te t <= tb z) /\ tsc t = if (tb t =? 0) || (te t =? n) then score_of scores ds token (tb t) (te t) else ds).
  Proof.
    unfold ms_recursive. fold n. destruct (Nat.leb_spec n 2); [lia|]. fold range_l.
    change (ms_find (ms_initialize scores ds token range_l n)) with (sort le_b picks).
    pose proof (disj_chain picks picks_disj (fun x I => ltac:(apply picks_w in I; lia))) as CH.
    assert (PO : Forall okt (sort le_b picks)) by (eapply Permutation_Forall; [apply Permutation_sym, sort_perm|apply picks_ok]).
    assert (PI : forall t, In t (sort le_b picks) <-> In t picks) by (intros; apply sort_In).
    destruct (sort le_b picks) as [|x l] eqn:ES.
    { exfalso. apply picks_nonnil. destruct picks as [|t ?]; [reflexivity|]. destruct (proj2 (PI t) (or_introl eq_refl)). }
    set (rn := last (x :: l) x).
    pose proof (weave_steps x l CH PO) as WS. fold rn in WS.
    assert (Irn : In rn (x :: l)) by (apply last_In; discriminate).
    assert (Orn : okt rn) by (rewrite Forall_forall in PO; apply PO, Irn).
    assert (Ox : okt x) by (inversion PO; assumption).
    set (F := if tb x =? 0 then [] else ms_first scores ds token x).
    set (L := if te rn =? n then [] else ms_last scores ds token rn).
    exists (F ++ weave (x :: l) ++ L).
    assert (SF : steps 0 F (tb x)).
    { unfold F, ms_first. destruct (Nat.eqb_spec (tb x) 0) as [E|E]; [rewrite E; constructor|]. constructor; [reflexivity| |constructor].
      destruct Ox as [Ox _]. unfold okt. simpl. split; [lia|]. split; [|lia]. unfold slice. simpl. rewrite Nat.sub_0_r. reflexivity. }
    assert (SL : steps (te rn) L n).
    { unfold L, ms_last. destruct Orn as [Orn _]. destruct (Nat.eqb_spec (te rn) n) as [E|E]; [rewrite E; constructor|].
      unfold n. apply (steps_cons _ _ _ (length token)); [reflexivity| |constructor].
      unfold okt. simpl. fold n. split; [lia|]. rewrite skipn_length. split; [|reflexivity]. unfold slice. rewrite firstn_all2; [reflexivity|]. rewrite skipn_length. fold n. lia. }
    assert (ST : steps 0 (F ++ weave (x :: l) ++ L) n) by (eapply steps_app; [exact SF|]; eapply steps_app; eassumption).
    destruct (steps_sorted _ _ _ ST) as [SS _].
    split; [|split; [|split; [exact SS|split]]].
    - f_equal. rewrite le_b_key. apply sort_key_strict; [exact SS|].
      replace (if tb x =? 0 then if te rn =? n then ms_inter ds token (x :: l) else ms_inter ds token (x :: l) ++ ms_last scores ds token rn
         else (if te rn =? n then ms_inter ds token (x :: l) else ms_inter ds token (x :: l) ++ ms_last scores ds token rn) ++ ms_first scores ds token x)
        with ((ms_inter ds token (x :: l) ++ L) ++ F).
      2:{ unfold F, L. destruct (tb x =? 0), (te rn =? n); rewrite ?app_nil_r; reflexivity. }
      rewrite <- (weave_perm (x :: l)). rewrite !app_assoc. rewrite Permutation_app_comm. rewrite !app_assoc. reflexivity.
    - eapply steps_tiles; [exact ST|reflexivity].
    - intros t I. apply in_or_app. right. apply in_or_app. left. apply (weave_In t x l CH PO). left. apply PI, I.
    - rewrite Forall_forall in PO. intros t I. inversion CH as [|? ? CH' Fx]; subst. rewrite Forall_forall in Fx.
      assert (LR : forall z, In z (x :: l) -> te z <= te rn).
      { intros z Iz. destruct (in_split _ _ Iz) as (l1 & l2 & E). destruct l2 as [|w l2].
        - unfold rn. rewrite E, last_last. lia.
        - assert (Iw : In rn (w :: l2)).
          { unfold rn. rewrite E. replace (last (l1 ++ z :: w :: l2) x) with (last (w :: l2) x); [apply last_In; discriminate|].
            clear. induction l1 as [|a l1 IH]; [reflexivity|]. simpl app. destruct (l1 ++ z :: w :: l2) eqn:E; [destruct l1; discriminate|]. rewrite <- E in *. rewrite IH. rewrite E. reflexivity. }
          rewrite E in CH. apply SS_app_inv in CH as (_ & CH & _). inversion CH as [|? ? _ Fz]; subst. rewrite Forall_forall in Fz. specialize (Fz _ Iw). destruct Orn as [O _]. lia. }
      apply in_app_or in I as [I|I]; [|apply in_app_or in I as [I|I]].
      + right. unfold F, ms_first in I. destruct (Nat.eqb_spec (tb x) 0); [destruct I|]. destruct I as [<-|[]]. simpl. split; [lia|]. split.
        * intros z Iz. right. apply PI in Iz. destruct Iz as [<-|Iz]; [lia|]. specialize (Fx z Iz). destruct Ox as [Ox _]. lia.
        * unfold score_of, dgetd, slice. simpl. rewrite Nat.sub_0_r. reflexivity.
      + apply (weave_In t x l CH) in I; [|apply Forall_forall, PO]. destruct I as [I|(b & e & Ib & Ie & -> & Lt & D)]; [left; apply PI, I|].
        right. simpl. split; [exact Lt|]. split; [intros z Iz; apply D, PI, Iz|].
        apply in_map_iff in Ib as (z & <- & Iz). apply in_map_iff in Ie as (w & <- & Iw).
        destruct (PO _ Iz) as [Oz _]. destruct (PO _ Iw) as [Ow _].
        destruct (Nat.eqb_spec (te z) 0); [lia|]. destruct (Nat.eqb_spec (tb w) n); [lia|]. reflexivity.
      + right. unfold L, ms_last in I. destruct (Nat.eqb_spec (te rn) n); [destruct I|]. destruct I as [<-|[]]. simpl. fold n. destruct Orn as [Orn _]. split; [lia|]. split.
        * intros z Iz. left. apply LR, PI, Iz.
        * rewrite Nat.eqb_refl, orb_true_r. unfold score_of, dgetd, slice. rewrite firstn_all2 by (rewrite skipn_length; fold n; lia). reflexivity.
  Qed.

  (** a gap has one character when there is no cut-off *)
  Lemma gap_single b e : n < 204 -> e <= n -> (forall z, In z picks -> te z <= b \/ e <= tb z) -> e < b + 2.
  Proof.
    intros Ln Le D. destruct (Nat.lt_ge_cases e (b + 2)) as [H|H]; [exact H|]. exfalso.
    assert (C : cand max_length token b (b + 2)) by (unfold cand; fold n; lia).
    destruct (picks_complete Ln b (b + 2) C) as [I|(x & I & O & _)].
    - specialize (D _ I). simpl in D. lia.
    - apply overlaps_true in O. simpl in O. specialize (D _ I). lia.
  Qed.
End MS.
