(** * Proofs about the part-of-speech extractors: known words, nouns with a josa or predicator, inflected words, one-character nouns *)
From Coq Require Import QArith Permutation.
From Verif Require Import PyBase PyDict CountLemmas PyText HangleModel TokenizerModel UtilsModel NounModel JosaProofs LemmaModel PredModel PosModel PosSpec PosProofs.
Open Scope Z_scope.

(** what is known of a table of counts *)
Definition table (c : dict str Z) (K : str -> Prop) (C : str -> Z -> Prop) : Prop := NoDup (dkeys c) /\ (forall w, In w (dkeys c) <-> K w) /\ forall w, C w (dgetd c w 0).
Lemma In_dec_str (w : str) (l : list str) : In w l \/ ~ In w l.
Proof. destruct (mem w l) eqn:M; [left; apply (proj1 (mem_In _ _)), M|right; intros I; apply (proj2 (mem_In _ _)) in I; congruence]. Qed.
Lemma sub_dec E e P w : sub E e P -> P w \/ ~ P w.
Proof. intros S. destruct (In_dec_str w (dkeys e)) as [I|I]; [left|right; intros H; apply I]; apply (sub_In E e P w S); assumption. Qed.
Lemma sub_count E e P : NoDup (dkeys E) -> sub E e P -> forall n, how_much (fun w => w = n /\ P n) E (dgetd e n 0).
Proof.
  intros N S n. pose proof (sub_wf E e P N S) as Ne.
  assert (Zsum (fun wc : str * Z => if eqb (fst wc) n then snd wc else 0) e = dgetd e n 0).
  { clear S N. induction e as [|[w c] e IH]; [reflexivity|]. inversion Ne as [|? ? NI N']; subst. cbn [Zsum fst snd]. unfold dgetd in *. cbn [dget]. rewrite (IH N'). destruct (eqb_spec w n) as [->|NE]; [|lia].
    destruct (dget e n) eqn:D; [exfalso; apply NI, dget_keys; congruence|lia]. }
  rewrite <- H. apply (sub_sum E e P (fun w => eqb w n)); [exact S|intros w [-> X]; exact X|]. intros w X. rewrite eqb_eq. split; [intros <-; auto|intros [Y _]; exact Y].
Qed.

Section Stages.
  Variable chat : bool.
  Variable x : posx.
  Let E := x_eoj x.
  Hypothesis NE : NoDup (dkeys E).

  Lemma match_word_spec e n a v d : match_word x = (e, (n, a, v, d)) -> sub E e (rest1 x) /\ sub E n (N1 x) /\ sub E a (A1 x) /\ sub E v (V1 x) /\ sub E d (D1 x).
  Proof.
    unfold match_word. intros EQ. injection EQ as E1 E2 E3 E4 E5. fold E in E1, E2, E3, E4, E5.
    assert (HM : forall l (w : str), mem w l = true <-> In w l) by (intros; apply mem_In).
    assert (SN : sub E n (N1 x)) by (subst n; apply (sub_dfilter E E _ _ _ (sub_all E)); [intros w [A _]; exact A|intros w A; rewrite HM; unfold N1, eojeol; tauto]).
    assert (SA : sub E a (A1 x)) by (subst a; apply (sub_dfilter E E _ _ _ (sub_all E)); [intros w [A _]; exact A|intros w A; rewrite dmem_In; unfold A1, eojeol, adj; tauto]).
    assert (SV : sub E v (V1 x)) by (subst v; apply (sub_dfilter E E _ _ _ (sub_all E)); [intros w [A _]; exact A|intros w A; rewrite dmem_In; unfold V1, eojeol, verb; tauto]).
    assert (SD : sub E d (D1 x)) by (subst d; apply (sub_dfilter E E _ _ _ (sub_all E)); [intros w [A _]; exact A|intros w A; rewrite HM; unfold D1, eojeol; tauto]).
    split; [|auto]. rewrite E2, E3, E4, E5 in E1. cbn [fold_left] in E1. subst e.
    assert (STEP : forall e P c Q, sub E e P -> sub E c Q -> sub E (unrecognized e (dmem c)) (fun w => P w /\ ~ Q w)).
    { intros e P c Q S1 S2. apply (sub_unrecognized E e P); [exact S1|intros w [A _]; exact A| |].
      - intros w A. rewrite dmem_In, (sub_In E c Q w S2). destruct (sub_dec E c Q w S2); tauto.
      - intros w A. destruct (sub_dec E c Q w S2); tauto. }
    eapply sub_weaken; [|apply STEP; [apply STEP; [apply STEP; [apply STEP; [apply sub_all|exact SN]|exact SA]|exact SV]|exact SD]].
    intros w. unfold rest1, N1, A1, V1, D1, eojeol, adj, verb. fold E. tauto.
  Qed.

  Lemma noun_word_spec e1 n1 a1 v1 e2 n2 a2 v2 j2 : sub E e1 (rest1 x) -> sub E n1 (N1 x) -> sub E a1 (A1 x) -> sub E v1 (V1 x) ->
    match_noun_and_word e1 n1 a1 v1 (x_josas x) = (e2, (n2, a2, v2, j2)) ->
    sub E e2 (rest2 x) /\
    table n2 (N1 x) (fun n k => exists k1 k2 k3 k4, how_much (fun w => w = n /\ N1 x n) E k1 /\ how_much (fun w => exists r, nj x w n r) E k2 /\ how_much (fun w => exists r, na x w n r) E k3 /\ how_much (fun w => exists r, nv x w n r) E k4 /\ k = k1 + k2 + k3 + k4) /\
    table a2 (A1 x) (fun a k => exists k1 k2, how_much (fun w => w = a /\ A1 x a) E k1 /\ how_much (fun w => exists l, na x w l a) E k2 /\ k = k1 + k2) /\
    table v2 (V1 x) (fun a k => exists k1 k2, how_much (fun w => w = a /\ V1 x a) E k1 /\ how_much (fun w => exists l, nv x w l a) E k2 /\ k = k1 + k2) /\
    table j2 (J2 x) (fun j k => how_much (fun w => exists l, nj x w l j) E k).
  Proof.
    intros S1 SN SA SV EQ. unfold match_noun_and_word in EQ.
    destruct (match_process e1 n1 (fun r => mem r (x_josas x)) [] []) as [[na0 jc] rm1] eqn:M1.
    destruct (match_process e1 na0 (dmem a1) a1 rm1) as [[nb ac] rm2] eqn:M2.
    destruct (match_process e1 nb (dmem v1) v1 rm2) as [[nc vc] rm3] eqn:M3. injection EQ as <- <- <- <- <-.
    assert (HJ : forall r, mem r (x_josas x) = true <-> josa x r) by (intros; apply mem_In).
    assert (HA : forall r, dmem a1 r = true <-> A1 x r) by (intros r; rewrite dmem_In; apply (sub_In E a1 _ r SA)).
    assert (HV : forall r, dmem v1 r = true <-> V1 x r) by (intros r; rewrite dmem_In; apply (sub_In E v1 _ r SV)).
    destruct (pass_spec E e1 _ (N1 x) (josa x) n1 _ [] [] S1 (fun l => sub_In E n1 _ l SN) HJ _ _ _ M1) as (K1 & R1 & D1 & CN1 & CR1 & W1 & WR1 & DEC1).
    destruct (pass_spec E e1 _ (N1 x) (A1 x) na0 _ a1 rm1 S1 K1 HA _ _ _ M2) as (K2 & R2 & D2 & CN2 & CR2 & W2 & WR2 & DEC2).
    destruct (pass_spec E e1 _ (N1 x) (V1 x) nb _ v1 rm2 S1 K2 HV _ _ _ M3) as (K3 & R3 & D3 & CN3 & CR3 & W3 & WR3 & DEC3).
    split; [|split; [|split; [|split]]].
    - apply (sub_unrecognized E e1 _ _ _ S1); [intros w [A _]; exact A| |].
      + intros w A. rewrite (mem_In w rm3). rewrite D3, D2, D1. split.
        * intros H [_ F]. destruct H as [[[[]|(l & r & H)]|(l & r & H)]|(l & r & H)]; destruct (F l r) as (F1 & F2 & F3); [apply F1|apply F2|apply F3]; exact H.
        * intros H. destruct (DEC1 w A) as [X|X]; [auto|]. destruct (DEC2 w A) as [Y|Y]; [auto|]. destruct (DEC3 w A) as [Z|Z]; [auto|]. exfalso. apply H. split; [exact A|]. intros l r. split; [|split]; intros F; [apply X|apply Y|apply Z]; exists l, r; exact F.
      + intros w A. destruct (DEC1 w A) as [(l & r & X)|X]; [right; intros [_ F]; exact (proj1 (F l r) X)|]. destruct (DEC2 w A) as [(l & r & Y)|Y]; [right; intros [_ F]; exact (proj1 (proj2 (F l r)) Y)|]. destruct (DEC3 w A) as [(l & r & Z)|Z]; [right; intros [_ F]; exact (proj2 (proj2 (F l r)) Z)|].
        left. split; [exact A|]. intros l r. split; [|split]; intros F; [apply X|apply Y|apply Z]; exists l, r; exact F.
    - split; [apply W3, W2, W1, (sub_wf E n1 _ NE SN)|]. split; [exact K3|]. intros n. destruct (CN1 n) as (k2 & H2 & E2), (CN2 n) as (k3 & H3 & E3), (CN3 n) as (k4 & H4 & E4). exists (dgetd n1 n 0), k2, k3, k4. split; [apply (sub_count E n1); assumption|]. split; [exact H2|]. split; [exact H3|]. split; [exact H4|]. lia.
    - split; [apply WR2, (sub_wf E a1 _ NE SA)|]. split.
      + intros r. rewrite R2, (sub_In E a1 _ r SA). split; [|auto]. intros [H|(w & l & _ & F)]; [exact H|apply F].
      + intros a. destruct (CR2 a) as (k & H & EQ). exists (dgetd a1 a 0), k. split; [apply (sub_count E a1); assumption|]. split; [exact H|exact EQ].
    - split; [apply WR3, (sub_wf E v1 _ NE SV)|]. split.
      + intros r. rewrite R3, (sub_In E v1 _ r SV). split; [|auto]. intros [H|(w & l & _ & F)]; [exact H|apply F].
      + intros a. destruct (CR3 a) as (k & H & EQ). exists (dgetd v1 a 0), k. split; [apply (sub_count E v1); assumption|]. split; [exact H|exact EQ].
    - split; [apply WR1; constructor|]. split.
      + intros r. rewrite R1. unfold J2. split; [intros [[]|H]; exact H|auto].
      + intros j. destruct (CR1 j) as (k & H & EQ). replace (dgetd jc j 0) with k by (rewrite EQ; reflexivity). exact H.
  Qed.
End Stages.
