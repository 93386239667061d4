(** * Proofs about LTokenizer (C19) *)
From Coq Require Import QArith Lqa.
From Verif Require Import PyBase PyDict PySort SortLemmas PyText TokenizerModel TokenizerSpec QLemmas.
Open Scope nat_scope.

Lemma lt_len_total x y : lt_le_len x y = true \/ lt_le_len y x = true.
Proof. unfold lt_le_len. qb. lia. Qed.
Lemma lt_len_trans x y z : lt_le_len x y = true -> lt_le_len y z = true -> lt_le_len x z = true.
Proof. unfold lt_le_len. qb. lia. Qed.
Lemma lt_sl_total x y : lt_le_score_len x y = true \/ lt_le_score_len y x = true.
Proof.
  unfold lt_le_score_len. qb. destruct (Qtri (fst (fst x)) (fst (fst y))) as [H|[H|H]]; auto.
  destruct (Nat.le_ge_cases (length (snd (fst x))) (length (snd (fst y)))); [right|left]; right; split; auto; try lra.
Qed.
Lemma lt_sl_trans x y z : lt_le_score_len x y = true -> lt_le_score_len y z = true -> lt_le_score_len x z = true.
Proof.
  unfold lt_le_score_len. qb. intros [A|[A A']] [B|[B B']]; [left; lra|left; lra|left; lra|right; split; [lra|lia]].
Qed.

Lemma token_to_lr_short scores ds tol t : length t <= 2 -> token_to_lr scores ds tol t = (t, []).
Proof. intros L. unfold token_to_lr. apply Nat.leb_le in L. rewrite L. reflexivity. Qed.

Lemma token_to_lr_spec scores ds tol t l r : 3 <= length t -> token_to_lr scores ds tol t = (l, r) ->
  let f e := dgetd scores (firstn e t) ds in
  l ++ r = t /\ 2 <= length l /\
  ((tol <= 0)%Q -> forall e, 2 <= e <= length t -> (f e < f (length l))%Q \/ (f e == f (length l))%Q /\ e <= length l) /\
  ((0 < tol)%Q -> (forall e, 2 <= e <= length t -> (f e - f (length l) <= tol)%Q) /\
                  (forall e, length l < e <= length t -> exists e', 2 <= e' <= length t /\ (tol < f e' - f e)%Q)).
Proof.
  intros L E f. unfold token_to_lr in E.
  destruct (Nat.leb_spec (length t) 2) as [B|_]; [lia|].
  set (cands := map (fun e => (dgetd scores (firstn e t) ds, firstn e t, skipn e t)) (seq 2 (length t - 1))) in *.
  assert (IC : forall c, In c cands <-> exists e, 2 <= e <= length t /\ c = (f e, firstn e t, skipn e t)).
  { intros c. unfold cands. rewrite in_map_iff. split.
    - intros (e & <- & I). apply in_seq in I. exists e. split; [lia|reflexivity].
    - intros (e & I & ->). exists e. split; [reflexivity|apply in_seq; lia]. }
  assert (NC : cands <> []). { intro Z. assert (I : In (f 2, firstn 2 t, skipn 2 t) cands) by (apply IC; exists 2; split; [lia|reflexivity]). rewrite Z in I. destruct I. }
  destruct (qltb 0 tol) eqn:T; qb.
  - set (m := match cands with [] => 0%Q | c :: cs => qmax (map (fun c => fst (fst c)) cs) (fst (fst c)) end) in *.
    assert (M : (exists e, 2 <= e <= length t /\ m = f e) /\ forall e, 2 <= e <= length t -> (f e <= m)%Q).
    { unfold m. destruct cands as [|c cs] eqn:Ec; [congruence|].
      destruct (qmax_spec (map (fun c => fst (fst c)) cs) (fst (fst c))) as [I G]. split.
      - change (fst (fst c) :: map (fun c => fst (fst c)) cs) with (map (fun c : Q * str * str => fst (fst c)) (c :: cs)) in I.
        apply in_map_iff in I as (x & X & I). apply IC in I as (e & Le & ->). exists e. split; [exact Le|]. simpl in X. congruence.
      - intros e Le. apply G. change (fst (fst c) :: map (fun c => fst (fst c)) cs) with (map (fun c : Q * str * str => fst (fst c)) (c :: cs)).
        apply in_map_iff. exists (f e, firstn e t, skipn e t). split; [reflexivity|]. apply IC. eauto. }
    destruct M as [(em & Lm & Em) Mx].
    set (cs := filter (fun c : Q * str * str => Qle_bool (m - fst (fst c)) tol) cands) in *.
    assert (Ics : forall c, In c cs <-> exists e, 2 <= e <= length t /\ c = (f e, firstn e t, skipn e t) /\ (m - f e <= tol)%Q).
    { intros c. unfold cs. rewrite filter_In, IC. split.
      - intros ((e & Le & ->) & Q). simpl in Q. qb. eauto.
      - intros (e & Le & -> & Q). split; [eauto|]. simpl. qb. exact Q. }
    assert (NE : cs <> []). { intro Z. assert (I : In (f em, firstn em t, skipn em t) cs) by (apply Ics; exists em; split; [lia|split; [reflexivity|rewrite <- Em; lra]]). rewrite Z in I. destruct I. }
    destruct (sort_hd_some lt_le_len cs NE) as (x & Hx). rewrite Hx in E.
    destruct (sort_hd lt_le_len lt_len_total lt_len_trans _ _ Hx) as [Ix Gx]. apply Ics in Ix as (e & Le & -> & Qe).
    injection E as <- <-. rewrite firstn_length_le by lia. split; [apply firstn_skipn|]. split; [lia|]. split; [intros; lra|]. intros _. split.
    + intros e' Le'. specialize (Mx e' Le'). lra.
    + intros e' Le'. exists em. split; [exact Lm|]. rewrite <- Em. apply Qnot_le_lt. intros Q.
      assert (I : In (f e', firstn e' t, skipn e' t) cs) by (apply Ics; exists e'; split; [lia|split; [reflexivity|exact Q]]).
      apply Gx in I. unfold lt_le_len in I. simpl in I. qb. rewrite !firstn_length_le in I by lia. lia.
  - destruct (sort_hd_some lt_le_score_len cands NC) as (x & Hx). rewrite Hx in E.
    destruct (sort_hd lt_le_score_len lt_sl_total lt_sl_trans _ _ Hx) as [Ix Gx]. apply IC in Ix as (e & Le & ->).
    injection E as <- <-. rewrite firstn_length_le by lia. split; [apply firstn_skipn|]. split; [lia|]. split; [|intros; lra]. intros _ e' Le'.
    assert (I : In (f e', firstn e' t, skipn e' t) cands) by (apply IC; exists e'; split; [lia|reflexivity]).
    apply Gx in I. unfold lt_le_score_len in I. simpl in I. qb. rewrite !firstn_length_le in I by lia.
    destruct I as [I|[I J]]; [left; exact I|right; split; [lra|lia]].
Qed.
