(** * Proofs about conjugation: every rule of the model is the rule of the specification *)
From Verif Require Import PyBase HangleModel HangleSpec HangleProofs LemmaModel LemmaSpec.
Open Scope N_scope.

(** ** syllables *)
Lemma position_index l x : In x l -> index_of l x = Ok (position x l).
Proof.
  induction l as [|y l IH]; [intros []|]. intros I. cbn [index_of position]. destruct (N.eqb_spec y x) as [->|NE]; [reflexivity|].
  destruct I as [E|I]; [contradiction|]. rewrite (IH I). cbn [bind]. f_equal. lia.
Qed.
Lemma lists_eq : initials = chosung_list /\ vowels = jungsung_list /\ finals = jongsung_list. Proof. vm_compute. auto. Qed.
Lemma compose_syl a b d : jamo a b d -> compose a b d = Ok (syl a b d).
Proof.
  intros (A & B & D). destruct lists_eq as (E1 & E2 & E3). unfold syl. rewrite E1 in *. rewrite E2 in *. rewrite E3 in *. unfold compose.
  rewrite (position_index _ _ A), (position_index _ _ B), (position_index _ _ D). cbn [bind]. reflexivity.
Qed.
Lemma complete_syllable c : character_is_complete_korean c = true -> syllable c.
Proof. unfold character_is_complete_korean, between, syllable. intros K. apply andb_true_iff in K as [K1 K2]. apply N.leb_le in K1. apply N.leb_le in K2. exact (conj K1 K2). Qed.
Lemma syl_decompose a b d : jamo a b d -> decompose (syl a b d) = Some (a, b, d) /\ syllable (syl a b d).
Proof.
  intros J. pose proof J as (A & B & D). destruct lists_eq as (E1 & E2 & E3). rewrite E1 in A. rewrite E2 in B. rewrite E3 in D.
  destruct (decompose_compose a b d A B D) as (c & C & K & X). rewrite (compose_syl a b d J) in C. assert (EC : c = syl a b d) by congruence. rewrite <- EC. split; [exact X|]. apply complete_syllable, K.
Qed.
Lemma syl_inj a b d a' b' d' : jamo a b d -> jamo a' b' d' -> syl a b d = syl a' b' d' -> a = a' /\ b = b' /\ d = d'.
Proof.
  intros J J' E. destruct (syl_decompose _ _ _ J) as [X _]. destruct (syl_decompose _ _ _ J') as [X' _]. rewrite E in X. rewrite X in X'. injection X' as -> -> ->. auto.
Qed.
Lemma syllable_syl c : syllable c -> exists a b d, jamo a b d /\ c = syl a b d.
Proof.
  intros S. assert (K : character_is_complete_korean c = true).
  { unfold syllable in S. unfold character_is_complete_korean, between, kor_begin, kor_end. destruct S. apply andb_true_iff. split; apply N.leb_le; assumption. }
  destruct (compose_decompose c K) as (a & b & d & _ & C & A & B & D). destruct lists_eq as (E1 & E2 & E3).
  assert (J : jamo a b d) by (unfold jamo; rewrite E1, E2, E3; auto). exists a, b, d. split; [exact J|]. rewrite (compose_syl _ _ _ J) in C. injection C as <-. reflexivity.
Qed.
Lemma parts_syl a b d : jamo a b d -> parts_of (syl a b d) = Ok (a, b, d).
Proof. intros J. unfold parts_of. rewrite (proj1 (syl_decompose _ _ _ J)). reflexivity. Qed.
(** membership of literals *)
Lemma In_mem (c : N) l : mem c l = true -> In c l. Proof. apply mem_In. Qed.
Ltac lit := apply In_mem; vm_compute; reflexivity.
Lemma SP_vowel v : In v vowels -> v <> " "%ch.
Proof. intros I ->. apply (proj2 (mem_In (" "%ch) vowels)) in I. vm_compute in I. discriminate. Qed.
(** a literal syllable in terms of its jamo *)
Definition lit_parts (c : N) : N * N * N := match decompose c with Some t => t | None => (0, 0, 0) end.
Lemma lit_syl a b d a' b' d' c : jamo a b d -> syl a' b' d' = c -> jamo a' b' d' -> (syl a b d = c <-> a = a' /\ b = b' /\ d = d').
Proof. intros J <- J'. split; [apply syl_inj; assumption|]. intros (-> & -> & ->). reflexivity. Qed.

(** ** strings *)
Lemma at_last_app p c : at_last (p ++ [c]) = Ok c. Proof. unfold at_last. rewrite rev_app_distr. reflexivity. Qed.
Lemma removelast_last (p : str) c : removelast (p ++ [c]) = p. Proof. apply removelast_last. Qed.
Lemma last_app (p : str) c : last (p ++ [c]) 0 = c. Proof. apply last_last. Qed.
Lemma last_two_app (q : str) c d : last_two (q ++ [c; d]) = [c; d].
Proof. unfold last_two. rewrite app_length. cbn [length]. replace (length q + 2 - 2)%nat with (length q) by lia. rewrite skipn_app, skipn_all, Nat.sub_diag. reflexivity. Qed.
Lemma but_last_two_app (q : str) c d : but_last_two (q ++ [c; d]) = q.
Proof. unfold but_last_two. rewrite app_length. cbn [length]. replace (length q + 2 - 2)%nat with (length q) by lia. rewrite firstn_app, firstn_all, Nat.sub_diag. cbn [firstn]. apply app_nil_r. Qed.
Lemma snoc_case (p : str) : p = [] \/ exists q c, p = q ++ [c].
Proof. destruct p as [|x p]; [left; reflexivity|right]. destruct (exists_last (l := x :: p)) as (q & c & E); [discriminate|]. exists q, c. exact E. Qed.
Lemma setadd_In {A} `{EqB A} (s : list A) x y : In y (setadd s x) <-> In y s \/ y = x.
Proof.
  unfold setadd. destruct (mem x s) eqn:M; [apply mem_In in M|]; [|rewrite in_app_iff; cbn [In]; intuition].
  split; [auto|]. intros [I | ->]; assumption.
Qed.
Lemma setupdate_In {A} `{EqB A} (l s : list A) y : In y (setupdate s l) <-> In y s \/ In y l.
Proof.
  unfold setupdate. revert s. induction l as [|x l IH]; intros s; cbn [fold_left In]; [intuition|]. rewrite IH, setadd_In. intuition congruence.
Qed.
Lemma setadd_NoDup {A} `{EqB A} (s : list A) x : NoDup s -> NoDup (setadd s x).
Proof.
  intros N. unfold setadd. destruct (mem x s) eqn:M; [exact N|]. apply mem_In_false in M. apply NoDup_rev in N. rewrite <- (rev_involutive (s ++ [x])). apply NoDup_rev.
  rewrite rev_app_distr. cbn [rev app]. constructor; [rewrite <- in_rev; exact M|exact N].
Qed.
(** rules that all succeed *)
Lemma run_rules_ok {A} `{EqB A} (rules : list (res (list A))) acc : Forall (fun r => exists l, r = Ok l) rules ->
  exists cs, run_rules acc rules = Ok cs /\ forall s, In s cs <-> In s acc \/ exists l, In (Ok l) rules /\ In s l.
Proof.
  revert acc. induction rules as [|r rs IH]; intros acc F.
  - exists acc. split; [reflexivity|]. intros s. split; [auto|]. intros [I|(l & [] & _)]. exact I.
  - inversion F as [|? ? (l & ->) F']; subst. destruct (IH (setupdate acc l) F') as (cs & R & S). exists cs. cbn [run_rules bind]. split; [exact R|].
    intros s. rewrite S, setupdate_In. split.
    + intros [[I|I]|(l' & I & J)]; [auto|right; exists l; split; [left; reflexivity|exact I]|right; exists l'; split; [right; exact I|exact J]].
    + intros [I|(l' & [E|I] & J)]; [auto| |right; exists l'; auto]. injection E as ->. auto.
Qed.
