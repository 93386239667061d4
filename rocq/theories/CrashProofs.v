From Coq Require Import List ZArith NArith QArith Lia Permutation Sorted Decimal DecimalPos DecimalFacts.
Import ListNotations.
From Verif Require Import PyBase PyDict PySort PyText PyFile SortLemmas UtilsModel UtilsSpec UtilsProofs UtilsProofs2 UtilsProofs3 UtilsProofs4 UtilsProofs5 CrashModel CrashSpec.
Open Scope Z_scope.

(** ** pieces of a written file *)
Lemma piece_app (p a b : str) : piece p (a ++ b) -> (exists t, a = p ++ t) \/ (exists q, p = a ++ q /\ piece q b).
Proof.
  intros [t E]. revert p E. induction a as [|x a IH]; intros p E.
  - right. exists p. split; [reflexivity|]. exists t. exact E.
  - destruct p as [|y p]; [left; exists (x :: a); reflexivity|]. cbn [app] in E. injection E as E1 E2. subst y.
    destruct (IH _ E2) as [(t' & ->)|(q & -> & Q)]; [left; exists t'; reflexivity|right; exists q; auto].
Qed.
Lemma piece_written bs : Forall no_nl bs -> forall p, piece p (written bs) ->
  p = written bs \/ exists k b q, nth_error bs k = Some b /\ piece q b /\ p = written (firstn k bs) ++ q.
Proof.
  unfold written. induction 1 as [|b bs B F IH]; intros p P.
  - left. destruct P as [t E]. cbn [map concat] in *. destruct p; [reflexivity|discriminate E].
  - cbn [map concat] in P. rewrite <- app_assoc in P. apply piece_app in P as [(t & E)|(q & -> & P)].
    + right. exists 0%nat, b, p. split; [reflexivity|]. split; [exists t; exact E|reflexivity].
    + destruct q as [|x q]; [right; exists 0%nat, b, b; split; [reflexivity|]; split; [exists []; rewrite app_nil_r; reflexivity|cbn [firstn map concat app]; rewrite app_nil_r; reflexivity]|].
      destruct P as [t E]. cbn [app] in E. injection E as E1 E2. subst x. destruct (IH q) as [->|(k & b' & q' & K & Q & ->)]; [exists t; exact E2| |].
      * left. cbn [map concat]. rewrite <- app_assoc. reflexivity.
      * right. exists (S k), b', q'. split; [exact K|]. split; [exact Q|]. cbn [firstn map concat]. rewrite <- !app_assoc. reflexivity.
Qed.
Lemma piece_no_nl q b : piece q b -> no_nl b -> no_nl q.
Proof. intros [t ->] H. apply Forall_app in H. tauto. Qed.
Lemma lines_of_body q : Forall (fun c => c <> 10%N) q -> q <> [] -> lines_of q = [q].
Proof.
  induction 1 as [|c q C F IH]; [congruence|intros _]. cbn [lines_of]. replace (N.eqb c 10) with false by (symmetry; apply N.eqb_neq; exact C).
  destruct q as [|d q]; [reflexivity|]. rewrite IH by discriminate. reflexivity.
Qed.
Lemma written_no_cr bs : Forall no_nl bs -> Forall (fun c => c <> 13%N) (written bs).
Proof.
  unfold written. induction 1 as [|b bs B F IH]; [constructor|]. cbn [map concat]. apply Forall_app. split; [|exact IH].
  apply Forall_app. split; [|constructor; [discriminate|constructor]]. eapply Forall_impl; [|exact B]. intros c H; apply H.
Qed.
(** the lines of an interrupted file: the complete ones, and the piece of the next one if there is any of it *)
Lemma cut_lines bs q : Forall no_nl bs -> no_nl q -> file_lines (written bs ++ q) = map (fun b => b ++ [10%N]) bs ++ match q with [] => [] | _ => [q] end.
Proof.
  intros F Q. unfold file_lines. rewrite univ_nl_id.
  - unfold written. induction F as [|b bs B F IH]; cbn [map concat app].
    + destruct q as [|c q]; [reflexivity|]. apply lines_of_body; [eapply Forall_impl; [|exact Q]; intros x H; apply H|discriminate].
    + rewrite <- !app_assoc. cbn [app]. rewrite lines_of_line, IH; [reflexivity|]. eapply Forall_impl; [|exact B]. intros c H; apply H.
  - apply Forall_app. split; [apply written_no_cr; exact F|]. eapply Forall_impl; [|exact Q]. intros x H; apply H.
Qed.

(** ** the first digits of a number *)
Definition val (s : str) : Z := fold_left (fun a c => 10 * a + (Z.of_N c - 48)) s 0.
Lemma val_acc (s : str) a : fold_left (fun a c => 10 * a + (Z.of_N c - 48)) s a = a * 10 ^ Z.of_nat (length s) + val s.
Proof.
  unfold val. revert a. induction s as [|c s IH]; intros a; cbn [fold_left length]; [rewrite Z.pow_0_r; lia|].
  rewrite IH, (IH (10 * 0 + _)). rewrite Nat2Z.inj_succ, Z.pow_succ_r by lia. ring.
Qed.
Lemma val_app a b : val (a ++ b) = val a * 10 ^ Z.of_nat (length b) + val b.
Proof. unfold val at 1. rewrite fold_left_app. rewrite val_acc. reflexivity. Qed.
Definition digits (s : str) : Prop := Forall (fun c => (48 <= c <= 57)%N) s.
Lemma val_bound s : digits s -> 0 <= val s < 10 ^ Z.of_nat (length s).
Proof.
  induction s as [|c s IH] using rev_ind; intros D; [cbn; lia|]. apply Forall_app in D as [D C]. apply Forall_inv in C. specialize (IH D).
  rewrite val_app, app_length, Nat2Z.inj_add, Z.pow_add_r by lia. cbn [length]. change (10 ^ Z.of_nat 1) with 10. replace (val [c]) with (Z.of_N c - 48) by (unfold val; cbn [fold_left]; lia). lia.
Qed.
Lemma val_firstn a b : digits b -> val a = val (a ++ b) / 10 ^ Z.of_nat (length b).
Proof. intros D. rewrite val_app. pose proof (val_bound b D). apply Z.div_unique with (val b); [left; lia|ring]. Qed.

Lemma parse_digits s : digits s -> s <> [] -> parse_int s = Ok (val s).
Proof. intros D NE. exact (parse_int_digits s D NE). Qed.
Lemma format_pos_digits n : 0 <= n -> digits (format_int n).
Proof.
  intros P. unfold format_int. assert (E : exists d, Z.to_int n = Decimal.Pos d) by (destruct n; [eexists; reflexivity|eexists; reflexivity|lia]).
  destruct E as (d & ->). apply uint_chars_digits.
Qed.
Lemma val_format n : 0 <= n -> val (format_int n) = n.
Proof.
  intros P. pose proof (parse_format_int n) as E. rewrite parse_digits in E; [congruence|apply format_pos_digits, P|apply format_int_nonempty].
Qed.
Lemma cut_number n d : 0 <= n -> piece d (format_int n) -> d <> [] -> parse_int d = Ok (first_digits n d).
Proof.
  intros P [t E] NE. pose proof (format_pos_digits n P) as D. rewrite E in D. apply Forall_app in D as [D1 D2].
  rewrite parse_digits by assumption. f_equal. unfold first_digits. rewrite E, app_length. replace (length d + length t - length d)%nat with (length t) by lia.
  rewrite <- (val_format n P) at 1. rewrite E. apply val_firstn, D2.
Qed.
Lemma first_digits_le n d : 0 <= n -> 0 <= first_digits n d <= n.
Proof.
  intros P. unfold first_digits. set (j := (length _ - length d)%nat). assert (1 <= 10 ^ Z.of_nat j) by (apply (Z.pow_le_mono_r 10 0); lia).
  split; [apply Z.div_pos; lia|]. apply Z.div_le_upper_bound; nia.
Qed.
Lemma first_digits_all n : first_digits n (format_int n) = n.
Proof. unfold first_digits. rewrite Nat.sub_diag. cbn. apply Z.div_1_r. Qed.
(** the first digit of a positive number is not 0 *)
Lemma format_head n c s : 0 < n -> format_int n = c :: s -> c <> 48%N.
Proof.
  intros P E ->. destruct n as [|p|p]; try lia. unfold format_int in E. cbn [Z.to_int] in E.
  destruct (Pos.to_uint p) as [|d|d|d|d|d|d|d|d|d|d] eqn:U; try discriminate E.
  pose proof (Unsigned.to_of (Pos.to_uint p)) as X. rewrite Unsigned.of_to in X. cbn [N.to_uint] in X. rewrite U in X.
  unfold unorm in X. cbn [nzhead] in X. destruct (nzhead d) eqn:Z0.
  - injection X as X. pose proof (Unsigned.of_to p) as Y. rewrite U, X in Y. discriminate Y.
  - exact (nzhead_nonzero d u Z0).
  - discriminate X. - discriminate X. - discriminate X. - discriminate X. - discriminate X. - discriminate X. - discriminate X. - discriminate X. - discriminate X.
Qed.
