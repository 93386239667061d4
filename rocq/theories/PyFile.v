(** * PyFile: text files. A file is its content as a string; [open(path, encoding='utf-8')] translates newlines and iterating
    yields lines with their terminating newline. Directory creation and I/O errors are not modelled. *)
From Verif Require Import PyBase PyText.

(** universal newlines: CR LF and CR become LF *)
Fixpoint univ_nl (s : str) : str :=
  match s with
  | [] => []
  | c :: s' => if N.eqb c 13 then 10%N :: match s' with d :: s'' => if N.eqb d 10 then univ_nl s'' else univ_nl s' | [] => [] end
               else c :: univ_nl s'
  end.
Fixpoint lines_of (s : str) : list str :=
  match s with
  | [] => []
  | c :: s' => if N.eqb c 10 then [c] :: lines_of s'
               else match lines_of s' with [] => [[c]] | l :: ls => (c :: l) :: ls end
  end.
(** [for line in f] *)
Definition file_lines (content : str) : list str := lines_of (univ_nl content).

Definition no_nl (s : str) : Prop := Forall (fun c => c <> 10%N /\ c <> 13%N) s.
Lemma univ_nl_id s : Forall (fun c => c <> 13%N) s -> univ_nl s = s.
Proof.
  induction 1 as [|c s C F IH]; [reflexivity|]. cbn [univ_nl].
  replace (N.eqb c 13) with false by (symmetry; apply N.eqb_neq; exact C). rewrite IH. reflexivity.
Qed.
Lemma lines_of_line b s : Forall (fun c => c <> 10%N) b -> lines_of (b ++ 10%N :: s) = (b ++ [10%N]) :: lines_of s.
Proof.
  induction 1 as [|c b C F IH]; [reflexivity|]. cbn [app lines_of].
  replace (N.eqb c 10) with false by (symmetry; apply N.eqb_neq; exact C). rewrite IH. reflexivity.
Qed.
(** what is written line by line is read back line by line *)
Lemma file_lines_concat bs : Forall no_nl bs -> file_lines (concat (map (fun b => b ++ [10%N]) bs)) = map (fun b => b ++ [10%N]) bs.
Proof.
  intros F. unfold file_lines. rewrite univ_nl_id.
  - induction F as [|b bs B F IH]; [reflexivity|]. cbn [map concat]. rewrite <- app_assoc. cbn [app]. rewrite lines_of_line, IH; [reflexivity|].
    eapply Forall_impl; [|exact B]. intros c H; apply H.
  - induction F as [|b bs B F IH]; [constructor|]. cbn [map concat]. apply Forall_app. split; [|exact IH].
    apply Forall_app. split; [|constructor; [discriminate|constructor]]. eapply Forall_impl; [|exact B]. intros c H; apply H.
Qed.

(** a word: non-empty, no whitespace *)
Definition word (w : str) : Prop := w <> [] /\ Forall (fun c => is_space c = false) w.
Definition nospace (w : str) : Prop := Forall (fun c => is_space c = false) w.
Lemma nospace_no_nl w : nospace w -> no_nl w.
Proof. intros F. eapply Forall_impl; [|exact F]. intros c E. split; intros ->; discriminate. Qed.
Lemma split_word_sp w c s : word w -> is_space c = true -> split (w ++ c :: s) = w :: split s.
Proof.
  intros [NE F] C. unfold split. rewrite runs_run.
  - f_equal. apply (runs_sep nonspace [c] s). constructor; [apply nonspace_false; exact C|constructor].
  - exact NE.
  - eapply Forall_impl; [|exact F]. intros x X. apply nonspace_true, X.
  - apply nonspace_false, C.
Qed.
Lemma split_sp c s : is_space c = true -> split (c :: s) = split s.
Proof. intros C. apply (runs_sep nonspace [c] s). constructor; [apply nonspace_false; exact C|constructor]. Qed.
Lemma split_word w : word w -> split w = [w].
Proof.
  intros [NE F]. unfold split. pose proof (runs_run nonspace w [] NE) as R. rewrite app_nil_r in R. apply R; [|exact Logic.I].
  eapply Forall_impl; [|exact F]. intros x X. apply nonspace_true, X.
Qed.
Lemma format_int_word z : word (format_int z).
Proof.
  split; [apply format_int_nonempty|]. eapply Forall_impl; [|apply format_int_chars].
  intros c [->|H]; [reflexivity|]. unfold is_space.
  apply not_true_is_false. rewrite !orb_true_iff, !andb_true_iff, !N.leb_le, !N.eqb_eq. lia.
Qed.
