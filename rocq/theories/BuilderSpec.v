(** * Specification vocabulary for EojeolPatternTrainer *)
From Verif Require Import PyBase PyDict PyText UtilsModel UtilsSpec NounSpec NounV1Model NounV1Spec BuilderModel.
Open Scope Z_scope.

(** the words of the sentences, cut at single spaces *)
Definition words_of (sents : list str) : list str := space_words (fun s => s) sents.
(** the vocabulary of a training run: the caller's, when it gives two sets that are not empty, else the frequent beginnings and endings *)
Definition left_word (c : bconf) (sents wl wr : list str) (l : str) : Prop :=
  (wl <> [] /\ wr <> [] /\ In l wl) \/ ((wl = [] \/ wr = []) /\ exists n, frequent_left (b_lm c) (b_mf c) (words_of sents) l n).
Definition right_word (c : bconf) (sents wl wr : list str) (r : str) : Prop :=
  (wl <> [] /\ wr <> [] /\ In r wr) \/ ((wl = [] \/ wr = []) /\ frequent_right (b_rm c) (b_mf c) (words_of sents) r).
(** the eojeol l ++ r, cut after l, occurs n times *)
Definition pattern (c : bconf) (sents wl wr : list str) (l r : str) (n : Z) : Prop :=
  left_word c sents wl wr l /\ (r = [] \/ right_word c sents wl wr r) /\ (1 <= length l)%nat /\ Z.of_nat (length l) <= b_lm c /\ n = occurrences (l ++ r) sents /\ 0 < n.
(** the progress report of a verbose trainer divides by zero *)
Definition report_fails (c : bconf) (sents wl wr : list str) : Prop :=
  b_verbose c = true /\ sents <> [] /\ ((length sents < 40)%nat \/ ((wl = [] \/ wr = []) /\ exists k, nth_error sents k = Some [] /\ Z.of_nat k mod (Z.of_nat (length sents) / 40) = 0)).
(** an entry of a loaded graph *)
Definition kholds (g : kgraph) (k : option str) (k' : str) (n : Z) : Prop := exists row, In (k, row) g /\ In (k', n) row.
