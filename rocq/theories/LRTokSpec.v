(** * Specification vocabulary for the exact result of MaxLRScoreTokenizer (C80) *)
From Coq Require Import QArith.
From Verif Require Import PyBase PyDict PyText TokenizerModel TokenizerSpec.
Open Scope nat_scope.

Section Spec.
  Variables Dl Dr Pl Pr : dict str Q.
  Variables max_lscore_difference max_lscore_diffratio ensurable_score_l ensurable_score_lr_diff : Q.
  Variable t : str.
  (** an L-R word at a position of t, with the scores of the dictionaries *)
  Definition candidate (w : lrw) : Prop := lrok Dl Dr t w /\ sl w = dgetd Dl (wl w) 0%Q /\ sr w = dgetd Dr (wr w) 0%Q /\ total w = 0%Q.
  (** the order in which candidates are compared: the score of L, then the end, begin and end of L *)
  Definition before1 (x y : lrw) : Prop := (sl y < sl x)%Q \/ ((sl x == sl y)%Q /\ (p2 x < p2 y \/ (p2 x = p2 y /\ (p0 x < p0 y \/ (p0 x = p0 y /\ p1 x < p1 y))))).
  (** the L of c contains that of w, and its score is not much lower *)
  Definition covers (c w : lrw) : Prop := p0 c <= p0 w /\ p1 w <= p1 c /\ (p0 c < p0 w \/ p1 w < p1 c).
  Definition close (w c : lrw) : Prop := (sl w - sl c < max_lscore_difference)%Q \/
    ((ensurable_score_l * (1 # 2) < sl w)%Q /\ ~ (sl c + (1 # 100000) == 0)%Q /\ ((sl w + (1 # 100000)) / (sl c + (1 # 100000)) < max_lscore_diffratio)%Q).
  Definition survivor (w : lrw) : Prop := candidate w /\ forall c, candidate c -> before1 w c -> covers c w -> ~ close w c.
  (** the order of scoring: L score, R score, begin, longest L, shortest R *)
  Definition before2 (x y : lrw) : Prop := (sl y < sl x)%Q \/ ((sl x == sl y)%Q /\ ((sr y < sr x)%Q \/ ((sr x == sr y)%Q /\ (p0 x < p0 y \/ (p0 x = p0 y /\ (p1 y < p1 x \/ (p1 x = p1 y /\ p2 x < p2 y))))))).
  (** K: the words that are scored. A word is not scored when another survivor begins inside its R and has a score that is high, or higher than that of R;
      that score is the L score, but the R score when the other word has been scored before *)
  Definition scoring (K : lrw -> Prop) : Prop := forall v, K v <-> survivor v /\
    ~ exists w s, survivor w /\ p1 v <= p0 w < p2 v /\ ((K w /\ before2 w v /\ s = sr w) \/ (~ (K w /\ before2 w v) /\ s = sl w)) /\
        ((ensurable_score_l <= s)%Q \/ (ensurable_score_lr_diff < s + dgetd Pl (wl w) 0%Q - sr v)%Q).
  Definition total_score (w : lrw) : Q := ((if (length (wr w) =? 0)%nat then sl w * 2 else sl w + sr w) + dgetd Pl (wl w) 0 + dgetd Pr (wr w) 0)%Q.
  Definition before3 (x y : lrw) : Prop := (total_score y < total_score x)%Q \/ ((total_score x == total_score y)%Q /\ before2 x y).
  (** the words selected: those that do not overlap a better selected word *)
  Definition selecting (K B : lrw -> Prop) : Prop := forall v, B v <-> K v /\ forall w, B w -> before3 w v -> p2 w <= p0 v \/ p2 v <= p0 w.
  (** a word as the tokenizer reports it: with its total score *)
  Definition reported (v : lrw) : lrw := LRW (wl v) (wr v) (p0 v) (p1 v) (p2 v) (sl v) (sr v) (total_score v).

  (** ** the output for the selected words: what is not covered is cut by the MaxScoreTokenizer of the R dictionary, and so is, again, the R part of the last word *)
  Fixpoint pieces_from (x : lrw) (l : list lrw) : list (str + lrw) :=
    match l with
    | [] => [inr x; inl (skipn (p1 x) t)]
    | y :: l' => inr x :: inl (slice (p2 x) (p0 y) t) :: pieces_from y l'
    end.
  Definition pieces (best : list lrw) : list (str + lrw) := match best with [] => [inl t] | x :: l => inl (firstn (p0 x) t) :: pieces_from x l end.
End Spec.
(** the words of a piece, with their side: true for L *)
Definition piece_words (tokens : str -> list str) (p : str + lrw) : list (str * bool) :=
  match p with inl s => map (fun w => (w, true)) (tokens s) | inr w => (wl w, true) :: match wr w with [] => [] | r => [(r, false)] end end.
