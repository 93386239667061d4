(** * Specification vocabulary for the tokenizers *)
From Coq Require Import QArith.
From Verif Require Import PyBase PySort PyText PyDict HangleSpec TokenizerModel.
Open Scope nat_scope.

(** all characters of a token are in the class, or none *)
Definition homogeneous (k : N -> bool) (w : str) : Prop := Forall (fun c => k c = true) w \/ Forall (fun c => k c = false) w.
Definition starts_in (k : N -> bool) (w : str) : bool := match w with c :: _ => k c | [] => false end.

(** the sub-tokens cover [s] from position [p] to the end without gap or overlap, each carrying its own slice and length *)
Inductive tiles (s : str) : nat -> list tok -> Prop :=
| tiles_nil : tiles s (length s) []
| tiles_cons p t ts : tb t = p -> p < te t <= length s -> tw t = slice p (te t) s -> tl t = te t - p ->
    tiles s (te t) ts -> tiles s p (t :: ts).

(** substring positions considered by the tokenizer: length 2 .. max_length *)
Definition cand (max_length : Z) (s : str) (b e : nat) : Prop :=
  b + 2 <= e /\ (Z.of_nat e - Z.of_nat b <= max_length)%Z /\ e <= length s.
Definition score_of (scores : dict str Q) (ds : Q) (s : str) (b e : nat) : Q :=
  match dget scores (slice b e s) with Some v => v | None => ds end.
(** ranking: higher score, then longer, then further left *)
Definition better (scores : dict str Q) (ds : Q) (s : str) (x y : nat * nat) : Prop :=
  let f := score_of scores ds s in
  (f (fst y) (snd y) < f (fst x) (snd x))%Q \/
  (f (fst x) (snd x) == f (fst y) (snd y))%Q /\
   (snd y - fst y < snd x - fst x \/ (snd x - fst x = snd y - fst y /\ fst x < fst y)).
Definition overlap (x y : nat * nat) : Prop := fst x < snd y /\ fst y < snd x.

(** [R] is the greedy selection: candidates, pairwise disjoint, and every other candidate overlaps a better-ranked member *)
Definition greedy (scores : dict str Q) (ds : Q) (max_length : Z) (s : str) (R : list (nat * nat)) : Prop :=
  NoDup R /\
  (forall x, In x R -> cand max_length s (fst x) (snd x)) /\
  (forall x y, In x R -> In y R -> x <> y -> ~ overlap x y) /\
  (forall y, cand max_length s (fst y) (snd y) -> In y R \/ exists x, In x R /\ overlap x y /\ better scores ds s x y).

(** greedy longest-match chain of nouns from position [p]: the nouns taken and the position reached *)
Inductive longest_chain (is_noun : str -> bool) (s : str) : nat -> list str -> nat -> Prop :=
| lc_stop p : (forall e, p < e <= length s -> is_noun (slice p e s) = false) -> longest_chain is_noun s p [] p
| lc_step p e ws q : p < e <= length s -> is_noun (slice p e s) = true ->
    (forall e', e < e' <= length s -> is_noun (slice p e' s) = false) ->
    longest_chain is_noun s e ws q -> longest_chain is_noun s p (slice p e s :: ws) q.

(** what is assumed of a regular expression used as an oracle *)
Definition nonempty_matches (ps : list (str -> list str)) : Prop := Forall (fun p => forall s, Forall (fun f => f <> []) (p s)) ps.
Definition hangul_free (f : str) : Prop := Forall (fun c => ~ syllable c /\ ~ consonant c /\ ~ vowel c) f.

(** position of a token and tokens with two or more characters *)
Definition pos (t : tok) : nat * nat := (tb t, te t).
Definition multi (t : tok) : bool := 2 <=? te t - tb t.

(** an L-R word at a position of [t]: L is an L word of the dictionary, R is empty or an R word; a single
    character is never a word on its own *)
Definition lrok (Dl Dr : dict str Q) (t : str) (w : lrw) : Prop :=
  p0 w < p1 w /\ p1 w <= p2 w /\ p2 w <= length t /\ wl w = slice (p0 w) (p1 w) t /\ wr w = slice (p1 w) (p2 w) t /\
  dmem Dl (wl w) = true /\ (wr w = [] \/ dmem Dr (wr w) = true) /\ ~ (p1 w = p0 w + 1 /\ wr w = []).

(** nouns found in an eojeol: in order, not overlapping, at their position, with the positive score of the table *)
Definition nm_sound (scores : dict str Q) (e : str) (ws : list tok) : Prop :=
  StronglySorted (fun x y => te x <= tb y) ws /\
  Forall (fun w => tb w < te w <= length e /\ tw w = slice (tb w) (te w) e /\ tl w = te w - tb w /\ (0 < tsc w)%Q /\ dget scores (tw w) = Some (tsc w)) ws.
Definition covered (ws : list tok) (i : nat) : Prop := exists w, In w ws /\ tb w <= i < te w.
(** composed nouns: the maximal intervals covered by the nouns *)
Definition nm_composed (e : str) (ws out : list tok) : Prop :=
  StronglySorted (fun x y => te x < tb y) out /\
  Forall (fun w => tb w < te w <= length e /\ tw w = slice (tb w) (te w) e) out /\
  forall i, covered out i <-> covered ws i.
