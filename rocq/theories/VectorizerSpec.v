(** * Specification vocabulary for the vectorizer properties (C43-C45) *)
From Coq Require Import QArith Qround.
From Verif Require Import PyBase PyDict PySort PyText PyFile CountLemmas VectorizerModel.
Open Scope Z_scope.

(** terms and indices 0..n-1 correspond one to one *)
Definition coherent (v : vocab) : Prop :=
  NoDup (idx2vocab v) /\ n_vocabs v = Z.of_nat (length (idx2vocab v)) /\
  forall t i, dget (vocabulary v) t = Some i <-> 0 <= i /\ nth_error (idx2vocab v) (Z.to_nat i) = Some t.

(** number of documents that contain the term *)
Definition doc_freq {D} (tok : D -> list str) (docs : list D) (t : str) : Z :=
  Z.of_nat (length (filter (fun d => mem t (tok d)) docs)).
(** distinct elements in order of first appearance *)
Definition first_seen (l : list str) : list str := fold_left (fun acc x => if mem x acc then acc else acc ++ [x]) l [].

(** the value of a matrix at a place: the sum of the triplets there *)
Definition entryZ (m : matrix Z) (i j : Z) : Z := Zsum snd (filter (fun t => (fst (fst t) =? i) && (snd (fst t) =? j)) (triplets m)).
Definition Qsum (l : list Q) : Q := fold_right Qplus 0%Q l.
Definition entryQ (m : matrix Q) (i j : Z) : Q := Qsum (map snd (filter (fun t => (fst (fst t) =? i) && (snd (fst t) =? j)) (triplets m))).

(** weight of two positions at distance [d] (in 1..windows) *)
Definition ctx_weight (windows : Z) (dynamic : bool) (d : Z) : Q :=
  if (1 <=? d) && (d <=? windows) then (if dynamic then (inject_Z (windows - d + 1) / inject_Z windows)%Q else 1%Q) else 0%Q.
(** co-occurrence of [a] with [b] in one sentence: the sum over all pairs of positions holding [a] and [b] of the weight of their distance *)
Definition cooc1 (windows : Z) (dynamic : bool) (words : list str) (a b : str) : Q :=
  Qsum (map (fun i => Qsum (map (fun j =>
      if eqb (nth i words []) a && eqb (nth j words []) b then ctx_weight windows dynamic (Z.abs (Z.of_nat i - Z.of_nat j)) else 0%Q)
    (seq 0 (length words)))) (seq 0 (length words))).
Definition cooc {S} (tok : S -> list str) (windows : Z) (dynamic : bool) (sents : list S) (a b : str) : Q :=
  Qsum (map (fun s => cooc1 windows dynamic (tok s) a b) sents).
(** number of occurrences of a word in the corpus *)
Definition word_freq {S} (tok : S -> list str) (sents : list S) (w : str) : Z := occ w (concat (map tok sents)).

(** a line of a Matrix Market file: three integers *)
Definition mm_row (a b c : Z) : str := format_int a ++ [SP] ++ format_int b ++ [SP] ++ format_int c ++ [10%N].
(** a Matrix Market coordinate file (1-based indices) holding a matrix of integers *)
Definition mm_file (m : matrix Z) : str :=
  u "%%MatrixMarket matrix coordinate integer general" ++ [10%N] ++ u "%" ++ [10%N] ++
  mm_row (nrows m) (ncols m) (Z.of_nat (length (triplets m))) ++
  concat (map (fun t => mm_row (fst (fst t) + 1) (snd (fst t) + 1) (snd t)) (triplets m)).
