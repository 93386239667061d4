(** * Model of soynlp/vectorizer/_vectorizer.py and soynlp/vectorizer/_word_context.py *)
From Coq Require Import QArith Qround.
From Verif Require Import PyBase PyDict PySort PyText PyFile CountLemmas.
Open Scope Z_scope.

(** ** class BaseVectorizer. [D] is the type of documents. Printing is not modelled. *)
Record vconf (D : Type) := mkVconf { vtok : D -> list str; min_tf : Z; max_tf : Z; min_df : Q; max_df : Q; stopwords : list str; lowercase : bool }.
Arguments mkVconf {D}. Arguments vtok {D}. Arguments min_tf {D}. Arguments max_tf {D}. Arguments min_df {D}. Arguments max_df {D}.
Arguments stopwords {D}. Arguments lowercase {D}.
Record vocab := mkVocab { vocabulary : dict str Z; idx2vocab : list str; n_vocabs : Z }.

(** _vectorizer.py:8-28 *)
Definition v_new {D} (c : vconf D) : res vocab :=
  if Qle_bool 0 (min_df c) && negb (Qle_bool 1 (min_df c)) && (negb (Qle_bool (max_df c) 0) && Qle_bool (max_df c) 1)
  then Ok (mkVocab [] [] 0) else Err AssertionError.

(** collections.Counter *)
Definition counter {K} `{EqB K} (l : list K) : dict K Z := fold_left (fun d k => dincr d k 1) l [].
(** _vectorizer.py:43-46: the pair (df, tf) *)
Definition count_doc (acc : dict str Z * dict str Z) (tokens : list str) : dict str Z * dict str Z :=
  fold_left (fun acc tf => (dincr (fst acc) (fst tf) 1, dincr (snd acc) (fst tf) 1)) (counter tokens) acc.
(** [enumerate(l)] *)
Definition enumerate {A} (l : list A) : list (Z * A) := combine (map Z.of_nat (seq 0 (length l))) l.
(** _vectorizer.py:34-69; [i_doc] is unbound when there is no document. [int] truncates non-negative numbers. *)
Definition fit {D} (c : vconf D) (docs : list D) : res vocab :=
  let '(df, tf) := fold_left (fun acc doc => count_doc acc (vtok c doc)) docs ([], []) in
  match docs with
  | [] => Err UnboundLocalError
  | _ =>
    let n_docs := inject_Z (Z.of_nat (length docs)) in
    let min_df := Qfloor (n_docs * min_df c) in
    let max_df := Qfloor (n_docs * max_df c) in
    let df := dfilter (fun _ v => (min_df <=? v) && (v <=? max_df)) df in
    let tf := dfilter (fun _ v => (min_tf c <=? v) && (v <=? max_tf c)) tf in
    let vocabs := dfilter (fun t _ => dmem df t) tf in
    let vocabulary := dict_of (map (fun it => (fst (snd it), fst it)) (enumerate (sort (fun x y : str * Z => - snd x <=? - snd y) vocabs))) in
    let idx2vocab := map fst (sort (fun x y : str * Z => snd x <=? snd y) vocabulary) in
    Ok (mkVocab vocabulary idx2vocab (Z.of_nat (length idx2vocab)))
  end.

(** _vectorizer.py:136-137 *)
Definition encode_list (v : vocab) (tokens : list str) : list Z :=
  concat (map (fun t => match dget (vocabulary v) t with Some i => [i] | None => [] end) tokens).
(** _vectorizer.py:139-140 *)
Definition decode_list (v : vocab) (doc : list Z) : res (list str) :=
  mapM (fun i => match nth_error (idx2vocab v) (Z.to_nat i) with Some t => Ok t | None => Err IndexError end)
    (filter (fun i => (0 <=? i) && (i <? n_vocabs v)) doc).
(** _vectorizer.py:142-145 *)
Definition encode_bow (v : vocab) (tokens : list str) : dict Z Z :=
  dict_of (concat (map (fun tc => match dget (vocabulary v) (fst tc) with Some i => [(i, snd tc)] | None => [] end) (counter tokens))).
(** _vectorizer.py:147-149 *)
Definition decode_bow (v : vocab) (bow : dict Z Z) : res (dict str Z) :=
  do l <- mapM (fun ic => match nth_error (idx2vocab v) (Z.to_nat (fst ic)) with Some t => Ok (t, snd ic) | None => Err IndexError end)
    (filter (fun ic => (0 <=? fst ic) && (fst ic <? n_vocabs v)) bow);
  Ok (dict_of l).

(** A scipy sparse matrix built from triplets (row, column, value): triplets at the same place are summed. *)
Record matrix (T : Type) := mkMatrix { nrows : Z; ncols : Z; triplets : list (Z * Z * T) }.
Arguments mkMatrix {T}. Arguments nrows {T}. Arguments ncols {T}. Arguments triplets {T}.
(** _vectorizer.py:71-88 *)
Definition transform {D} (c : vconf D) (v : vocab) (docs : list D) : res (matrix Z) :=
  match docs with
  | [] => Err UnboundLocalError
  | _ => Ok (mkMatrix (Z.of_nat (length docs)) (n_vocabs v)
               (concat (map (fun d => map (fun tc => (fst d, fst tc, snd tc)) (encode_bow v (vtok c (snd d)))) (enumerate docs))))
  end.
(** _vectorizer.py:30-32 *)
Definition fit_transform {D} (c : vconf D) (docs : list D) : res (vocab * matrix Z) :=
  do v <- fit c docs; do m <- transform c v docs; Ok (v, m).

(** _vectorizer.py:94-131: the content written *)
Definition LF : N := 10%N.
Definition file_row (l : list Z) : str := join [SP] (map format_int l) ++ [LF].
Definition to_file {D} (c : vconf D) (v : vocab) (docs : list D) : res str :=
  match docs with
  | [] => Err UnboundLocalError
  | _ =>
    let n_elements := Zsum (fun d => Z.of_nat (length (nodup (list_eq_dec N.eq_dec) (filter (dmem (vocabulary v)) (vtok c d))))) docs in
    Ok (u "%%MatrixMarket matrix coordinate integer general" ++ [LF] ++ u "%" ++ [LF] ++
        file_row [Z.of_nat (length docs); n_vocabs v; n_elements] ++
        concat (map (fun d => concat (map (fun jc => file_row [fst d + 1; fst jc + 1; snd jc]) (counter (encode_list v (vtok c (snd d)))))) (enumerate docs)))
  end.
(** _vectorizer.py:90-92 *)
Definition fit_to_file {D} (c : vconf D) (docs : list D) : res (vocab * str) :=
  do v <- fit c docs; do f <- to_file c v docs; Ok (v, f).

(** _vectorizer.py:151-156: the content written *)
Definition v_save (v : vocab) : str := concat (map (fun t => t ++ [LF]) (idx2vocab v)).
(** _vectorizer.py:169-172 *)
Definition set_vocabulary (l : list str) : vocab := mkVocab (dict_of (map (fun it => (snd it, fst it)) (enumerate l))) l (Z.of_nat (length l)).
(** _vectorizer.py:158-164 *)
Definition v_load (content : str) : vocab := set_vocabulary (map strip (file_lines content)).
(** _vectorizer.py:166-167; [__len__] 133-134 *)
Definition vocabs (v : vocab) : list str := map fst (sort (fun x y : str * Z => snd x <=? snd y) (vocabulary v)).

(** ** _word_context.py *)
(** 30-40: [word_counter] *)
Definition count_words {S} (tok : S -> list str) (sents : list S) : dict str Z :=
  fold_left (fun d s => fold_left (fun d w => dincr d w 1) (tok s) d) sents [].
(** 28-52; [order] gives the (unspecified) order in which Python traverses the set of frequent words *)
Definition scanning_vocabulary {S} (tok : S -> list str) (order : list str -> list str) (min_tf : Z) (sents : list S) : dict str Z * list str :=
  let wc := count_words tok sents in
  let vocab2idx := order (dkeys (dfilter (fun _ n => n >=? min_tf) wc)) in
  let vocab2idx := dict_of (map (fun it => (snd it, fst it)) (enumerate (sort (fun x y => - dgetd wc x 0 <=? - dgetd wc y 0) vocab2idx))) in
  (vocab2idx, map fst (sort (fun x y : str * Z => snd x <=? snd y) vocab2idx)).

(** [word2contexts\[a\]\[b\] += w] on a defaultdict of defaultdict(int); weights are exact rationals *)
Definition add_ctx (d : dict str (dict str Q)) (a b : str) (w : Q) : dict str (dict str Q) :=
  let inner := match dget d a with Some x => x | None => [] end in
  dset d a (dset inner b (dgetd inner b 0 + w))%Q.
(** 65-68 *)
Definition weights (windows : Z) (dynamic : bool) : list Q :=
  map (fun i => if dynamic then (inject_Z (windows - Z.of_nat i) / inject_Z windows)%Q else 1%Q) (seq 0 (Z.to_nat windows)).
(** 85-97: position [i] of the sentence [words], offsets [w] in [range(windows)] *)
Definition ctx_at (inv : str -> bool) (ws : list Q) (words : list str) (d : dict str (dict str Q)) (i : nat) : dict str (dict str Q) :=
  match nth_error words i with
  | None => d
  | Some word =>
    if negb (inv word) then d else
    let step (pos : nat -> option nat) d wq :=
      match pos (fst wq) with
      | None => d
      | Some j => match nth_error words j with
                  | None => d
                  | Some c => if negb (inv c) then d else add_ctx d word c (snd wq)
                  end
      end in
    let wqs := combine (seq 0 (length ws)) ws in
    let d := fold_left (step (fun w => if (w + 1 <=? i)%nat then Some (i - (w + 1))%nat else None)) wqs d in
    fold_left (step (fun w => if (i + w + 1 <? length words)%nat then Some (i + w + 1)%nat else None)) wqs d
  end.
(** 60-102 *)
Definition word_context {S} (tok : S -> list str) (inv : str -> bool) (ws : list Q) (sents : list S) : dict str (dict str Q) :=
  fold_left (fun d s => fold_left (ctx_at inv ws (tok s)) (seq 0 (length (tok s))) d) sents [].
(** 104-122; without an explicit shape scipy takes the largest indices, and raises ValueError if there are none *)
Definition zmax (l : list Z) : Z := fold_right Z.max 0 l.
Definition encode_as_matrix (w2c : dict str (dict str Q)) (v2i : dict str Z) : res (matrix Q) :=
  do ts <- mapM (fun wc => match dget v2i (fst wc) with
                           | None => Err KeyError
                           | Some i => mapM (fun cq => match dget v2i (fst cq) with
                                                       | None => Err KeyError
                                                       | Some j => Ok (i, j, snd cq)
                                                       end) (snd wc)
                           end) w2c;
  match concat ts with
  | [] => Err ValueError
  | l => Ok (mkMatrix (zmax (map (fun t => fst (fst t)) l) + 1) (zmax (map (fun t => snd (fst t)) l) + 1) l)
  end.
(** 5-26; with [verbose] the status message needs the loop variable *)
Definition sent_to_word_contexts_matrix {S} (tok : S -> list str) (order : list str -> list str) (sents : list S) (windows min_tf : Z)
    (dynamic verbose : bool) : res (matrix Q * list str) :=
  match sents, verbose with
  | [], true => Err UnboundLocalError
  | _, _ =>
    let '(v2i, i2v) := scanning_vocabulary tok order min_tf sents in
    let w2c := word_context tok (dmem v2i) (weights windows dynamic) sents in
    do x <- encode_as_matrix w2c v2i; Ok (x, i2v)
  end.
