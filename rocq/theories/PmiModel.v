(** * Model of soynlp/word/_pmi.py. Floats are real numbers; a sparse matrix is its list of stored triplets. *)
From Coq Require Import Reals.
From Verif Require Import PyBase PyDict VectorizerModel WordModel.
Open Scope R_scope.

(** a matrix with at most one stored value per place, inside its shape, as scipy's csr_matrix in canonical form *)
Definition canonical (X : matrix R) : Prop :=
  NoDup (map fst (triplets X)) /\ Forall (fun t => (0 <= fst (fst t) < nrows X)%Z /\ (0 <= snd (fst t) < ncols X)%Z) (triplets X).

(** X.sum(), X.sum(axis=1), X.sum(axis=0) *)
Definition total (X : matrix R) : R := Rsum (map snd (triplets X)).
Definition row_sum (X : matrix R) (i : Z) : R := Rsum (map snd (filter (fun t => (fst (fst t) =? i)%Z) (triplets X))).
Definition col_sum (X : matrix R) (j : Z) : R := Rsum (map snd (filter (fun t => (snd (fst t) =? j)%Z) (triplets X))).
Definition zrange (n : Z) : list Z := map Z.of_nat (seq 0 (Z.to_nat n)).
(** _pmi.py:9-12: the diagonal *)
Definition diag (alpha : R) (p : list R) : list R := map (fun v => if Req_EM_T v 0 then 0 else 1 / (v + alpha)) p.
(** _pmi.py:66-72: px, py *)
Definition px_of (X : matrix R) : list R := map (fun i => row_sum X i / total X) (zrange (nrows X)).
Definition py_of (X : matrix R) : list R := map (fun j => col_sum X j / total X) (zrange (ncols X)).
(** [py ** beta] for a probability and [py /= py.sum()]; [0 ** beta = 0] *)
Definition pow_beta (beta v : R) : R := if Req_EM_T v 0 then 0 else Rpower v beta.
Definition smooth (beta : R) (py : list R) : list R :=
  if Rlt_dec beta 1 then (let q := map (pow_beta beta) py in map (fun v => v / Rsum q) q) else py.
(** _pmi.py:73, 78-80: the stored values of px_diag . pxy . py_diag; zeros of the diagonals are not stored by scipy *)
Definition nthR (l : list R) (i : Z) : R := nth (Z.to_nat i) l 0.
Definition exp_pmi (X : matrix R) (dx dy : list R) : list (Z * Z * R) :=
  concat (map (fun t => let '(i, j, x) := t in
    if Req_EM_T (nthR dx i) 0 then [] else if Req_EM_T (nthR dy j) 0 then [] else [(i, j, nthR dx i * (x / total X) * nthR dy j)]) (triplets X)).
(** _pmi.py:14-32 *)
Definition log_ppmi (es : list (Z * Z * R)) (min_exp : R) : list (Z * Z * R) :=
  map (fun t => (fst t, ln (snd t))) (filter (fun t => if Rle_dec min_exp (snd t) then true else false) es).
(** _pmi.py:83 *)
Definition min_exp_of (min_pmi : R) : R := if Req_EM_T min_pmi 0 then 1 else exp min_pmi.
(** _pmi.py:34-86 *)
Definition pmi (X : matrix R) (py : option (list R)) (min_pmi alpha beta : R) : res (matrix R * list R * list R) :=
  if Rlt_dec 0 beta then if Rle_dec beta 1 then
    let px := px_of X in
    let py := smooth beta (match py with Some p => p | None => py_of X end) in
    let es := exp_pmi X (diag 0 px) (diag alpha py) in
    Ok (mkMatrix (nrows X) (ncols X) (log_ppmi es (min_exp_of min_pmi)), px, py)
  else Err AssertionError else Err AssertionError.

(** _pmi.py:88-170, with [py=None]: [py] is then a numpy matrix of shape (1, m), so the assertion compares 1 with the
    number of columns. The comparison with the threshold is strict. *)
Definition pmi_memory_friendly (X : matrix R) (min_pmi alpha beta : R) : res (matrix R * list R * list R) :=
  if Rlt_dec 0 beta then if Rle_dec beta 1 then
    let px := px_of X in
    let py := py_of X in
    if negb (1 =? ncols X)%Z then Err AssertionError else
    let p := smooth beta py in
    let es := exp_pmi X (diag 0 px) (diag alpha p) in
    Ok (mkMatrix (nrows X) (ncols X) (map (fun t => (fst t, ln (snd t))) (filter (fun t => if Rlt_dec (min_exp_of min_pmi) (snd t) then true else false) es)), px, p)
  else Err AssertionError else Err AssertionError.
