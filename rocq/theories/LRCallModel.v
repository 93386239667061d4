(** * Model of the rows MaxLRScoreTokenizer returns when it is called, tokenizer/_tokenizer.py:277-301, 343-457.
    [__call__] has the default debug=True (277), so the rows built on the way are returned (298-300 is skipped). A row of a selected word has eleven entries, one of a base token
    ten: no total is appended to it (446-457). *)
From Coq Require Import QArith.
From Verif Require Import PyBase PyDict PySort PyText TokenizerModel.
Open Scope nat_scope.
Record row := Row { r_l : str; r_r : str; r_begin : nat; r_mid : nat; r_end : nat; r_len_l : nat; r_len_r : nat; r_len : nat; r_sl : Q; r_sr : Q; r_total : option Q }.
(** 313-317, 332-340, 345-346, 398: the row of a selected word *)
Definition word_row (w : lrw) : row :=
  Row (wl w) (wr w) (p0 w) (p1 w) (p2 w) (length (wl w)) (length (wr w)) (length (wl w) + length (wr w)) (sl w) (sr w) (Some (total w)).
Definition r_le (x y : row) : bool := r_begin x <=? r_begin y.
Section Call.
  Variables Dl Dr Pl Pr : dict str Q.
  Variables max_lscore_difference max_lscore_diffratio ensurable_score_l ensurable_score_lr_diff : Q.
  (** 446-457 *)
  Definition base_rows (t : str) (b : nat) : res (list row) :=
    do words <- ms_tokenize_flat Dr 0%Q 10 t;
    mapM (fun w => if dmem Dr w then Err AttributeError else let n := length w in Ok (Row w [] b (b + n) (b + n) n 0 n 0%Q 0%Q None)) words.
  (** 425-434 *)
  Fixpoint inter_rows (t : str) (words : list row) : res (list row) :=
    match words with
    | x :: ((y :: _) as rest) =>
      do a <- (if r_end x =? r_begin y then Ok [] else base_rows (slice (r_end x) (r_begin y) t) (r_end x));
      do b <- inter_rows t rest;
      Ok (a ++ b)
    | _ => Ok []
    end.
  (** 414-423, 436-444 *)
  Definition post_rows (t : str) (words : list row) : res (list row) :=
    match words with
    | [] => Ok []
    | w0 :: _ =>
      let wn := last words w0 in
      do a1 <- (if 0 <? r_begin w0 then base_rows (firstn (r_begin w0) t) 0 else Ok []);
      do a2 <- (if r_mid wn <? length t then base_rows (skipn (r_mid wn) t) (r_mid wn) else Ok []);
      do a3 <- inter_rows t words;
      Ok (sort r_le (words ++ a1 ++ a2 ++ a3))
    end.
  (** 286-297, 300 with debug=True *)
  Definition lr_rows (t : str) : res (list row) :=
    do best <- lr_best Dl Dr Pl Pr max_lscore_difference max_lscore_diffratio ensurable_score_l ensurable_score_lr_diff t;
    match best with [] => base_rows t 0 | _ => post_rows t (map word_row best) end.
  (** 277-284: calling the tokenizer; flatten=False and flatten=True *)
  Definition lr_call_rows (sent : str) : res (list (list row)) := mapM lr_rows (split sent).
  Definition lr_call (sent : str) : res (list row) := do rs <- lr_call_rows sent; Ok (concat rs).
End Call.
