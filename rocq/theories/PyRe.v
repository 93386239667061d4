(** * PyRe: the repeated-block substitutions [re.compile('(\w{k})\1{m,}').sub('\1' * n, s)] *)
From Verif Require Import PyBase.

Fixpoint prefixb (p s : str) : bool :=
  match p, s with
  | [], _ => true
  | c :: p', d :: s' => N.eqb c d && prefixb p' s'
  | _, _ => false
  end.

(** [n] copies of a string, Python's [b * n] *)
Fixpoint copies (n : nat) (b : str) : str :=
  match n with O => [] | S n' => b ++ copies n' b end.

(** how many further copies of the block [b] (greedy [\1*]) stand at the beginning of [s];
    [fuel] is at least the length of [s] and [b] is non-empty *)
Fixpoint count_copies (fuel : nat) (b s : str) : nat :=
  match fuel with
  | O => O
  | S f => if prefixb b s then S (count_copies f b (skipn (length b) s)) else O
  end.

Section Sub.
  Variable word : N -> bool.     (* the class \w *)
  Variable k : nat.              (* block length *)
  Variable m : nat.              (* the block must be followed by at least m copies *)
  Variable n : nat.              (* number of copies written back *)

  (** the match attempt at the beginning of [s]: [Some j] when it matches a block followed by [j] copies *)
  Definition block_match (s : str) : option nat :=
    let b := firstn k s in
    if (length b =? k) && forallb word b then
      let j := count_copies (length s) b (skipn k s) in
      if m <=? j then Some j else None
    else None.

  (** [sub]: leftmost matches, scanning on after the end of each match; [skip] counts the
      characters of the last match that are still to be passed over *)
  Fixpoint block_sub (skip : nat) (s : str) : str :=
    match s with
    | [] => []
    | c :: s' =>
      match skip with
      | S i => block_sub i s'
      | O =>
        match block_match s with
        | Some j => copies n (firstn k s) ++ block_sub (k * (1 + j) - 1) s'
        | None => c :: block_sub 0 s'
        end
      end
    end.
End Sub.

(** [re.compile('(\w{k})\1{m,}').sub('\1' * n, s)], k >= 1 *)
Definition re_repeat_sub (word : N -> bool) (k m n : nat) (s : str) : str := block_sub word k m n 0 s.
