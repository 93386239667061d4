(** * Specification vocabulary for interrupted saves *)
From Coq Require Import List ZArith Sorted.
Import ListNotations.
From Verif Require Import PyBase PyDict PyText PyFile UtilsModel UtilsSpec.
Open Scope Z_scope.

(** [p] is an initial piece of [s] *)
Definition piece (p s : str) : Prop := exists t, s = p ++ t.
(** the files a process that dies while replacing [old] by [new] can leave *)
Definition left_by_crash (old new s : str) : Prop := s = old \/ piece s new.
(** most frequent first, equally frequent ones in the order of their code points *)
Definition most_frequent_first (rows : list (str * Z)) : Prop :=
  StronglySorted (fun x y => snd y < snd x \/ (snd x = snd y /\ str_leb (fst x) (fst y) = true)) rows.
(** the line of a counter file *)
Definition counter_line (kv : str * Z) : str := fst kv ++ [32%N] ++ format_int (snd kv).
(** what remains of a positive number of which only the first [length d] of the [length (format_int n)] digits were written *)
Definition first_digits (n : Z) (d : str) : Z := n / 10 ^ Z.of_nat (length (format_int n) - length d).
Definition written (lines : list str) : str := concat (map (fun b => b ++ [10%N]) lines).

(** ** graph files *)
Definition pair3 := (str * str * Z)%type.
Definition t_l (t : pair3) : str := fst (fst t).
Definition t_r (t : pair3) : str := snd (fst t).
Definition t_c (t : pair3) : Z := snd t.
(** the line of a graph file *)
Definition graph_line (t : pair3) : str := t_l t ++ [32%N] ++ t_r t ++ [32%N] ++ format_int (t_c t).
(** by the left part, then by the right part *)
Definition alphabetical (T : list pair3) : Prop :=
  StronglySorted (fun x y => t_l x <> t_l y /\ str_leb (t_l x) (t_l y) = true \/ t_l x = t_l y /\ str_leb (t_r x) (t_r y) = true) T.
(** loading [s] into [g1] gives a graph with exactly the pairs of [T], in both directions *)
Definition loads_pairs (g1 : lrg) (s : str) (T : list pair3) : Prop := exists g2, lrg_load g1 s = Ok g2 /\ is_graph (lr g2) /\ is_graph (rl g2) /\ origin g2 = Some (lr g2) /\
  l_max g2 = l_max g1 /\ r_max g2 = r_max g1 /\ (forall l r c, holds_pair (lr g2) l r c <-> In (l, r, c) T) /\
  (forall l r c, holds_pair (rl g2) r l c <-> r <> [] /\ In (l, r, c) T).
