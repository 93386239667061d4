(** * The file of EojeolPatternTrainer.save row by row, and what a reader makes of its last row when that is cut *)
From Verif Require Import PyBase PyDict PyText PyFile BuilderModel BuilderSpec CrashSpec.
Open Scope Z_scope.
(** a row of a graph: a heading with the sum of its counts, or a pair (the heading is not repeated in the file) *)
Inductive brow := KeyRow (k : str) (total : Z) | PairRow (k k' : str) (n : Z).
Definition row_text (b : brow) : str :=
  match b with
  | KeyRow k z => u "> " ++ k ++ u " (" ++ format_int z ++ u ")"
  | PairRow _ k' n => u "  - " ++ k' ++ u ": " ++ format_int n
  end.
Definition pairs_of (rows : list brow) : list pair3 := concat (map (fun b => match b with KeyRow _ _ => [] | PairRow k k' n => [(k, k', n)] end) rows).
(** the first line *)
Definition head_text (c : bconf) : str := format_int (b_lm c) ++ [SP] ++ format_int (b_rm c) ++ [SP] ++ format_int (b_mf c) ++ [SP] ++ format_int (if b_verbose c then 1 else 0).
(** the beginning [q] of a row, without its newline. The reader drops the last character of every line, so it drops one of [q]. A beginning of a heading
    passes when it has at most two characters or its shortened form contains a bracket; a beginning of a pair passes with at most four characters, or with at
    least two digits of the count: the pair then gets the number formed by all of these digits but the last *)
Definition torn (b : brow) (q : str) : res (list pair3) :=
  match b with
  | KeyRow _ _ => if (length q <=? 2)%nat || mem 40%N (removelast q) then Ok [] else Err ValueError
  | PairRow k k' n =>
      if (length q <=? 4)%nat then Ok [] else if (length q <=? length k' + 7)%nat then Err ValueError
      else Ok [(k, k', n / 10 ^ Z.of_nat (length (format_int n) + length k' + 7 - length q))]
  end.
(** a loaded graph consists of the pairs of the list, each heading once *)
Definition consists_of (g : kgraph) (ps : list pair3) : Prop :=
  NoDup (dkeys g) /\ forall k k' n, kholds g k k' n <-> exists l, k = Some l /\ In (l, k', n) ps.
(** the loading trainer got the parameters of [c], kept its own [verbose], and has these graphs; its vocabularies are the headings of the graphs *)
Definition loaded_as (c c' : bconf) (ld : bloaded) (ps1 ps2 : list pair3) : Prop :=
  l_conf ld = mkB (b_lm c) (b_rm c) (b_mf c) (b_verbose c') /\ consists_of (l_lr ld) ps1 /\ consists_of (l_rl ld) ps2 /\
  (forall k, In k (l_wl ld) <-> exists l k' n, k = Some l /\ In (l, k', n) ps1) /\ (forall k, In k (l_wr ld) <-> exists l k' n, k = Some l /\ In (l, k', n) ps2).

(** the complete file is [front], a row per heading and pair of the lr-graph, [middle], and the rows of the rl-graph *)
Definition front (c : bconf) : list str := [head_text c; u "# lrgraph"].
Definition middle : list str := [[]; u "# rlgraph"].
Definition rows_describe (c : bconf) (sents wl wr : list str) (R1 R2 : list brow) : Prop :=
  (forall l r n, In (l, r, n) (pairs_of R1) <-> pattern c sents wl wr l r n) /\ (forall l r n, In (r, l, n) (pairs_of R2) <-> pattern c sents wl wr l r n) /\
  NoDup (map (fun t => (t_l t, t_r t)) (pairs_of R1)) /\ NoDup (map (fun t => (t_l t, t_r t)) (pairs_of R2)).
(** where a save can stop, and what load makes of the file: None is StopIteration, otherwise an error or the pairs of the two graphs *)
Inductive stopped (c : bconf) (R1 R2 : list brow) : str -> option (res (list pair3 * list pair3)) -> Prop :=
| stop_head q : piece q (head_text c) ->
    stopped c R1 R2 q (if eqb q [] || eqb q (head_text c) then None else Some (Err ValueError))
| stop_kind q : piece q (u "# lrgraph") ->
    stopped c R1 R2 (written [head_text c] ++ q) (if eqb q [] then None else if eqb q (u "# lrgraph") then Some (Ok ([], [])) else Some (Err ValueError))
| stop_lr k b q : nth_error R1 k = Some b -> piece q (row_text b) ->
    stopped c R1 R2 (written (front c ++ map row_text (firstn k R1)) ++ q) (Some (do more <- torn b q; Ok (pairs_of (firstn k R1) ++ more, [])))
| stop_middle q : q = [] \/ (exists q', q = 10%N :: q' /\ piece q' (u "# rlgraph")) ->
    stopped c R1 R2 (written (front c ++ map row_text R1) ++ q) (Some (Ok (pairs_of R1, [])))
| stop_rl k b q : nth_error R2 k = Some b -> piece q (row_text b) ->
    stopped c R1 R2 (written (front c ++ map row_text R1 ++ middle ++ map row_text (firstn k R2)) ++ q) (Some (do more <- torn b q; Ok (pairs_of R1, pairs_of (firstn k R2) ++ more))).
Definition loads (c c' : bconf) (s : str) (w : option (res (list pair3 * list pair3))) : Prop :=
  match w with
  | None => b_load c' s = None
  | Some (Err e) => b_load c' s = Some (Err e)
  | Some (Ok (ps1, ps2)) => exists ld, b_load c' s = Some (Ok ld) /\ loaded_as c c' ld ps1 ps2
  end.
