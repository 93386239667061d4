(** * Model of soynlp/utils/utils.py: LRGraph, EojeolCounter, DoublespaceLineCorpus, most_similar, sort_by_alphabet *)
From Coq Require Import QArith.
From Verif Require Import PyBase PyDict PySort PyText PyFile.
Open Scope Z_scope.

(** ** class LRGraph, utils/utils.py:318-488 *)
Notation graph := (dict str (dict str Z)) (only parsing).
Record lrg := mkLrg { lr : graph; rl : graph; origin : option graph; l_max : Z; r_max : Z }.

(** [d\[a\]\[b\] += c] on a defaultdict of defaultdict(int) *)
Definition inc2 (d : graph) (a b : str) (c : Z) : graph :=
  let inner := match dget d a with Some x => x | None => [] end in
  dset d a (dset inner b (dgetd inner b 0 + c)).

(** utils.py:341-352, one word *)
Definition construct_word (lm rm : Z) (d : graph) (word : str) : graph :=
  fold_left (fun d e =>
      let l := firstn e word in let r := skipn e word in
      if Z.of_nat (length r) >? rm then d else inc2 d l r (Z.of_nat e))
    (seq 1 (Nat.min (length word) (Z.to_nat lm))) d.
(** utils.py:341-352 ([word.strip()] does nothing on the result of [split]) *)
Definition construct_graph (lm rm : Z) (sents : list str) : graph :=
  fold_left (fun d sent => fold_left (construct_word lm rm) (split sent) d) sents [].

(** utils.py:367-374: the right-to-left table *)
Definition make_rl (d : graph) : graph :=
  fold_left (fun rlg lrd => fold_left (fun rlg rc => match fst rc with [] => rlg | _ => inc2 rlg (fst rc) (fst lrd) (snd rc) end) (snd lrd) rlg) d [].
(** utils.py:354-374. The type checks are not modelled (the argument is a dict of dict);
    [list(lrgraph.values())\[0\]] raises IndexError on an empty graph. *)
Definition check_lrgraph (d : graph) : res (graph * graph) :=
  match d with [] => Err IndexError | _ => Ok (d, make_rl d) end.

(** utils.py:320-339. The copy [_lr_origin] is equal to [_lr]; sharing of the caller's dict object is modelled in AliasModel.v. *)
Definition lrg_new (lrgraph : graph) (sents : list str) (lm rm : Z) : res lrg :=
  if negb (lm >? 1) then Err AssertionError else
  if negb (rm >? 0) then Err AssertionError else
  do d <- match sents with
          | [] => Ok lrgraph
          | _ => match lrgraph with [] => Ok (construct_graph lm rm sents) | _ => Err ValueError end
          end;
  match d with
  | [] => Ok (mkLrg [] [] (Some []) lm rm)
  | _ => do p <- check_lrgraph d; Ok (mkLrg (fst p) (snd p) (Some (fst p)) lm rm)
  end.

Definition set_lr (g : lrg) (d : graph) := mkLrg d (rl g) (origin g) (l_max g) (r_max g).
Definition set_rl (g : lrg) (d : graph) := mkLrg (lr g) d (origin g) (l_max g) (r_max g).

(** utils.py:376-383 *)
Definition reset_lrgraph (g : lrg) : lrg :=
  match origin g with
  | None => g
  | Some o => match check_lrgraph o with
              | Err _ => g        (* [if not self._lr_origin] *)
              | Ok (d, rd) => mkLrg d rd (origin g) (l_max g) (r_max g)
              end
  end.

(** [d\[a\]\[b\] += c] on plain dicts *)
Definition add2 (d : graph) (a b : str) (c : Z) : res graph :=
  match dget d a with
  | None => Err KeyError
  | Some inner => match dget inner b with
                  | None => Err KeyError
                  | Some v => Ok (dset d a (dset inner b (v + c)))
                  end
  end.
(** utils.py:385-388; the second component is the exception raised, if any, the first the state it leaves *)
Definition add_lr_pair (g : lrg) (l r : str) (c : Z) : lrg * option exn :=
  match add2 (lr g) l r c with
  | Err e => (g, Some e)
  | Ok d => let g1 := set_lr g d in
    match r with
    | [] => (g1, None)
    | _ => match add2 (rl g1) r l c with
           | Err e => (g1, Some e)
           | Ok d' => (set_rl g1 d', None)
           end
    end
  end.
(** utils.py:390-393 *)
Fixpoint add_splits (g : lrg) (eojeol : str) (is : list nat) (c : Z) : lrg * option exn :=
  match is with
  | [] => (g, None)
  | i :: is' => match add_lr_pair g (firstn i eojeol) (skipn i eojeol) c with
                | (g', None) => add_splits g' eojeol is' c
                | r => r
                end
  end.
Definition add_eojeol (g : lrg) (eojeol : str) (c : Z) : lrg * option exn := add_splits g eojeol (seq 1 (length eojeol)) c.

(** utils.py:396-403 and, with the roles swapped, 404-411 *)
Definition dec2 (d : graph) (a b : str) (c : Z) : graph :=
  match dget d a with
  | None => d
  | Some inner =>
    match dget inner b with
    | None => d
    | Some v =>
      if v - c <=? 0 then
        let inner' := dpop inner b in
        match inner' with [] => dpop d a | _ => dset d a inner' end
      else dset d a (dset inner b (v - c))
    end
  end.
(** utils.py:395-411 *)
Definition remove_lr_pair (g : lrg) (l r : str) (c : Z) : lrg :=
  let g1 := set_lr g (dec2 (lr g) l r c) in set_rl g1 (dec2 (rl g1) r l c).
(** utils.py:413-416 *)
Definition remove_eojeol (g : lrg) (eojeol : str) (c : Z) : lrg :=
  fold_left (fun g i => remove_lr_pair g (firstn i eojeol) (skipn i eojeol) c) (seq 1 (length eojeol)) g.

(** utils.py:419-421 and 425-427: [sorted(d.get(k, {}).items(), key=lambda x:-x\[1\])\[:topk\]] *)
Definition top_items (d : graph) (k : str) (topk : Z) : list (str * Z) :=
  let l := sort (fun x y : str * Z => (- snd x <=? - snd y)) (match dget d k with Some x => x | None => [] end) in
  if topk >? 0 then firstn (Z.to_nat topk) l else l.
(** utils.py:418-428 *)
Definition get_r (g : lrg) (l : str) (topk : Z) : list (str * Z) := top_items (lr g) l topk.
Definition get_l (g : lrg) (r : str) (topk : Z) : list (str * Z) := top_items (rl g) r topk.

(** utils.py:430-433 *)
Definition freeze (g : lrg) : lrg := mkLrg (lr g) (rl g) None (l_max g) (r_max g).

(** utils.py:435-444 *)
Definition copy_compatified (g : lrg) : res lrg :=
  match origin g with
  | None => Err AttributeError
  | Some o => do p <- check_lrgraph o; Ok (mkLrg (fst p) (snd p) (Some []) (l_max g) (r_max g))
  end.

(** ** class EojeolCounter, utils/utils.py:192-316 *)
Record ecounter := mkEc { ec_counter : dict str Z; ec_sum : Z; ec_coverage : Q }.
Definition zsum (l : list Z) : Z := fold_right Z.add 0 l.
Definition mkCounter (d : dict str Z) : ecounter := mkEc d (zsum (dvals d)) 0.

(** utils.py:446-455 *)
Definition flat_counter (d : graph) : dict str Z :=
  fold_left (fun ct lrd => fold_left (fun ct rc => dset ct (fst lrd ++ fst rc) (snd rc)) (snd lrd) ct) d [].
Definition to_EojeolCounter (g : lrg) (reset : bool) : res ecounter :=
  if reset then match origin g with None => Err AttributeError | Some o => Ok (mkCounter (flat_counter o)) end
  else Ok (mkCounter (flat_counter (lr g))).

(** sort by the first component, [sorted(d.items())] on a dict with string keys *)
Definition sort_items {V} (d : dict str V) : dict str V := sort (fun x y => str_leb (fst x) (fst y)) d.
(** utils.py:457-464: the file written *)
Definition lrg_save (g : lrg) : res str :=
  match origin g with
  | None => Err AttributeError
  | Some o => Ok (concat (map (fun lrd => concat (map (fun rc =>
        fst lrd ++ [SP] ++ fst rc ++ [SP] ++ format_int (snd rc) ++ [10%N]) (sort_items (snd lrd)))) (sort_items o)))
  end.
(** utils.py:469-485: the loop; [l], [rd] are the local variables, [o] is self._lr_origin *)
Fixpoint load_loop (ls : list str) (o : graph) (l : str) (rd : dict str Z) : res graph :=
  match ls with
  | [] => Ok (match rd with [] => o | _ => dset o l rd end)
  | line :: ls' =>
    let sep := split line in
    match sep with
    | [] => Err IndexError
    | s0 :: _ =>
      let changed := negb (eqb s0 l) && negb (length rd =? 0)%nat in
      let o' := if changed then dset o l rd else o in
      let rd' := if changed then [] else rd in
      match sep with
      | [_; s1] => do c <- parse_int s1; load_loop ls' o' s0 (dset rd' [] c)
      | [_; s1; s2] => do c <- parse_int s2; load_loop ls' o' s0 (dset rd' s1 c)
      | _ => Err ValueError
      end
    end
  end.
(** utils.py:466-488 (the state left behind by an exception is not modelled) *)
Definition lrg_load (g : lrg) (content : str) : res lrg :=
  do o <- load_loop (file_lines content) [] [] [];
  do p <- check_lrgraph o;
  Ok (mkLrg (fst p) (snd p) (Some o) (l_max g) (r_max g)).

(** utils.py:237-240: one sentence *)
Definition count_eojeols (max_length : Z) (d : dict str Z) (sent : str) : dict str Z :=
  fold_left (fun d e => match e with
                        | [] => d
                        | _ => if Z.of_nat (length e) >? max_length then d else dset d e (dgetd d e 0 + 1)
                        end) (split sent) d.
(** utils.py:226-240: the loop; [i] is the sentence index *)
Fixpoint counting_loop (pre : str -> str) (min_count max_length checkpoint : Z) (i : Z) (sents : list str) (d : dict str Z) : dict str Z :=
  match sents with
  | [] => d
  | s :: sents' =>
    let s := pre s in
    let d := if (min_count >? 1) && (checkpoint >? 0) && (i >? 0) && (i mod checkpoint =? 0)
             then dfilter (fun _ v => v >=? min_count) d else d in
    counting_loop pre min_count max_length checkpoint (i + 1) sents' (count_eojeols max_length d s)
  end.
(** utils.py:223-250, with check_corpus (81-98) on a list *)
Definition counting_from_sents (pre : str -> str) (min_count max_length checkpoint : Z) (sents : list str) : res (dict str Z) :=
  match sents with
  | [] => Err ValueError
  | _ => Ok (dfilter (fun _ v => v >=? min_count) (counting_loop pre min_count max_length checkpoint 0 sents []))
  end.
(** utils.py:193-212; [sents = None] gives the empty counter *)
Definition ec_new (pre : str -> str) (min_count max_length checkpoint : Z) (sents : option (list str)) : res ecounter :=
  match sents with
  | None => Ok (mkCounter [])
  | Some ss => do d <- counting_from_sents pre min_count max_length checkpoint ss; Ok (mkCounter d)
  end.
(** utils.py:214-215 (and 277-278) *)
Definition ec_get (c : ecounter) (e : str) : Z := dgetd (ec_counter c) e 0.
(** utils.py:217-218 *)
Definition ec_len (c : ecounter) : Z := Z.of_nat (length (ec_counter c)).
(** utils.py:270-271 *)
Definition get_uncovered_eojeols (c : ecounter) (min_count : Z) : dict str Z := dfilter (fun _ v => v >=? min_count) (ec_counter c).
(** utils.py:273-275 with the setter 256-260; state and exception. Floats are exact rationals. *)
Definition remove_covered (c : ecounter) (eojeols : list str) : ecounter * option exn :=
  let d := dfilter (fun k _ => negb (mem k eojeols)) (ec_counter c) in
  let c1 := mkEc d (ec_sum c) (ec_coverage c) in
  if ec_sum c =? 0 then (c1, Some ZeroDivisionError) else
  let value := (1 - inject_Z (zsum (dvals d)) / inject_Z (ec_sum c))%Q in
  if Qle_bool 0 value && Qle_bool value 1 then (mkEc d (ec_sum c) value, None) else (c1, Some ValueError).
(** utils.py:289-295, one eojeol *)
Definition lrgraph_word (lm rm : Z) (d : graph) (ec : str * Z) : graph :=
  let eojeol := fst ec in
  fold_left (fun d e =>
      let l := firstn e eojeol in let r := skipn e eojeol in
      if Z.of_nat (length r) >? rm then d else inc2 d l r (snd ec))
    (seq 1 (Nat.min (Z.to_nat lm) (length eojeol))) d.
(** utils.py:283-299; the public method drops its argument ignore_one_syllable *)
Definition to_lrgraph (c : ecounter) (lm rm : Z) (ignore_one_syllable : bool) : res lrg :=
  lrg_new (fold_left (lrgraph_word lm rm) (ec_counter c) []) [] lm rm.
(** utils.py:301-307: the file written *)
Definition ec_le (x y : str * Z) : bool :=
  if - snd x <? - snd y then true else if - snd x =? - snd y then str_leb (fst x) (fst y) else false.
Definition ec_save (c : ecounter) : str :=
  concat (map (fun kv => fst kv ++ [SP] ++ format_int (snd kv) ++ [10%N]) (sort ec_le (ec_counter c))).
(** utils.py:309-316 *)
Fixpoint ec_load_loop (ls : list str) (d : dict str Z) : res (dict str Z) :=
  match ls with
  | [] => Ok d
  | line :: ls' => match split line with
                   | [w; n] => do z <- parse_int n; ec_load_loop ls' (dset d w z)
                   | _ => Err ValueError
                   end
  end.
Definition ec_load (content : str) : res ecounter := do d <- ec_load_loop (file_lines content) []; Ok (mkCounter d).

(** ** class DoublespaceLineCorpus, utils/utils.py:100-190 *)
(** [s.split('  ')] *)
Fixpoint split_dsp (s : str) : list str :=
  match s with
  | [] => [[]]
  | c :: s' =>
    match s' with
    | d :: s'' => if N.eqb c 32 && N.eqb d 32 then [] :: split_dsp s''
                  else match split_dsp s' with w :: ws => (c :: w) :: ws | [] => [[c]] end
    | [] => [[c]]
    end
  end.
(** 137-139: the sentences counted in a document; 175-181: the sentences iterated *)
Definition doc_sents (doc : str) : list str := filter (fun s => negb (length (strip s) =? 0)%nat) (split_dsp doc).
Record dcorpus := mkDc { dc_lines : list str; dc_num_doc : Z; dc_num_sent : Z; dc_iter_sent : bool; dc_skip : Z }.

(** 127-128, 156-157: [next(f)] [skip_header] times; None is StopIteration *)
Definition skip_lines (n : Z) (ls : list str) : option (list str) :=
  if (Z.to_nat n <=? length ls)%nat then Some (skipn (Z.to_nat n) ls) else None.
(** 134-141: the loop; None is the case where [doc_idx] was never bound *)
Fixpoint check_loop (num_doc num_sent : Z) (idx : Z) (acc : Z) (ls : list str) : Z * Z :=
  match ls with
  | [] => (idx, acc)     (* doc_idx + 1 *)
  | doc :: ls' =>
    if (num_doc >? 0) && (idx >=? num_doc) then (idx, acc) else
    let acc' := acc + Z.of_nat (length (doc_sents doc)) in
    if (num_sent >? 0) && (acc' >? num_sent) then (idx + 1, Z.min num_sent acc')
    else check_loop num_doc num_sent (idx + 1) acc' ls'
  end.
(** 112-143 *)
Definition check_length (lines : list str) (skip num_doc num_sent : Z) : res (Z * Z) :=
  match skip_lines skip lines with
  | None => Ok (0, 0)
  | Some [] => Err UnboundLocalError
  | Some ls => Ok (check_loop num_doc num_sent 0 0 ls)
  end.
(** 101-110; the file exists *)
Definition dc_new (content : str) (num_doc num_sent : Z) (iter_sent : bool) (skip : Z) : res dcorpus :=
  let lines := file_lines content in
  if (num_doc >? 0) || (num_sent >? 0) then
    do p <- check_length lines skip num_doc num_sent; Ok (mkDc lines (fst p) (snd p) iter_sent skip)
  else Ok (mkDc lines 0 0 iter_sent skip).
(** 163-172: documents *)
Fixpoint iter_docs (num_doc : Z) (idx : Z) (ls : list str) : list str :=
  match ls with
  | [] => []
  | doc :: ls' => strip doc :: (if (num_doc >? 0) && (idx + 1 >=? num_doc) then [] else iter_docs num_doc (idx + 1) ls')
  end.
(** 175-182: sentences of one document; the result is (yielded, num_sent, stop) *)
Fixpoint iter_doc_sents (limit : Z) (n : Z) (ss : list str) : list str * Z * bool :=
  match ss with
  | [] => ([], n, false)
  | s :: ss' =>
    if (limit >? 0) && (n >=? limit) then ([], n, true) else
    let t := strip s in
    match t with
    | [] => iter_doc_sents limit n ss'
    | _ => let '(out, m, st) := iter_doc_sents limit (n + 1) ss' in (t :: out, m, st)
    end
  end.
Fixpoint iter_sents (limit : Z) (n : Z) (ls : list str) : list str :=
  match ls with
  | [] => []
  | doc :: ls' => let '(out, m, stop) := iter_doc_sents limit n (split_dsp doc) in
                  out ++ (if stop then [] else iter_sents limit m ls')
  end.
(** 145-182: all items yielded *)
Definition dc_iter (c : dcorpus) : list str :=
  let ls := match skip_lines (dc_skip c) (dc_lines c) with Some ls => ls | None => [] end in
  if dc_iter_sent c then iter_sents (dc_num_sent c) 0 ls else iter_docs (dc_num_doc c) 0 ls.
(** 184-190: the returned length and the state afterwards *)
Definition dc_len (c : dcorpus) : Z * dcorpus :=
  if dc_num_doc c =? 0 then
    match check_length (dc_lines c) (dc_skip c) (-1) (-1) with
    | Err _ => (-1, c)
    | Ok (d, s) => ((if dc_iter_sent c then s else d), mkDc (dc_lines c) d s (dc_iter_sent c) (dc_skip c))
    end
  else ((if dc_iter_sent c then dc_num_sent c else dc_num_doc c), c).

(** ** most_similar, utils/utils.py:49-79. [dist q] is row [q] of the cosine distances (computed by scikit-learn, not
    modelled); [argsort] is numpy's argsort (any sorting permutation, it need not be stable). Indices are non-negative. *)
Definition most_similar {Item} `{EqB Item} (dist : nat -> list Q) (argsort : list Q -> list nat)
    (item_to_idx : dict Item nat) (idx_to_item : list Item) (query : Item) (topk : Z) : res (list (Item * Q)) :=
  match dget item_to_idx query with
  | None => Ok []
  | Some q =>
    let d := dist q in
    let sim_idxs := argsort d in
    let sim_idxs := if topk >? 0 then firstn (Z.to_nat (topk + 1)) sim_idxs else sim_idxs in
    mapM (fun i => match nth_error idx_to_item i, nth_error d i with
                   | Some x, Some v => Ok (x, (1 - v)%Q)
                   | _, _ => Err IndexError
                   end) (filter (fun i => negb (i =? q)%nat) sim_idxs)
  end.

(** ** sort_by_alphabet, utils/utils.py:31-47: the new content of the file *)
Definition sort_by_alphabet (content : str) : str :=
  let docs := map strip (file_lines content) in
  let docs := filter (fun d => negb (length d =? 0)%nat) docs in
  concat (map (fun d => d ++ [10%N]) (sort str_leb docs)).
