(** * Specification vocabulary for soynlp.utils *)
From Verif Require Import PyBase PyDict PyText PyFile UtilsModel.
Open Scope Z_scope.

(** a Python dict of dicts: unique keys at both levels *)
Definition is_graph (d : dict str (dict str Z)) : Prop :=
  NoDup (map fst d) /\ Forall (fun p => NoDup (map fst (snd p))) d.
Definition is_dict {V} (d : dict str V) : Prop := NoDup (map fst d).
(** the pair (l, r) is stored with count c *)
Definition holds_pair (d : dict str (dict str Z)) (l r : str) (c : Z) : Prop :=
  exists rd, In (l, rd) d /\ In (r, c) rd.

(** number of occurrences of the word [w] in the sentences *)
Definition occurrences (w : str) (sents : list str) : Z :=
  Z.of_nat (length (filter (eqb w) (concat (map split sents)))).

Definition total (d : dict str Z) : Z := fold_right Z.add 0 (map snd d).

(** ** Histories of calls on an LRGraph object. An exception is caught by the caller and leaves the state the call left. *)
Inductive op := OpAdd (l r : str) (c : Z) | OpAddEojeol (e : str) (c : Z) | OpRemove (l r : str) (c : Z)
  | OpRemoveEojeol (e : str) (c : Z) | OpReset | OpFreeze.
Definition step (g : lrg) (o : op) : lrg :=
  match o with
  | OpAdd l r c => fst (add_lr_pair g l r c)
  | OpAddEojeol e c => fst (add_eojeol g e c)
  | OpRemove l r c => remove_lr_pair g l r c
  | OpRemoveEojeol e c => remove_eojeol g e c
  | OpReset => reset_lrgraph g
  | OpFreeze => freeze g
  end.
Definition history (g : lrg) (ops : list op) : lrg := fold_left step ops g.
(** the caller never adds a negative count *)
Definition adds_nonneg (o : op) : Prop :=
  match o with OpAdd _ _ c => 0 <= c | OpAddEojeol _ c => 0 <= c | _ => True end.
(** every graph object the API can lead to *)
Definition reachable (g : lrg) : Prop :=
  exists d sents lm rm ops g0, is_graph d /\ lrg_new d sents lm rm = Ok g0 /\ g = history g0 ops.
(** the count of the pair (l, r) a caller sees in [g.get_r(l, 0)], resp. in [g.get_l(r, 0)] *)
Definition seen_from_l (g : lrg) (l r : str) : option Z := dget (get_r g l 0) r.
Definition seen_from_r (g : lrg) (l r : str) : option Z := dget (get_l g r 0) l.
(** (l, r) is a split of the eojeol with a non-empty left part *)
Definition split_of (e l r : str) : Prop := l <> [] /\ e = l ++ r.
(** count after subtracting: the pair disappears when nothing is left *)
Definition less (o : option Z) (c : Z) : option Z :=
  match o with Some v => if (v <=? c) then None else Some (v - c) | None => None end.
Definition more (o : option Z) (c : Z) : option Z := option_map (fun v => v + c) o.

(** every non-empty table is reached from a non-empty whitespace-free l, and every r is whitespace-free *)
Definition no_whitespace (w : str) : Prop := Forall (fun c => is_space c = false) w.
Definition storable (d : dict str (dict str Z)) : Prop :=
  forall l r c, holds_pair d l r c -> l <> [] /\ no_whitespace l /\ no_whitespace r.

(** ** EojeolCounter *)
(** a counter built by counting: distinct keys, positive counts *)
Definition is_counter (d : dict str Z) : Prop := NoDup (map fst d) /\ Forall (fun kv => 0 < snd kv) d.
Definition removed_all (c : ecounter) (ess : list (list str)) : ecounter := fold_left (fun c es => fst (remove_covered c es)) ess c.

(** ** corpus files: the lines after the header, and the sentences of a list of lines *)
Definition body_lines (content : str) (skip : Z) : list str := skipn (Z.to_nat skip) (file_lines content).
Definition sentences (ls : list str) : list str := concat (map (fun d => filter (fun s => negb (length s =? 0)%nat) (map strip (split_dsp d))) ls).
(** [n] is the number of documents after which reading with limits stops: the first one that exhausts the file, reaches
    [num_doc] documents or exceeds [num_sent] sentences *)
Definition reading_stops (num_doc num_sent : Z) (ls : list str) (n : nat) : Prop :=
  n = length ls \/ 0 < num_doc <= Z.of_nat n \/ 0 < num_sent < Z.of_nat (length (sentences (firstn n ls))).
(** no whitespace at either end *)
Definition trimmed (m : str) : Prop := forall c, (forall t, m = c :: t -> is_space c = false) /\ (forall t, m = t ++ [c] -> is_space c = false).
(** (l, r) respects the length limits *)
Definition in_window (lm rm : Z) (l r : str) : bool := (1 <=? length l)%nat && (length l <=? Z.to_nat lm)%nat && (Z.of_nat (length r) <=? rm).
