(** * What an operation changes for Dictionary number i, in terms of who holds which dict object *)
From Verif Require Import PyBase PyDict PySort PyText TaggerModel TagShareModel.
(** words are handed over as strings, and dict literals and JSON objects have distinct keys *)
Definition plain (o : wop) : Prop :=
  match o with
  | WDict kvs => NoDup (map fst kvs)
  | WAdd _ _ a _ => exists s, a = AStr s
  | WRemove _ _ a => forall x, a = Some x -> exists s, x = AStr s
  | WLoad _ params => NoDup (map fst (snd params))
  | _ => True
  end.
(** the operation is one on objects that exist *)
Definition on_existing (W : dworld) (o : wop) : Prop :=
  match o with
  | WDict _ => True
  | WAdd j _ _ _ | WRemove j _ _ | WLoad j _ => j < length (w_objs W)
  | WNew r | WCAdd r _ _ | WCSet r _ _ | WCDel r _ => r < length (w_dicts W)
  end.
Fixpoint all_on_existing (before ops : list wop) : Prop :=
  match ops with [] => True | o :: ops' => on_existing (wrun before) o /\ all_on_existing (before ++ [o]) ops' end.
Definition done (e : option exn) : bool := match e with None => true | Some _ => false end.
(** does [w] have the tag [t] in Dictionary i after the operation, given whether it had it before ([old]) and the outcome ([e])? *)
Definition tag_after (W : dworld) (o : wop) (e : option exn) (i : nat) (w t : str) (old : bool) : bool :=
  match o with
  | WAdd j tag (AStr s) _ => if (ref_of W i =? ref_of W j) && eqb tag t && done e then old || mem w (split s) else old
  | WRemove j tag None => if (ref_of W i =? ref_of W j) && eqb tag t then false else old
  | WRemove j tag (Some (AStr s)) => if (ref_of W i =? ref_of W j) && eqb tag t then old && negb (mem w (split s)) else old
  | WLoad j params => if i =? j then match dget (snd params) t with Some ws => mem w ws | None => false end else old
  | WCAdd r tag w' => if (ref_of W i =? r) && eqb tag t && done e then old || eqb w' w else old
  | WCSet r tag ws => if (ref_of W i =? r) && eqb tag t then mem w ws else old
  | WCDel r tag => if (ref_of W i =? r) && eqb tag t then false else old
  | _ => old
  end.
(** the max_length of Dictionary i after the operation *)
Definition max_after (o : wop) (e : option exn) (i : nat) (old : nat) : nat :=
  match o with
  | WAdd j _ (AStr s) _ => if (i =? j) && done e then Nat.max old (max_of (map (@length N) (split s))) else old
  | WLoad j params => if i =? j then fst params else old
  | _ => old
  end.
(** the tags of Dictionary i, in order (list(pos_dict)), and what the operation makes of them *)
Definition tags_of (W : dworld) (i : nat) : list str := map fst (dict_at W (ref_of W i)).
Definition with_tag (tag : str) (old : list str) : list str := if mem tag old then old else old ++ [tag].
Definition without_tag (tag : str) (old : list str) : list str := filter (fun t => negb (eqb tag t)) old.
Definition tags_after (W : dworld) (o : wop) (e : option exn) (i : nat) (old : list str) : list str :=
  match o with
  | WAdd j tag _ _ => if (ref_of W i =? ref_of W j) && done e then with_tag tag old else old
  | WRemove j tag None => if ref_of W i =? ref_of W j then without_tag tag old else old
  | WLoad j params => if i =? j then map fst (snd params) else old
  | WCSet r tag _ => if ref_of W i =? r then with_tag tag old else old
  | WCDel r tag => if ref_of W i =? r then without_tag tag old else old
  | _ => old
  end.
(** the operation works on Dictionary i's own dict, or loads it anew *)
Definition concerns (W : dworld) (i : nat) (o : wop) : bool :=
  match o with
  | WAdd j _ _ _ | WRemove j _ _ => ref_of W i =? ref_of W j
  | WLoad j _ => i =? j
  | WCAdd r _ _ | WCSet r _ _ | WCDel r _ => ref_of W i =? r
  | WDict _ | WNew _ => false
  end.
(** the operations of a history, after [before], that concern Dictionary i *)
Fixpoint none_concerns (i : nat) (before ops : list wop) : Prop :=
  match ops with [] => True | o :: ops' => concerns (wrun before) i o = false /\ none_concerns i (before ++ [o]) ops' end.
(** the max_length of Dictionary i after a history: the longest word it was itself asked to add, successfully, since it was made or loaded *)
Fixpoint max_history (i : nat) (before ops : list wop) (m : nat) : nat :=
  match ops with [] => m | o :: ops' => max_history i (before ++ [o]) ops' (max_after o (snd (wstep (wrun before) o)) i m) end.
