(** * Model of postagger/_dictionary.py with the identity of the dict handed to the constructor.
    [Dictionary(pos_dict)] keeps the caller's dict object itself (_dictionary.py:18) after replacing each of its values by a new set (line 17), so
    several Dictionary objects and the caller can hold the same dict. The world lists the collections of words, the dict objects (tag -> collection)
    and the Dictionary objects (their dict object and their own [max_length]). The operations on one Dictionary are those of TaggerModel.v. *)
From Verif Require Import PyBase PyDict PySort PyText TaggerModel.
Open Scope nat_scope.
Record dworld := mkDW { w_sets : list obj; w_dicts : list (dict str nat); w_objs : list (nat * nat) }.
Definition dict_at (W : dworld) (r : nat) : dict str nat := nth r (w_dicts W) [].
(** the dict object and the max_length of Dictionary number i *)
Definition ref_of (W : dworld) (i : nat) : nat := fst (nth i (w_objs W) (0, 0)).
Definition max_length_of (W : dworld) (i : nat) : nat := snd (nth i (w_objs W) (0, 0)).
(** Dictionary number i as the value TaggerModel.v works on, and the world after an operation on it: the sets and the dict are changed in place *)
Definition view (W : dworld) (i : nat) : tdict := mkT (w_sets W) (dict_at W (ref_of W i)) (max_length_of W i).
Definition put (W : dworld) (i : nat) (d : tdict) : dworld :=
  mkDW (heap d) (upd (w_dicts W) (ref_of W i) (tags d)) (upd (w_objs W) i (ref_of W i, maxlen d)).

(** what happens: [WDict] the caller makes a dict of new collections; [WNew] Dictionary(dict); [WAdd], [WRemove], [WLoad] the methods of a Dictionary;
    [WCAdd], [WCSet], [WCDel] the caller does [d\[tag\].add(word)], [d\[tag\] = {words}], [del d\[tag\]] on one of its dicts *)
Inductive wop :=
| WDict (kvs : list (str * obj)) | WNew (r : nat)
| WAdd (i : nat) (tag : str) (a : arg) (force : bool) | WRemove (i : nat) (tag : str) (a : option arg) | WLoad (i : nat) (params : nat * dict str (list str))
| WCAdd (r : nat) (tag word : str) | WCSet (r : nat) (tag : str) (words : list str) | WCDel (r : nat) (tag : str).

(** the collections [dict_at W r] refers to, in the order of its keys *)
Definition words_at (W : dworld) (r : nat) : list (str * list str) := map (fun kr => (fst kr, elems (nth (snd kr) (w_sets W) (OSet [])))) (dict_at W r).
(** _dictionary.py:11-19, 26-27: the values are replaced by new sets first; then [max] of no words raises ValueError *)
Definition wnew (W : dworld) (r : nat) : dworld * option exn :=
  let kvs := words_at W r in
  let W' := mkDW (w_sets W ++ map (fun kv => OSet (set_of (snd kv))) kvs) (upd (w_dicts W) r (number_from (length (w_sets W)) kvs)) (w_objs W) in
  match concat (map snd kvs) with
  | [] => (W', Some ValueError)
  | ws => (mkDW (w_sets W') (w_dicts W') (w_objs W' ++ [(r, max_of (map (@length N) ws))]), None)
  end.
(** _dictionary.py:74-88: a new dict of new sets *)
Definition wload (W : dworld) (i : nat) (params : nat * dict str (list str)) : dworld :=
  mkDW (w_sets W ++ map (fun kv => OSet (set_of (snd kv))) (snd params)) (w_dicts W ++ [number_from (length (w_sets W)) (snd params)])
       (upd (w_objs W) i (length (w_dicts W), fst params)).
(** one operation; one on an object that does not exist is no operation *)
Definition wstep (W : dworld) (o : wop) : dworld * option exn :=
  let has_dict r := r <? length (w_dicts W) in
  let has i := i <? length (w_objs W) in
  match o with
  | WDict kvs => (mkDW (w_sets W ++ map snd kvs) (w_dicts W ++ [number_from (length (w_sets W)) kvs]) (w_objs W), None)
  | WNew r => if has_dict r then wnew W r else (W, None)
  | WAdd i tag a force => if has i then let '(d, e) := add_words (view W i) tag a force in (put W i d, e) else (W, None)
  | WRemove i tag a => if has i then let '(d, e) := remove_words (view W i) tag a in (put W i d, e) else (W, None)
  | WLoad i params => if has i then (wload W i params, None) else (W, None)
  | WCAdd r tag word =>
    match dget (dict_at W r) tag with
    | None => (W, Some KeyError)
    | Some k => match nth k (w_sets W) (OSet []) with
                | OSet s => (mkDW (upd (w_sets W) k (OSet (sadd s word))) (w_dicts W) (w_objs W), None)
                | OList _ => (W, Some AttributeError)
                end
    end
  | WCSet r tag words => if has_dict r then
      (mkDW (w_sets W ++ [OSet (set_of words)]) (upd (w_dicts W) r (dset (dict_at W r) tag (length (w_sets W)))) (w_objs W), None) else (W, None)
  | WCDel r tag => if dmem (dict_at W r) tag then (mkDW (w_sets W) (upd (w_dicts W) r (dpop (dict_at W r) tag)) (w_objs W), None) else (W, Some KeyError)
  end.
Definition wrun (ops : list wop) : dworld := fold_left (fun W o => fst (wstep W o)) ops (mkDW [] [] []).
(** what the users of Dictionary number i see (_dictionary.py:29-37) *)
Definition is_tag (W : dworld) (i : nat) (w t : str) : bool := word_is_tag (view W i) w t.
Definition pos_of (W : dworld) (i : nat) (w : str) : list str := get_pos (view W i) w.
