(** * Specification vocabulary for soynlp.postagger *)
From Coq Require Import QArith.
From Verif Require Import PyBase PyDict PyText TaggerModel TaggerDictProofs.
Open Scope nat_scope.

(** [x] stands somewhere before [y] in [l] *)
Definition before {A} (l : list A) (x y : A) : Prop := exists a b, l = a ++ b /\ In x a /\ In y b.
(** the word covers the characters [b, m) and [m, e) of the token *)
Definition located (t : str) (x : lr) : Prop :=
  b_of x <= m_of x /\ m_of x <= e_of x /\ b_of x < e_of x /\ e_of x <= length t /\ l_of x = slice (b_of x) (m_of x) t /\ r_of x = slice (m_of x) (e_of x) t.
(** the words cover [p, length t) without gap or overlap, in order *)
Inductive covers (t : str) : nat -> list lr -> Prop :=
| covers_end : covers t (length t) []
| covers_word x ws : located t x -> covers t (e_of x) ws -> covers t (b_of x) (x :: ws).
(** the words stand in text order at or after [p] without overlap *)
Inductive in_order (t : str) : nat -> list lr -> Prop :=
| in_order_end p : p <= length t -> in_order t p []
| in_order_word p x ws : p <= b_of x -> located t x -> in_order t (e_of x) ws -> in_order t p (x :: ws).
Definition overlap (x y : lr) : Prop := b_of x < e_of y /\ b_of y < e_of x.
(** the text of a list of (word, tag) pairs *)
Definition text_of (ws : list (str * option str)) : str := concat (map fst ws).
(** every word is the shortest word with this tag starting where the previous one ended *)
Inductive greedy_cut (d : tdict) (tag t : str) : nat -> list lr -> Prop :=
| cut_end : greedy_cut d tag t (length t) []
| cut_word b i ws : b < i <= length t -> word_is_tag d (slice b i t) tag = true ->
    (forall j, b < j < i -> word_is_tag d (slice b j t) tag = false) -> greedy_cut d tag t i ws ->
    greedy_cut d tag t b (mkLR (slice b i t) (Some tag) [] None b i i :: ws).

(** ** histories of dictionary operations with string arguments *)
Inductive dop := Add (tag words : str) (force : bool) | Remove (tag : str) (words : option str).
Definition dstep (d : tdict) (o : dop) : tdict :=
  match o with
  | Add tag ws force => fst (add_words d tag (AStr ws) force)
  | Remove tag ws => fst (remove_words d tag (option_map AStr ws))
  end.
Definition dhistory (d : tdict) (ops : list dop) : tdict := fold_left dstep ops d.
(** the operation adds [w] to tag [t] of the dictionary [d] *)
Definition adds (d : tdict) (t w : str) (o : dop) : Prop :=
  match o with Add tag ws force => tag = t /\ In w (split ws) /\ (force = true \/ exists r, dget (tags d) t = Some r) | Remove _ _ => False end.
Definition removes (t w : str) (o : dop) : Prop :=
  match o with Add _ _ _ => False | Remove tag ws => tag = t /\ match ws with None => True | Some s => In w (split s) end end.

(** the score of a pair with the default weights: bonuses for the tag of L and for two known tags, 0.1 for each character, a penalty for a
    one-syllable L, and the user's preferences *)
Definition tag_bonus (tag : option str) (q : Q) : Prop :=
  tag = Some (u "Noun") /\ q = 3 # 10 \/ tag = Some (u "Adverb") /\ q = 2 # 10 \/ tag = Some (u "Adjective") /\ q = 1 # 10 \/
  tag <> Some (u "Noun") /\ tag <> Some (u "Adverb") /\ tag <> Some (u "Adjective") /\ q = 0%Q.
Definition known_bonus (lt rt : option str) (q : Q) : Prop := lt <> None /\ rt <> None /\ q = 15 # 100 \/ (lt = None \/ rt = None) /\ q = 0%Q.
Definition preferred (p : list (option str * dict str Q)) (tag : option str) (w : str) (q : Q) : Prop :=
  (exists d, In (tag, d) p /\ (dget d w = Some q \/ dget d w = None /\ q = 0%Q)) \/ (forall d, ~ In (tag, d) p) /\ q = 0%Q.
