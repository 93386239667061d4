(** * Specification vocabulary for the dictionary file: the grammar of JSON texts (RFC 8259, with Python's NaN and Infinity), independent of the reader *)
From Coq Require Import QArith.
From Verif Require Import PyBase PyDict PyText PyFile JsonModel.
Open Scope N_scope.

Definition blank (s : str) : Prop := Forall (fun c => c = 32 \/ c = 9 \/ c = 10 \/ c = 13) s.
Definition numerals (s : str) : Prop := s <> [] /\ Forall (fun c => 48 <= c <= 57) s.
(** four hexadecimal digits and the number they stand for *)
Definition hexes (n : N) (s : str) : Prop := exists a b c d a' b' c' d', s = [a; b; c; d] /\ hex_value a = Some a' /\ hex_value b = Some b' /\ hex_value c = Some c' /\ hex_value d = Some d' /\ n = 4096 * a' + 256 * b' + 16 * c' + d'.
Definition high (n : N) : Prop := 55296 <= n <= 56319.
Definition low (n : N) : Prop := 56320 <= n <= 57343.
(** two-character escapes *)
Definition escapes : list (N * N) := [(34, 34); (92, 92); (47, 47); (98, 8); (102, 12); (110, 10); (114, 13); (116, 9)].
(** the text between the quotes and the string it denotes: a pair of escaped surrogates denotes one character *)
Inductive chars : str -> str -> Prop :=
| chars_nil : chars [] []
| chars_plain c s t : 32 <= c -> c <> 34 -> c <> 92 -> chars s t -> chars (c :: s) (c :: t)
| chars_escape e c s t : In (e, c) escapes -> chars s t -> chars (c :: s) (92 :: e :: t)
| chars_unit n h s t : hexes n h -> (high n -> ~ exists m k q, hexes m k /\ low m /\ t = 92 :: 117 :: k ++ q) -> chars s t -> chars (n :: s) (92 :: 117 :: h ++ t)
| chars_pair n m h k s t : hexes n h -> hexes m k -> high n -> low m -> chars s t -> chars (join_surrogates n m :: s) (92 :: 117 :: h ++ 92 :: 117 :: k ++ t).
Definition quoted (s t : str) : Prop := exists b, chars s b /\ t = 34 :: b ++ [34].
(** numbers *)
Definition int_part (s : str) : Prop := numerals s /\ (s = [48] \/ exists c r, s = c :: r /\ c <> 48).
Definition frac_part (s : str) : Prop := s = [] \/ exists d, s = 46 :: d /\ numerals d.
Definition exp_part (s : str) : Prop := s = [] \/ exists e sg d, s = e :: sg ++ d /\ (e = 101 \/ e = 69) /\ (sg = [] \/ sg = [43] \/ sg = [45]) /\ numerals d.
Inductive numeric : json -> str -> Prop :=
| num_int ds : int_part ds -> numeric (JInt (digits_value ds)) ds
| num_neg ds : int_part ds -> numeric (JInt (- digits_value ds)) (45 :: ds)
| num_float sg ds f e : sg = [] \/ sg = [45] -> int_part ds -> frac_part f -> exp_part e -> f ++ e <> [] -> numeric (JFloat (sg ++ ds ++ f ++ e)) (sg ++ ds ++ f ++ e).
(** values, non-empty arrays and non-empty objects *)
Inductive renders : json -> str -> Prop :=
| r_literal t v : In (t, v) literals -> renders v t
| r_number v t : numeric v t -> renders v t
| r_string s t : quoted s t -> renders (JStr s) t
| r_no_elements b : blank b -> renders (JArr []) (91 :: b ++ [93])
| r_array l t : renders_list l t -> renders (JArr l) (91 :: t ++ [93])
| r_no_members b : blank b -> renders (JObj []) (123 :: b ++ [125])
| r_object l t : renders_members l t -> renders (JObj (fold_left (fun d kv => dset d (fst kv) (snd kv)) l [])) (123 :: t ++ [125])
with renders_list : list json -> str -> Prop :=
| rl_one v a t b : blank a -> blank b -> renders v t -> renders_list [v] (a ++ t ++ b)
| rl_more v l a t b t' : blank a -> blank b -> renders v t -> renders_list l t' -> renders_list (v :: l) (a ++ t ++ b ++ 44 :: t')
with renders_members : list (str * json) -> str -> Prop :=
| rm_one k v a q b c t d : blank a -> blank b -> blank c -> blank d -> quoted k q -> renders v t -> renders_members [(k, v)] (a ++ q ++ b ++ 58 :: c ++ t ++ d)
| rm_more k v a q b c t d l t' : blank a -> blank b -> blank c -> blank d -> quoted k q -> renders v t -> renders_members l t' ->
    renders_members ((k, v) :: l) (a ++ q ++ b ++ 58 :: c ++ t ++ d ++ 44 :: t').
Scheme renders_mut := Minimality for renders Sort Prop
  with renders_list_mut := Minimality for renders_list Sort Prop
  with renders_members_mut := Minimality for renders_members Sort Prop.
Combined Scheme renders_all from renders_mut, renders_list_mut, renders_members_mut.
(** a JSON document: a value with white space around it *)
Definition document (v : json) (s : str) : Prop := exists a t b, blank a /\ blank b /\ renders v t /\ s = a ++ t ++ b.
