(** * Model of the dictionary file of the tagger: postagger/_dictionary.py:74-104, with the JSON writer and reader of the Python standard library
    (json.dump with indent=2 and ensure_ascii=False; json.load). Strings are lists of code points; the encoding and writing of lone surrogates
    (UnicodeEncodeError), the limits on nesting (RecursionError) and on the number of digits of an int are not modelled. *)
From Coq Require Import QArith.
From Verif Require Import PyBase PyDict PySort PyText PyFile TaggerModel.
Open Scope N_scope.

(** JSON values. A float keeps its numeral. Objects are dicts. *)
Inductive json := JNull | JBool (b : bool) | JInt (z : Z) | JFloat (numeral : str) | JStr (s : str) | JArr (l : list json) | JObj (l : dict str json).

(** ** json.dump *)
Definition hex_digit (n : N) : N := if n <? 10 then 48 + n else 87 + n.
(** encoder.ESCAPE_DCT *)
Definition escape (c : N) : str :=
  if c =? 34 then [92; 34] else if c =? 92 then [92; 92] else if c =? 10 then [92; 110] else if c =? 13 then [92; 114] else if c =? 9 then [92; 116]
  else if c =? 12 then [92; 102] else if c =? 8 then [92; 98] else if c <? 32 then [92; 117; 48; 48; hex_digit (c / 16); hex_digit (c mod 16)] else [c].
Definition dump_str (s : str) : str := 34 :: concat (map escape s) ++ [34].
(** encoder._make_iterencode: an item starts on a line of its own, indented by two blanks per level *)
Definition newline (level : nat) : str := 10 :: repeat 32 (2 * level).
Definition items (level : nat) (opening closing : N) (texts : list str) : str :=
  match texts with [] => [opening; closing] | _ => opening :: newline (S level) ++ join (44 :: newline (S level)) texts ++ newline level ++ [closing] end.
Fixpoint dump (level : nat) (v : json) : str :=
  match v with
  | JNull => u "null" | JBool true => u "true" | JBool false => u "false"
  | JInt z => format_int z | JFloat t => t
  | JStr s => dump_str s
  | JArr l => items level 91 93 (map (dump (S level)) l)
  | JObj l => items level 123 125 (map (fun kv : str * json => dump_str (fst kv) ++ [58; 32] ++ dump (S level) (snd kv)) l)
  end.

(** ** json.load; None is JSONDecodeError, a ValueError *)
Definition is_ws (c : N) : bool := (c =? 32) || (c =? 9) || (c =? 10) || (c =? 13).
Definition skip (s : str) : str := dropwhile is_ws s.
Definition is_digit (c : N) : bool := (48 <=? c) && (c <=? 57).
Definition hex_value (c : N) : option N :=
  if (48 <=? c) && (c <=? 57) then Some (c - 48) else if (97 <=? c) && (c <=? 102) then Some (c - 87) else if (65 <=? c) && (c <=? 70) then Some (c - 55) else None.
Definition hex4 (s : str) : option (N * str) :=
  match s with
  | a :: b :: c :: d :: r => match hex_value a, hex_value b, hex_value c, hex_value d with Some a, Some b, Some c, Some d => Some (a * 4096 + b * 256 + c * 16 + d, r) | _, _, _, _ => None end
  | _ => None
  end.
Definition is_high (n : N) : bool := (55296 <=? n) && (n <=? 56319).
Definition is_low (n : N) : bool := (56320 <=? n) && (n <=? 57343).
Definition join_surrogates (h l : N) : N := 65536 + (h - 55296) * 1024 + (l - 56320).
(** decoder.BACKSLASH *)
Definition unescape (c : N) : option N :=
  if c =? 34 then Some 34 else if c =? 92 then Some 92 else if c =? 47 then Some 47 else if c =? 98 then Some 8 else if c =? 102 then Some 12
  else if c =? 110 then Some 10 else if c =? 114 then Some 13 else if c =? 116 then Some 9 else None.
(** scanstring with strict=True, after the opening quote *)
Fixpoint scan_string (fuel : nat) (s : str) : option (str * str) :=
  match fuel with
  | O => None
  | S fuel =>
    match s with
    | [] => None
    | c :: s' =>
      if c =? 34 then Some ([], s') else
      if c =? 92 then
        match s' with
        | [] => None
        | e :: t =>
          if e =? 117 then
            match hex4 t with
            | None => None
            | Some (n, t') =>
              match (if is_high n then match t' with b :: x :: q => if (b =? 92) && (x =? 117) then Some q else None | _ => None end else None) with
              | None => match scan_string fuel t' with Some (r, q) => Some (n :: r, q) | None => None end
              | Some q =>
                match hex4 q with
                | None => None
                | Some (m, q') => if is_low m then match scan_string fuel q' with Some (r, z) => Some (join_surrogates n m :: r, z) | None => None end
                                  else match scan_string fuel t' with Some (r, z) => Some (n :: r, z) | None => None end
                end
              end
            end
          else match unescape e with None => None | Some x => match scan_string fuel t with Some (r, q) => Some (x :: r, q) | None => None end end
        end
      else if c <? 32 then None
      else match scan_string fuel s' with Some (r, q) => Some (c :: r, q) | None => None end
    end
  end.
Definition string_of (s : str) : option (str * str) := scan_string (S (length s)) s.

Fixpoint takewhile (p : N -> bool) (s : str) : str := match s with [] => [] | c :: s' => if p c then c :: takewhile p s' else [] end.
Definition digits_value (s : str) : Z := fold_left (fun a c => 10 * a + (Z.of_N c - 48))%Z s 0%Z.
(** scanner.NUMBER_RE: fraction and exponent are taken only if complete *)
Definition fraction (s : str) : str * str :=
  match s with p :: d :: r => if (p =? 46) && is_digit d then (46 :: takewhile is_digit (d :: r), dropwhile is_digit (d :: r)) else ([], s) | _ => ([], s) end.
Definition exponent (s : str) : str * str :=
  match s with
  | e :: r =>
    if (e =? 101) || (e =? 69) then
      let (sg, r') := match r with c :: q => if (c =? 43) || (c =? 45) then ([c], q) else ([], r) | [] => ([], r) end in
      match r' with d :: _ => if is_digit d then (e :: sg ++ takewhile is_digit r', dropwhile is_digit r') else ([], s) | [] => ([], s) end
    else ([], s)
  | [] => ([], s)
  end.
Definition number (s : str) : option (json * str) :=
  let (sign, t) := match s with c :: r => if c =? 45 then ([45], r) else ([], s) | [] => ([], s) end in
  match t with
  | [] => None
  | c :: r =>
    if negb (is_digit c) then None else
    let (ds, r) := if c =? 48 then ([48], r) else (takewhile is_digit t, dropwhile is_digit t) in
    let (f, r) := fraction r in
    let (e, r) := exponent r in
    match f ++ e with
    | [] => Some (JInt (match sign with [] => digits_value ds | _ => - digits_value ds end)%Z, r)
    | _ => Some (JFloat (sign ++ ds ++ f ++ e), r)
    end
  end.
(** the literals of scanner.scan_once *)
Fixpoint starts (p s : str) : option str :=
  match p, s with [], _ => Some s | _ :: _, [] => None | a :: p', b :: s' => if a =? b then starts p' s' else None end.
Fixpoint literal (ls : list (str * json)) (s : str) : option (json * str) :=
  match ls with [] => None | (t, v) :: ls' => match starts t s with Some r => Some (v, r) | None => literal ls' s end end.
Definition literals : list (str * json) := Eval vm_compute in
  [(u "null", JNull); (u "true", JBool true); (u "false", JBool false); (u "NaN", JFloat (u "NaN")); (u "Infinity", JFloat (u "Infinity")); (u "-Infinity", JFloat (u "-Infinity"))].
Definition atom (s : str) : option (json * str) := match literal literals s with Some r => Some r | None => number s end.
(** scanner.scan_once, decoder.JSONObject and decoder.JSONArray. [fuel] bounds the recursion. *)
Fixpoint value (fuel : nat) (s : str) {struct fuel} : option (json * str) :=
  match fuel with
  | O => None
  | S fuel =>
    match s with
    | [] => None
    | c :: s' =>
      if c =? 34 then match string_of s' with Some (t, r) => Some (JStr t, r) | None => None end
      else if c =? 91 then match skip s' with
                           | [] => None
                           | d :: r => if d =? 93 then Some (JArr [], r) else match elements fuel (d :: r) with Some (l, r) => Some (JArr l, r) | None => None end
                           end
      else if c =? 123 then match skip s' with
                            | [] => None
                            | d :: r => if d =? 125 then Some (JObj [], r) else match members fuel [] (d :: r) with Some (l, r) => Some (JObj l, r) | None => None end
                            end
      else atom s
    end
  end
with elements (fuel : nat) (s : str) {struct fuel} : option (list json * str) :=
  match fuel with
  | O => None
  | S fuel =>
    match value fuel s with
    | None => None
    | Some (v, r) =>
      match skip r with
      | [] => None
      | d :: r => if d =? 93 then Some ([v], r) else if d =? 44 then match elements fuel (skip r) with Some (l, r) => Some (v :: l, r) | None => None end else None
      end
    end
  end
with members (fuel : nat) (acc : dict str json) (s : str) {struct fuel} : option (dict str json * str) :=
  match fuel with
  | O => None
  | S fuel =>
    match s with
    | [] => None
    | q :: s' =>
      if negb (q =? 34) then None else
      match string_of s' with
      | None => None
      | Some (k, r) =>
        match skip r with
        | [] => None
        | d :: r =>
          if negb (d =? 58) then None else
          match value fuel (skip r) with
          | None => None
          | Some (v, r) =>
            match skip r with
            | [] => None
            | d :: r => if d =? 125 then Some (dset acc k v, r) else if d =? 44 then members fuel (dset acc k v) (skip r) else None
            end
          end
        end
      end
    end
  end.
(** json.load: no byte order mark, one value, nothing but white space around it *)
Definition loads (s : str) : option json :=
  match s with
  | 65279 :: _ => None
  | _ => match value (2 * length s + 1) (skip s) with Some (v, r) => match skip r with [] => Some v | _ => None end | None => None end
  end.

(** ** Dictionary.save: _dictionary.py:96-104; [list_order] is the order in which list() enumerates a set *)
Definition params_of (d : nat * dict str (list str)) : json :=
  JObj [(u "max_length", JInt (Z.of_nat (fst d))); (u "pos_dict", JObj (map (fun tw : str * list str => (fst tw, JArr (map JStr (snd tw)))) (snd d)))].
Definition save_text (list_order : list str -> list str) (d : tdict) : str := dump 0 (params_of (save list_order d)).
(** ** Dictionary.load: _dictionary.py:81-86. The attributes after loading: max_length is whatever the file says; the elements of a set need not be strings *)
Record jdict := mkJ { j_max : json; j_pos : dict str (list json) }.
Definition hashable (v : json) : bool := match v with JArr _ | JObj _ => false | _ => true end.
(** set(words) of a JSON value: the elements. *)
Definition as_set (v : json) : res (list json) :=
  match v with
  | JArr l => if forallb hashable l then Ok l else Err TypeError
  | JStr s => Ok (map (fun c => JStr [c]) s)
  | JObj o => Ok (map (fun kv : str * json => JStr (fst kv)) o)
  | _ => Err TypeError
  end.
Definition load_text (d : jdict) (content : str) : jdict * option exn :=
  match loads (univ_nl content) with
  | None => (d, Some ValueError)
  | Some (JObj o) =>
    match dget o (u "max_length") with
    | None => (d, Some KeyError)
    | Some m =>
      match dget o (u "pos_dict") with
      | None => (mkJ m (j_pos d), Some KeyError)
      | Some (JObj ps) => match mapM (fun kv : str * json => do s <- as_set (snd kv); Ok (fst kv, s)) ps with
                          | Ok ps => (mkJ m ps, None)
                          | Err e => (mkJ m (j_pos d), Some e)
                          end
      | Some _ => (mkJ m (j_pos d), Some AttributeError)
      end
    end
  | Some _ => (d, Some TypeError)
  end.
(** word_is_tag and the tags of what was loaded: _dictionary.py:36-37; a set built from JSON contains a string only if it was listed as a string *)
Definition j_word_is_tag (d : jdict) (w t : str) : bool :=
  match dget (j_pos d) t with Some l => existsb (fun v => match v with JStr s => eqb s w | _ => false end) l | None => false end.
