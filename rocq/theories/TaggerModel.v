(** * Model of soynlp/postagger: Dictionary, the template matchers, the evaluators, SimpleTagger and its postprocessor.
    Floats are rational numbers. Sets are lists without repetitions whose order carries no meaning. *)
From Coq Require Import QArith.
From Verif Require Import PyBase PyDict PySort PyText.
Open Scope nat_scope.

(** ** class Dictionary, postagger/_dictionary.py. A word collection is an object with an identity: a set handed to
    add_words under a new tag is stored, not copied (_dictionary.py:50-51). [heap] holds the objects the dictionary or its
    caller refer to, by their index. *)
Inductive obj := OSet (l : list str) | OList (l : list str).
Definition elems (o : obj) : list str := match o with OSet l => l | OList l => l end.
Record tdict := mkT { heap : list obj; tags : dict str nat; maxlen : nat }.
Definition deref (d : tdict) (r : nat) : obj := nth r (heap d) (OSet []).
Definition sadd (s : list str) (w : str) : list str := if mem w s then s else s ++ [w].
Definition set_of (l : list str) : list str := fold_left sadd l [].
Definition upd {A} (l : list A) (i : nat) (x : A) : list A := firstn i l ++ match skipn i l with [] => [] | _ :: t => x :: t end.
Definition max_of (l : list nat) : nat := fold_right Nat.max 0 l.

(** _dictionary.py:11-19, 26-27, given a dict. (The replacement of the values of the caller's dict, line 17, and the fact that the
    dict itself is kept, line 18, are modelled in TagShareModel.v.) [max] of no words raises ValueError. *)
Fixpoint number_from {A} (i : nat) (l : list (str * A)) : list (str * nat) :=
  match l with [] => [] | (k, _) :: l' => (k, i) :: number_from (S i) l' end.
Definition tdict_new (pos_dict : dict str (list str)) : res tdict :=
  let ws := concat (map snd pos_dict) in
  match ws with
  | [] => Err ValueError
  | _ => Ok (mkT (map (fun kv => OSet (set_of (snd kv))) pos_dict) (number_from 0 pos_dict) (max_of (map (@length N) ws)))
  end.
(** _dictionary.py:29-34 *)
Definition get_pos (d : tdict) (w : str) : list str :=
  map fst (filter (fun kr : str * nat => mem w (elems (deref d (snd kr)))) (tags d)).
(** _dictionary.py:36-37 *)
Definition word_is_tag (d : tdict) (w t : str) : bool :=
  match dget (tags d) t with Some r => mem w (elems (deref d r)) | None => false end.
(** the [words] argument: a string to be split (_dictionary.py:69-72), or an object of the caller *)
Inductive arg := AStr (s : str) | AObj (r : nat).
Definition arg_obj (d : tdict) (a : arg) : obj := match a with AStr s => OSet (set_of (split s)) | AObj r => deref d r end.
(** _dictionary.py:39-55: the state left and the exception raised *)
Definition add_words (d : tdict) (tag : str) (a : arg) (force : bool) : tdict * option exn :=
  let words := arg_obj d a in
  if negb force && negb (dmem (tags d) tag) then (d, Some ValueError) else
  match elems words with
  | [] => (d, Some ValueError)
  | _ =>
    let m := max_of (map (@length N) (elems words)) in
    let d := if maxlen d <? m then mkT (heap d) (tags d) m else d in
    match dget (tags d) tag with
    | None => match a with
              | AStr _ => (mkT (heap d ++ [words]) (dset (tags d) tag (length (heap d))) (maxlen d), None)
              | AObj r => (mkT (heap d) (dset (tags d) tag r) (maxlen d), None)
              end
    | Some r => match deref d r with
                | OList _ => (d, Some AttributeError)
                | OSet s => (mkT (upd (heap d) r (OSet (fold_left sadd (elems words) s))) (dset (tags d) tag r) (maxlen d), None)
                end
    end
  end.
(** _dictionary.py:57-67 *)
Definition remove_words (d : tdict) (tag : str) (a : option arg) : tdict * option exn :=
  match dget (tags d) tag with
  | None => (d, Some ValueError)
  | Some r =>
    match a with
    | None => (mkT (heap d) (dpop (tags d) tag) (maxlen d), None)
    | Some a =>
      match deref d r, arg_obj d a with
      | OSet s, OSet w => (mkT (upd (heap d) r (OSet (filter (fun x => negb (mem x w)) s))) (tags d) (maxlen d), None)
      | _, _ => (d, Some TypeError)
      end
    end
  end.
(** _dictionary.py:74-104 at the level of JSON values: [list(words)] lists a set in some order *)
Definition save (list_order : list str -> list str) (d : tdict) : nat * dict str (list str) :=
  (maxlen d, map (fun kr => (fst kr, match deref d (snd kr) with OSet s => list_order s | OList l => l end)) (tags d)).
Definition load (params : nat * dict str (list str)) : tdict :=
  mkT (map (fun kv => OSet (set_of (snd kv))) (snd params)) (number_from 0 (snd params)) (fst params).

(** ** LR tuples, postagger/_template.py:6 *)
Record lr := mkLR { l_of : str; l_tag : option str; r_of : str; r_tag : option str; b_of : nat; m_of : nat; e_of : nat }.

(** ** class EojeolTemplateMatcher, _template.py:12-64 *)
Record eojeol_matcher := mkEM { em_dict : tdict; single_tags : list str; lr_templates : list (str * str) }.
(** _template.py:13-20: empty arguments are replaced by the defaults *)
Definition new_eojeol_matcher (d : tdict) (single : list str) (tmpl : list (str * str)) : eojeol_matcher :=
  mkEM d (match single with [] => [u "Noun"; u "Verb"; u "Adjective"; u "Adverb"; u "Exclamation"] | _ => single end)
         (match tmpl with [] => [(u "Noun", u "Verb"); (u "Noun", u "Adjective"); (u "Noun", u "Josa")] | _ => tmpl end).
(** _template.py:53-61: the inner loop over [i]; [None] means that no subword starting at [b] was found *)
Fixpoint first_hit (d : tdict) (eojeol : str) (tag : str) (b : nat) (is : list nat) : option nat :=
  match is with
  | [] => None
  | i :: is' => if (b =? 0) && (i =? length eojeol) then None
                else if word_is_tag d (slice b i eojeol) tag then Some i else first_hit d eojeol tag b is'
  end.
(** _template.py:47-64: the [while] loop; each round advances [b], so [length eojeol] rounds suffice *)
Fixpoint decompose_loop (fuel : nat) (d : tdict) (eojeol : str) (tag : str) (b : nat) (words : list lr) : list lr :=
  match fuel with
  | 0 => words
  | S fuel' =>
    if b <? length eojeol then
      match first_hit d eojeol tag b (seq (b + 1) (length eojeol - b)) with
      | Some i => decompose_loop fuel' d eojeol tag i (words ++ [mkLR (slice b i eojeol) (Some tag) [] None b i i])
      | None => []
      end
    else words
  end.
Definition decompose_compound (d : tdict) (eojeol : str) (tag : str) : list lr :=
  decompose_loop (S (length eojeol)) d eojeol tag 0 [].
(** _template.py:22-45 *)
Definition eojeol_generate (g : eojeol_matcher) (eojeol : str) : list (list lr) :=
  let n := length eojeol in let d := em_dict g in
  let single := map (fun tag => [mkLR eojeol (Some tag) [] None 0 n n]) (filter (fun tag => mem tag (single_tags g)) (get_pos d eojeol)) in
  let single := match single with [] => [[mkLR eojeol None [] None 0 n n]] | _ => single end in
  let lrs := concat (map (fun b => let l := firstn b eojeol in let r := skipn b eojeol in
    map (fun lt => [mkLR l (Some (fst lt)) r (Some (snd lt)) 0 b n])
        (filter (fun lt => word_is_tag d l (fst lt) && word_is_tag d r (snd lt)) (lr_templates g))) (seq 1 (n - 1))) in
  let compound tag := match decompose_compound d eojeol tag with [] => [] | c => [c] end in
  single ++ lrs ++ compound (u "Noun") ++ compound (u "Adverb").

(** ** class LRTemplateMatcher, _template.py:66-149. [_pos_L] returns a set of tags, iterated in some order. *)
Record lr_matcher := mkLM { lm_dict : tdict; ltags : list str; templates : dict str (list str); tag_order : list str -> list str }.
(** _template.py:67-76 *)
Definition new_lr_matcher (d : tdict) (lt : list str) (tm : dict str (list str)) (ord : list str -> list str) : lr_matcher :=
  mkLM d (match lt with [] => [u "Noun"; u "Adjective"; u "Verb"; u "Adverb"; u "Exclamation"] | _ => lt end)
         (match tm with [] => [(u "Noun", [u "Josa"; u "Verb"; u "Adjective"])] | _ => tm end) ord.
(** _template.py:85-88 *)
Definition pos_L (g : lr_matcher) (w : str) : list str :=
  tag_order g (filter (fun pos => mem pos (ltags g)) (get_pos (lm_dict g) w)).
(** _template.py:90-106: (l, l_tag, b, e) *)
Definition initialize_L (g : lr_matcher) (t : str) : list (str * str * nat * nat) :=
  let n := length t in
  let cs := concat (map (fun b =>
    concat (map (fun e => let l := slice b e t in map (fun tag => (l, tag, b, e)) (pos_L g l))
                (seq (b + 2) (Nat.min n (b + maxlen (lm_dict g)) + 1 - (b + 2))))) (seq 0 n)) in
  sort (fun x y => snd (fst x) <=? snd (fst y)) cs.
(** _template.py:130-149 *)
Definition expand_R (g : lr_matcher) (t : str) (cs : list (str * str * nat * nat)) : list lr :=
  let n := length t in
  let ex := concat (map (fun c => let '(l, tag, b, e1) := c in
    let last := Nat.min (maxlen (lm_dict g) + e1) n in
    concat (map (fun e2 => let r := slice e1 e2 t in
      match r with
      | [] => [mkLR l (Some tag) r None b e1 e2]
      | _ => map (fun rt => mkLR l (Some tag) r (Some rt) b e1 e2)
                 (filter (fun rt => word_is_tag (lm_dict g) r rt) (dgetd (templates g) tag []))
      end) (seq e1 (last + 1 - e1)))) cs) in
  sort (fun x y => b_of x <=? b_of y) ex.
(** _template.py:78-83 *)
Definition lr_generate (g : lr_matcher) (t : str) : list lr := expand_R g t (initialize_L g t).

(** ** evaluators, postagger/_evaluator.py *)
Definition q_of_bool (b : bool) : Q := if b then 1%Q else 0%Q.
Definition q_of_nat (n : nat) : Q := inject_Z (Z.of_nat n).
Definition opt_str_eqb (a b : option str) : bool :=
  match a, b with Some x, Some y => eqb x y | None, None => true | _, _ => false end.
(** _evaluator.py:7-12: [sorted(scored, key=-score)\[0\]\[0\]] *)
Definition select_best {C} (evaluate : C -> Q) (cs : list C) : option C :=
  match sort (fun x y : C * Q => Qle_bool (- snd x) (- snd y)) (map (fun c => (c, evaluate c)) cs) with
  | [] => None
  | c :: _ => Some (fst c)
  end.
(** _evaluator.py:29-51. Weights are given by their position. *)
Definition eojeol_evaluate (w : nat -> Q) (candidate : list lr) : Q :=
  let has_tag t x := opt_str_eqb (l_tag x) (Some t) in
  let num_nouns := length (filter (has_tag (u "Noun")) candidate) in
  let num_words := length candidate in
  let has_noun := 0 <? num_nouns in
  let has_unknown := length (filter (fun x => opt_str_eqb (l_tag x) None) candidate) in
  let is_adverb_repeat := (1 <? num_words) && (num_words =? length (filter (has_tag (u "Adverb")) candidate)) in
  let is_compound_noun := (1 <? num_words) && (num_words =? length (filter (has_tag (u "Noun")) candidate)) in
  let is_noun_josa := match candidate with [x] => has_tag (u "Noun") x && opt_str_eqb (r_tag x) (Some (u "Josa")) | _ => false end in
  let is_a_noun := match candidate with [x] => has_tag (u "Noun") x && (length (r_of x) =? 0) | _ => false end in
  (q_of_nat num_nouns * w 0%nat + q_of_nat num_words * w 1%nat + q_of_bool has_noun * w 2%nat + q_of_nat has_unknown * w 3%nat
   + q_of_bool is_adverb_repeat * w 4%nat + q_of_bool is_compound_noun * w 5%nat + q_of_bool is_noun_josa * w 6%nat + q_of_bool is_a_noun * w 7%nat)%Q.
(** _evaluator.py:15-27 *)
Definition eojeol_weights (i : nat) : Q :=
  nth i [(-1#10); (-15#100); 2#10; (-3#10); 1#10; (-5#100); 1#10; 2#10]%Q 0%Q.

(** _evaluator.py:81-107. Tags in the preference table may be None. *)
Definition preference := list (option str * dict str Q).
Definition pref_get (p : preference) (tag : option str) (w : str) : Q :=
  match find (fun kv => opt_str_eqb (fst kv) tag) p with Some kv => dgetd (snd kv) w 0%Q | None => 0%Q end.
Definition lr_evaluate (w : nat -> Q) (p : preference) (c : lr) : Q :=
  let is_tag t := opt_str_eqb (l_tag c) (Some t) in
  let lr_are_known := negb (opt_str_eqb (l_tag c) None) && negb (opt_str_eqb (r_tag c) None) in
  let l_len := (Z.of_nat (m_of c) - Z.of_nat (b_of c))%Z in
  let r_len := (Z.of_nat (e_of c) - Z.of_nat (m_of c))%Z in
  (q_of_bool (is_tag (u "Noun")) * w 0%nat + q_of_bool lr_are_known * w 1%nat + q_of_bool (is_tag (u "Adverb")) * w 2%nat
   + q_of_bool (is_tag (u "Adjective")) * w 3%nat + inject_Z l_len * w 4%nat + inject_Z r_len * w 5%nat
   + q_of_bool (l_len =? 1)%Z * w 6%nat + (pref_get p (l_tag c) (l_of c) + pref_get p (r_tag c) (r_of c)))%Q.
(** _evaluator.py:61-70 *)
Definition lr_weights (i : nat) : Q := nth i [3#10; 15#100; 2#10; 1#10; 1#10; 1#10; (-2#10)]%Q 0%Q.
(** _evaluator.py:109-123 *)
Fixpoint overlap_loop (fuel : nat) (s : list (lr * Q)) : list lr :=
  match fuel, s with
  | S f, c :: s' =>
    let x := fst c in
    x :: overlap_loop f (filter (fun cs => negb ((b_of x <? e_of (fst cs)) && (b_of (fst cs) <? e_of x))) s')
  | _, _ => []
  end.
(** [sorted(best, key=lambda x:x\[2\])]: the field at index 2 of the tuple is [r] *)
Definition sort_index2 (l : list lr) : list lr := sort (fun x y => str_leb (r_of x) (r_of y)) l.
Definition remove_overlapped (scored : list (lr * Q)) : list lr :=
  let s := sort (fun x y : lr * Q => Qle_bool (- snd x) (- snd y)) scored in
  sort_index2 (overlap_loop (length s) s).
(** _evaluator.py:76-79 *)
Definition lr_select_best (evaluate : lr -> Q) (cs : list lr) : list lr :=
  sort_index2 (remove_overlapped (map (fun c => (c, evaluate c)) cs)).

(** ** postprocessor, postagger/_tagger.py:58-89 *)
Definition unknown_word (token : str) (b e : nat) : lr := mkLR (slice b e token) None [] None b e e.
(** _tagger.py:80-89 *)
Fixpoint inter_subwords (token : str) (words : list lr) : list lr :=
  match words with
  | x :: ((y :: _) as rest) =>
    (if e_of x =? b_of y then [] else [unknown_word token (e_of x) (b_of y)]) ++ inter_subwords token rest
  | _ => []
  end.
(** _tagger.py:59-78 *)
Definition unknown_lr_postprocess (token : str) (words : list lr) : list lr :=
  let n := length token in
  let first := match words with x :: _ => if 0 <? b_of x then [unknown_word token 0 (b_of x)] else [] | [] => [] end in
  let last := match rev words with x :: _ => if e_of x <? n then [unknown_word token (e_of x) n] else [] | [] => [] end in
  sort (fun x y => b_of x <=? b_of y) (words ++ first ++ last ++ inter_subwords token words).

(** ** SimpleTagger.tag, _tagger.py:16-52, without [debug] (all modes are in TagModeModel.v). [best] is what select_best returns. *)
Definition flatten_lr (words : list lr) : list (str * option str) :=
  concat (map (fun w => (match l_of w with [] => [] | l => [(l, l_tag w)] end) ++ (match r_of w with [] => [] | r => [(r, r_tag w)] end)) words).
Definition tag_eojeol (best : str -> option (list lr)) (post : option (str -> list lr -> list lr)) (eojeol : str) : res (list (str * option str)) :=
  match best eojeol with
  | None => Err TypeError
  | Some ws => Ok (flatten_lr (match post with Some p => p eojeol ws | None => ws end))
  end.
Definition tag_sentence (best : str -> option (list lr)) (post : option (str -> list lr -> list lr)) (sentence : str) : res (list (list (str * option str))) :=
  mapM (tag_eojeol best post) (split sentence).
(** the two supported combinations *)
Definition tag_simple (g : eojeol_matcher) (w : nat -> Q) (post : option (str -> list lr -> list lr)) (sentence : str) :=
  tag_sentence (fun eojeol => select_best (eojeol_evaluate w) (eojeol_generate g eojeol)) post sentence.
Definition tag_lr (g : lr_matcher) (w : nat -> Q) (p : preference) (post : option (str -> list lr -> list lr)) (sentence : str) :=
  tag_sentence (fun eojeol => Some (lr_select_best (lr_evaluate w p) (lr_generate g eojeol))) post sentence.
