(** * Model of soynlp/noun/_noun_ver1.py (LRNounExtractor)
    Scores and coefficients (floats) are rationals, cohesions real numbers. Verbose output is not modelled. *)
From Coq Require Import QArith Reals.
From Verif Require Import PyBase PyDict PySort PyText PyFile CountLemmas UtilsModel NounModel.
Open Scope Z_scope.

(** [s.split(c)] for a one-character separator *)
Fixpoint split_on (c : N) (s : str) : list str :=
  match s with
  | [] => [[]]
  | x :: s' => if N.eqb x c then [] :: split_on c s' else match split_on c s' with w :: ws => (x :: w) :: ws | [] => [[x]] end
  end.

(** ** coefficients *)
(** _noun_ver1.py:51-56, one line; [float_of] stands for [float] (None: ValueError). An exception (None) ends the reading of this file (57-58). *)
Definition coef_line (float_of : str -> option Q) (coef : dict str Q) (line : str) : option (dict str Q) :=
  match split_on 9 (strip line) with
  | [r; s] => match float_of s with
              | Some q => Some (dset coef r (match dget coef r with Some old => if Qle_bool q old then old else q | None => q end))
              | None => None
              end
  | _ => None
  end.
Fixpoint coef_lines (float_of : str -> option Q) (coef : dict str Q) (ls : list str) : dict str Q :=
  match ls with
  | [] => coef
  | l :: ls' => match coef_line float_of coef l with Some coef' => coef_lines float_of coef' ls' | None => coef end
  end.
(** _noun_ver1.py:36-39 and 43-62, given the contents of the files; a file that cannot be opened is the same as an empty one *)
Definition load_coef (float_of : str -> option Q) (files : list str) : dict str Q :=
  fold_left (fun coef content => coef_lines float_of coef (file_lines content)) files [].

(** ** the extractor: coefficients, limits, min_num_of_features (19-27) and what training leaves in it *)
Record v1conf := mkV1 { v_coef : dict str Q; v_lm : Z; v_rm : Z; v_minf : Z }.
Record v1state := mkV1S { v_graph : lrg; v_words : list str; v_sub : dict str Z }.

(** _noun_ver1.py:97-100, one token *)
Definition scan_l (lm : Z) (token : str) : list str := map (fun i => firstn i token) (seq 1 (Z.to_nat (Z.min lm (Z.of_nat (length token))))).
Definition scan_r (rm : Z) (token : str) : list str := map (fun i => skipn (length token - i) token) (seq 1 (Z.to_nat (Z.min rm (Z.of_nat (length token)) - 1))).
(** _noun_ver1.py:93-96: [sent.split(' ')] without empty tokens; [pre] is the normalization, or the identity with ensure_normalized *)
Definition scan_tokens (pre : str -> str) (sents : list str) : list str :=
  concat (map (fun sent => filter (fun t => match t with [] => false | _ => true end) (split_on SP (pre sent))) sents).
(** _noun_ver1.py:77-113 *)
Definition scan_vocabulary (c : v1conf) (pre : str -> str) (sents : list str) (mf : Z) : dict str Z * list str :=
  let count := fun f => fold_left (fun d w => dincr d w 1) (concat (map f (scan_tokens pre sents))) [] in
  (dfilter (fun _ n => n >=? mf) (count (scan_l (v_lm c))), dkeys (dfilter (fun _ n => n >=? mf) (count (scan_r (v_rm c))))).
(** _noun_ver1.py:125-132, one token *)
Definition build_token (lm : Z) (wl wr : list str) (d : dict str (dict str Z)) (token : str) : dict str (dict str Z) :=
  fold_left (fun d i => let l := firstn i token in let r := skipn i token in
      if negb (mem l wl) then d else
      if (0 <? length r)%nat && negb (mem r wr) then d else inc2 d l r 1)
    (seq 1 (Z.to_nat (Z.min lm (Z.of_nat (length token))))) d.
(** _noun_ver1.py:115-141 *)
Definition build_lrgraph (lm : Z) (pre : str -> str) (sents : list str) (wl wr : list str) : dict str (dict str Z) :=
  fold_left (fun d sent => fold_left (build_token lm wl wr) (split (pre sent)) d) sents [].
(** _noun_ver1.py:70-75; check_corpus rejects the empty corpus *)
Definition v1_train (c : v1conf) (pre : str -> str) (sents : list str) (mf : Z) : res v1state :=
  match sents with
  | [] => Err ValueError
  | _ => let (sub, wr) := scan_vocabulary c pre sents mf in
         do g <- lrg_new (build_lrgraph (v_lm c) pre sents (dkeys sub) wr) [] 10 9;
         Ok (mkV1S g (dkeys sub) sub)
  end.

(** ** prediction *)
(** _noun_ver1.py:170-174 *)
Definition r_features (g : lrg) (word : str) : list (str * Z) := filter (fun rc => match fst rc with [] => false | _ => true end) (get_r g word (-1)).
(** _noun_ver1.py:212-217 *)
Definition v1_longer (coef : dict str Q) (word r : str) : bool := existsb (fun e => dmem coef (skipn e word ++ r)) (rev (seq 0 (length word))).
(** _noun_ver1.py:225-235 *)
Definition v1_step (coef : dict str Q) (word : str) (a : Q * Z * Z) (rc : str * Z) : Q * Z * Z :=
  let '(score, norm, unknown) := a in
  match dget coef (fst rc) with
  | Some q => if v1_longer coef word (fst rc) then a else ((score + inject_Z (snd rc) * q)%Q, norm + snd rc, unknown)
  | None => (score, norm, unknown + snd rc)
  end.
(** _noun_ver1.py:237-238 *)
Definition v1_predict_ (coef : dict str Q) (word : str) (features : list (str * Z)) : Q * Q :=
  let '(score, norm, unknown) := fold_left (v1_step coef word) features (0%Q, 0, 0) in
  ((if norm =? 0 then 0%Q else (score / inject_Z norm)%Q), (if norm + unknown =? 0 then 0%Q else (inject_Z norm / inject_Z (norm + unknown))%Q)).
(** the larger of two tuples, the first one if they are equal *)
Definition tuple_max (a b : Q * Q) : Q * Q :=
  if negb (Qle_bool (fst b) (fst a)) || (Qeq_bool (fst a) (fst b) && negb (Qle_bool (snd b) (snd a))) then b else a.
(** _noun_ver1.py:176-190 *)
Definition subword_score (coef : dict str Q) (word : str) (ms : Q) (nouns : dict str (Q * Q)) : Q * Q :=
  let cs := fold_left (fun d e => let sub := firstn e word in let suf := skipn e word in
      match dget nouns sub, dget nouns suf with
      | Some a, Some b => dset d sub (tuple_max a b)
      | Some a, None => let q := dgetd coef suf 0%Q in if Qle_bool q ms then d else dset d sub (q, 0%Q)
      | None, _ => d
      end) (seq 1 (length word - 1)) [] in
  match sort (fun x y : str * (Q * Q) => Qle_bool (- fst (snd x)) (- fst (snd y))) cs with [] => (0%Q, 0%Q) | x :: _ => snd x end.
(** _noun_ver1.py:195-208 *)
Definition v1_predict (c : v1conf) (g : lrg) (word : str) (ms : Q) (nouns : dict str (Q * Q)) : Q * Q :=
  let features := r_features g word in
  if v_minf c <? Z.of_nat (length features) then v1_predict_ (v_coef c) word features else subword_score (v_coef c) word ms nouns.
(** _noun_ver1.py:192-193 *)
Definition v1_is_noun (c : v1conf) (g : lrg) (word : str) (ms : Q) : bool := Qle_bool ms (fst (v1_predict c g word (1 # 2) [])).

(** ** extraction *)
(** _noun_ver1.py:245-250; [math.pow] of a number that is not negative *)
Definition v1_cohesion (sub : dict str Z) (word : str) : R :=
  let base := dgetd sub (firstn 1 word) 0 in
  if (base =? 0) || (length word <=? 1)%nat then 0%R
  else let q := (IZR (dgetd sub word 0%Z) / IZR base)%R in if Req_EM_T q 0%R then 0%R else Rpower q (1 / INR (length word - 1))%R.
(** _noun_ver1.py:252-253 *)
Definition longer_cohesion (sub : dict str Z) (word : str) : bool := if Rle_dec (v1_cohesion sub (removelast word)) (v1_cohesion sub word) then true else false.
(** _noun_ver1.py:256-268 *)
Definition v1_removed (c : v1conf) (sub : dict str Z) (ms : Q) (nouns : dict str (Q * Q)) (word : str) : bool :=
  if N.eqb (last word 0%N) 46 || N.eqb (last word 0%N) 44 then true else
  if (length word <=? 2)%nat || longer_cohesion sub word then false else
  existsb (fun e => dmem nouns (firstn e word) && negb (Qle_bool (dgetd (v_coef c) (skipn e word) 0%Q) ms)) (seq 2 (length word - 2)).
(** _noun_ver1.py:240-270 *)
Definition v1_postprocess (c : v1conf) (sub : dict str Z) (ms : Q) (nouns : dict str (Q * Q)) : dict str (Q * Q) :=
  dfilter (fun w _ => negb (v1_removed c sub ms nouns w)) nouns.
(** _noun_ver1.py:273-279: the frequencies, and the graph before the reset *)
Definition freq_step (st : lrg * dict str Z) (word : str) : lrg * dict str Z :=
  let rows := get_r (fst st) word (-1) in
  (fold_left (fun g rc => remove_eojeol g (word ++ fst rc) (snd rc)) rows (fst st), dset (snd st) word (Zsum snd rows)).
Definition v1_frequencies (g : lrg) (nouns : dict str (Q * Q)) : lrg * dict str Z := fold_left freq_step (sort_len (dkeys nouns)) (g, []).
(** _noun_ver1.py:143-168 with 272-285. The call [self.predict(word, nouns)] gives the table to the parameter [min_noun_score] and leaves
    [nouns] empty, where the threshold is never used. The parameter min_noun_frequency [mf] is handed down to _postprocess and not used there. *)
Definition v1_extract (c : v1conf) (st : v1state) (ms : Q) (mf : Z) (cands : list str) : v1state * dict str (Z * Q * Q) :=
  let cands := match cands with [] => v_words st | _ => cands end in
  let nouns := fold_left (fun d word => if (length word <=? 1)%nat then d else
      let score := v1_predict c (v_graph st) word 0%Q [] in
      if Qle_bool ms (fst score) then dset d word score else d) (sort (fun x y : str => (length x <=? length y)%nat) cands) [] in
  let nouns := v1_postprocess c (v_sub st) ms nouns in
  let (g, freq) := v1_frequencies (v_graph st) nouns in
  (mkV1S (reset_lrgraph g) (v_words st) (v_sub st), map (fun p => (fst p, (dgetd freq (fst p) 0, fst (snd p), snd (snd p)))) nouns).
(** _noun_ver1.py:64-68 *)
Definition v1_train_extract (c : v1conf) (pre : str -> str) (sents : list str) (ms : Q) (mf : Z) (cands : list str) : res (v1state * dict str (Z * Q * Q)) :=
  do st <- v1_train c pre sents mf; Ok (v1_extract c st ms mf cands).
