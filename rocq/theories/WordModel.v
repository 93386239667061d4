(** * Model of soynlp/word/_word.py (WordExtractor) and soynlp/word/_phrase.py (Bigram) *)
From Coq Require Import Reals QArith.
From Verif Require Import PyBase PyDict PySort PyText CountLemmas.
Open Scope Z_scope.

(** ** class WordExtractor, word/_word.py:25-305. Printing and the memory report are not modelled. *)
Record wx := mkWx { wL : dict str Z; wR : dict str Z; waL : dict str Z; waR : dict str Z; max_left : Z; max_right : Z; min_freq : Z }.
(** _word.py:27-54 *)
Definition wx_new (ml mr mf : Z) : wx := mkWx [] [] [] [] ml mr mf.

(** [word\[-i:\]] for [1 <= i <= len(word)] *)
Definition lastn {A} (i : nat) (s : list A) : list A := skipn (length s - i) s.
(** [range(a, b)] as natural numbers, [a >= 0] *)
Definition range (a : nat) (b : Z) : list nat := seq a (Z.to_nat b - a).
(** [for k in keys: d\[k\] += 1] on a defaultdict(int) *)
Definition bump_all {K} `{EqB K} (keys : list K) (d : dict K Z) : dict K Z := fold_left (fun d k => dincr d k 1) keys d.

(** _word.py:83-90: the keys incremented in L and in R for one word *)
Definition keys_L (ml : Z) (word : str) : list str :=
  if (length word <=? 1)%nat then [] else map (fun i => firstn i word) (range 1 (Z.min (ml + 1) (Z.of_nat (length word)) + 1)).
Definition keys_R (mr : Z) (word : str) : list str :=
  if (length word <=? 1)%nat then [] else map (fun i => lastn i word) (range 1 (Z.min (mr + 1) (Z.of_nat (length word)))).
(** _word.py:94: [zip(\[words\[-1\]\]+words\[:-1\], words, words\[1:\]+\[words\[0\]\])] *)
Definition rot_right {A} (l : list A) (d : A) : list A := last l d :: removelast l.
Definition rot_left {A} (l : list A) (d : A) : list A := tl l ++ [hd d l].
Fixpoint zip3 {A B C} (a : list A) (b : list B) (c : list C) : list (A * B * C) :=
  match a, b, c with x :: a', y :: b', z :: c' => (x, y, z) :: zip3 a' b' c' | _, _, _ => [] end.
Definition triples (words : list str) : list (str * str * str) := zip3 (rot_right words []) words (rot_left words []).
(** _word.py:95-102: the keys incremented in _aL and _aR for one triple; the words are not empty *)
Definition first_char (w : str) : N := hd 0%N w.
Definition last_char (w : str) : N := last w 0%N.
Definition keys_aL (mr : Z) (t : str * str * str) : list str :=
  let '(_, word, right_word) := t in
  (word ++ [SP; first_char right_word]) ::
  map (fun i => lastn i word ++ [SP; first_char right_word]) (range 1 (Z.min (mr + 1) (Z.of_nat (length word)))).
Definition keys_aR (ml : Z) (t : str * str * str) : list str :=
  let '(left_word, word, _) := t in
  (last_char left_word :: SP :: word) ::
  map (fun i => last_char left_word :: SP :: firstn i word) (range 1 (Z.min (ml + 1) (Z.of_nat (length word)))).

(** _word.py:59-64 *)
Definition prune (mf : Z) (d : dict str Z) : dict str Z := dfilter (fun _ f => f >=? mf) d.
Definition prune_a (d : dict str Z) : dict str Z := dfilter (fun _ f => f >? 1) d.

(** _word.py:77-107: one sentence *)
Definition train_sent (nfp : Z) (x : wx) (num_sent : Z) (sent : str) : wx :=
  let words := split sent in
  let L1 := bump_all (concat (map (keys_L (max_left x)) words)) (wL x) in
  let R1 := bump_all (concat (map (keys_R (max_right x)) words)) (wR x) in
  let x1 := mkWx L1 R1 (waL x) (waR x) (max_left x) (max_right x) (min_freq x) in
  if (length words <=? 1)%nat then x1 else
  let aL1 := bump_all (concat (map (keys_aL (max_right x)) (triples words))) (waL x) in
  let aR1 := bump_all (concat (map (keys_aR (max_left x)) (triples words))) (waR x) in
  if (nfp >? 0) && (num_sent mod nfp =? 0)
  then mkWx (prune (min_freq x) L1) (prune (min_freq x) R1) aL1 aR1 (max_left x) (max_right x) (min_freq x)
  else mkWx L1 R1 aL1 aR1 (max_left x) (max_right x) (min_freq x).
Fixpoint train_loop (nfp : Z) (x : wx) (i : Z) (sents : list str) : wx :=
  match sents with [] => x | s :: ss => train_loop nfp (train_sent nfp x i s) (i + 1) ss end.
(** _word.py:56-116 (the corpus is a list; [check_corpus] rejects the empty one) *)
Definition train (x : wx) (sents : list str) (nfp : Z) (cumulate : bool) : res wx :=
  match sents with
  | [] => Err ValueError
  | _ =>
    let x0 := if cumulate then x else mkWx [] [] [] [] (max_left x) (max_right x) (min_freq x) in
    let y := train_loop nfp x0 0 sents in
    Ok (mkWx (prune (min_freq y) (wL y)) (prune (min_freq y) (wR y)) (prune_a (waL y)) (prune_a (waR y)) (max_left y) (max_right y) (min_freq y))
  end.

(** _word.py:177-178 *)
Definition frequency (x : wx) (word : str) : Z * Z := (dgetd (wL x) word 0, dgetd (wR x) word 0).
(** _word.py:173-174: one side; floats are real numbers *)
Definition cohesion_side (d : dict str Z) (freq : Z) (edge : str) (word_len : nat) : res R :=
  if freq =? 0 then Ok 0%R else
  match dget d edge with
  | None => Err KeyError
  | Some v => if v =? 0 then Err ZeroDivisionError else Ok (Rpower (IZR freq / IZR v) (1 / INR (word_len - 1)))
  end.
(** _word.py:168-175 *)
Definition cohesion_score (x : wx) (word : str) : res (R * R) :=
  if (length word <=? 1)%nat then Ok (0%R, 0%R) else
  let '(l_freq, r_freq) := frequency x word in
  do l <- cohesion_side (wL x) l_freq (firstn 1 word) (length word);
  do r <- cohesion_side (wR x) r_freq (lastn 1 word) (length word);
  Ok (l, r).

(** _word.py:14-22: the sum of [-p log p]; the dict is not empty *)
Definition Rsum (l : list R) : R := fold_right Rplus 0%R l.
Definition entropy (d : dict str Z) : R :=
  match d with
  | [] => 0%R
  | _ => let s := IZR (Zsum snd d) in (-1 * Rsum (map (fun kv => let p := IZR (snd kv) / s in p * ln p) d))%R
  end.

(** _word.py:222-225, 235-238: the extensions of a word to the left and to the right *)
Definition ext_left (x : wx) (word : str) : dict str Z :=
  fold_left (fun d kv => dset d (fst kv) (snd kv)) (dfilter (fun w _ => (length w =? length word + 2)%nat && eqb (skipn 2 w) word) (waR x))
    (dfilter (fun w _ => (length w =? length word + 1)%nat && eqb (skipn 1 w) word) (wR x)).
Definition ext_right (x : wx) (word : str) : dict str Z :=
  fold_left (fun d kv => dset d (fst kv) (snd kv)) (dfilter (fun w _ => (length w =? length word + 2)%nat && eqb (firstn (length w - 2) w) word) (waL x))
    (dfilter (fun w _ => (length w =? length word + 1)%nat && eqb (firstn (length w - 1) w) word) (wL x)).
(** _word.py:220-228 *)
Definition branching_entropy (x : wx) (word : str) : R * R := (entropy (ext_left x word), entropy (ext_right x word)).
(** _word.py:233-241 *)
Definition accessor_variety (x : wx) (word : str) : Z * Z := (Z.of_nat (length (ext_left x word)), Z.of_nat (length (ext_right x word))).

(** _word.py:190-204: the table for one side. [parse] cuts one character off; [remove_sp] is [word.replace(' ', '')] *)
Definition remove_sp (s : str) : str := filter (fun c => negb (N.eqb c SP)) s.
Definition has_sp (s : str) : bool := existsb (N.eqb SP) s.
Definition append_to {V} (d : dict str (list V)) (k : str) (v : V) : dict str (list V) :=
  dset d k ((match dget d k with Some l => l | None => [] end) ++ [v]).
Definition length_table {T} (get_score : dict str Z -> T) (parse : str -> str) (counter counter_a : dict str Z) (word_len : nat) (be : dict str T) : dict str T :=
  let words := filter (fun w => length w =? word_len)%nat (dkeys counter) in
  let words_ := filter (fun w => length w =? word_len + 1)%nat (dkeys counter_a) in
  let exts := fold_left (fun e w => append_to e (parse w) w) words [] in
  let exts := fold_left (fun e w => append_to e (parse (remove_sp w)) w) words_ exts in
  fold_left (fun be re => dset be (fst re) (get_score (dict_of (map (fun ext => (ext, if has_sp ext then dgetd counter_a ext 0 else dgetd counter ext 0)) (snd re))))) exts be.
Definition entropy_table {T} (get_score : dict str Z -> T) (parse : str -> str) (counter counter_a : dict str Z) (max_length : Z) : dict str T :=
  fold_left (fun be word_len => length_table get_score parse counter counter_a word_len be) (range 2 max_length) [].
(** _word.py:205-210 *)
Definition merge {T} (zero : T) (be_l be_r : dict str T) : dict str (T * T) :=
  fold_left (fun be wv => if dmem be_l (fst wv) then be else dset be (fst wv) (zero, snd wv)) be_r
    (dict_of (map (fun wv => (fst wv, (snd wv, dgetd be_r (fst wv) zero))) be_l)).
(** _word.py:180-218, 230-231 *)
Definition all_scores {T} (zero : T) (get_score : dict str Z -> T) (x : wx) : dict str (T * T) :=
  merge zero (entropy_table get_score (fun e => skipn 1 e) (wR x) (waR x) (max_right x + 1))
             (entropy_table get_score (fun e => firstn (length e - 1) e) (wL x) (waL x) (max_left x + 1)).
Definition all_branching_entropy (x : wx) : dict str (R * R) := all_scores 0%R entropy x.
Definition all_accessor_variety (x : wx) : dict str (Z * Z) := all_scores 0 (fun d => Z.of_nat (length d)) x.

(** _word.py:243-246: a set; the order of iteration is not specified by Python *)
Definition words (x : wx) : list str :=
  nodup (list_eq_dec N.eq_dec) (filter (fun w => Z.of_nat (length w) <=? max_left x) (dkeys (wL x)) ++ filter (fun w => Z.of_nat (length w) <=? max_right x) (dkeys (wR x))).

(** _word.py:12. [T] is the type of floating point scores *)
Record scores (T : Type) := mkScores { cohesion_forward : T; cohesion_backward : T; left_branching_entropy : T; right_branching_entropy : T;
  left_accessor_variety : Z; right_accessor_variety : Z; leftside_frequency : Z; rightside_frequency : Z }.
Arguments mkScores {T}. Arguments cohesion_forward {T}. Arguments cohesion_backward {T}. Arguments left_branching_entropy {T}. Arguments right_branching_entropy {T}.
Arguments left_accessor_variety {T}. Arguments right_accessor_variety {T}. Arguments leftside_frequency {T}. Arguments rightside_frequency {T}.
(** _word.py:142-152; [order] is the order in which the set [words()] is traversed *)
Definition word_scores (x : wx) (order : list str) : res (dict str (scores R)) :=
  do cps <- mapM (fun w => do c <- cohesion_score x w; Ok (w, c)) order;
  let bes := all_branching_entropy x in
  let avs := all_accessor_variety x in
  Ok (dict_of (map (fun wc => let w := fst wc in let be := dgetd bes w (0%R, 0%R) in let av := dgetd avs w (0, 0) in
       (w, mkScores (fst (snd wc)) (snd (snd wc)) (fst be) (snd be) (fst av) (snd av) (fst (frequency x w)) (snd (frequency x w)))) cps)).

(** _word.py:42-51: the thresholds. [lt] is [<] on floats *)
Record thresholds (T : Type) := mkTh { min_cohesion_forward : T; min_cohesion_backward : T; min_left_be : T; min_right_be : T; min_left_av : Z; min_right_av : Z;
  max_droprate : Q; remove_subwords : bool }.
Arguments min_cohesion_forward {T}. Arguments min_cohesion_backward {T}. Arguments min_left_be {T}. Arguments min_right_be {T}.
Arguments min_left_av {T}. Arguments min_right_av {T}. Arguments max_droprate {T}. Arguments remove_subwords {T}. Arguments mkTh {T}.
(** _word.py:123-132 *)
Definition passes {T} (lt : T -> T -> bool) (th : thresholds T) (mf : Z) (word : str) (s : scores T) : bool :=
  negb (lt (left_branching_entropy s) (min_left_be th) || lt (right_branching_entropy s) (min_right_be th) ||
        (left_accessor_variety s <? min_left_av th) || (right_accessor_variety s <? min_right_av th) ||
        (Z.max (leftside_frequency s) (rightside_frequency s) <? mf)) &&
  negb ((2 <=? length word)%nat && (lt (cohesion_forward s) (min_cohesion_forward th) || lt (cohesion_backward s) (min_cohesion_backward th))).
(** _word.py:133-139, one word that passes *)
Definition extract_step {T} (lt : T -> T -> bool) (th : thresholds T) (x : wx) (acc : res (dict str (scores T))) (ws : str * scores T) : res (dict str (scores T)) :=
  do out <- acc;
  if passes lt th (min_freq x) (fst ws) (snd ws) then
    let out := dset out (fst ws) (snd ws) in
    if negb (remove_subwords th) then Ok out else
    let subword := removelast (fst ws) in
    match dget (wL x) subword with
    | None => if negb (Qle_bool 0 (max_droprate th)) && dmem out subword then Ok (dpop out subword) else Ok out
    | Some v => if v =? 0 then Err ZeroDivisionError else
                if negb (Qle_bool (inject_Z (leftside_frequency (snd ws)) / inject_Z v) (max_droprate th)) && dmem out subword then Ok (dpop out subword) else Ok out
    end
  else Ok out.
(** _word.py:118-140 with explicit, non-empty scores; [sorted(..., key=len)] *)
Definition extract {T} (lt : T -> T -> bool) (th : thresholds T) (x : wx) (ss : dict str (scores T)) : res (dict str (scores T)) :=
  fold_left (extract_step lt th x) (sort (fun a b => length (fst a) <=? length (fst b))%nat ss) (Ok []).

(** ** class Bigram, word/_phrase.py:6-121 *)
Notation bigram := (str * str)%type (only parsing).
(** _phrase.py:37-39 *)
Definition to_bigram (ws : list str) : list bigram := combine ws (tl ws).
Definition bfilter (mf : Z) (d : dict bigram Z) : dict bigram Z := dfilter (fun _ f => f >=? mf) d.
(** _phrase.py:43-59 *)
Fixpoint bigram_loop (tokenizer : str -> list str) (mf checkpoint : Z) (i : Z) (sents : list str) (d : dict bigram Z) : dict bigram Z :=
  match sents with
  | [] => d
  | s :: ss =>
    let d := if (checkpoint >? 0) && (i mod checkpoint =? 0) then bfilter mf d else d in
    let ws := tokenizer s in
    let d := if (length ws <=? 1)%nat then d else bump_all (to_bigram ws) d in
    bigram_loop tokenizer mf checkpoint (i + 1) ss d
  end.
(** _phrase.py:61-67: [_counter] and [_unigram] *)
Record bg := mkBg { bg_counter : dict bigram Z; bg_unigram : dict str Z }.
Definition unigrams (d : dict bigram Z) : dict str Z := bump_all (concat (map (fun bf => [fst (fst bf); snd (fst bf)]) d)) [].
(** _phrase.py:35-71; with [verbose] the last message needs the loop variable *)
Definition bigram_train (tokenizer : str -> list str) (mf checkpoint : Z) (verbose : bool) (sents : list str) : res bg :=
  let d := bfilter mf (bigram_loop tokenizer mf checkpoint 0 sents []) in
  match sents with
  | [] => if verbose then Err UnboundLocalError else Ok (mkBg d (unigrams d))
  | _ => Ok (mkBg d (unigrams d))
  end.
(** _phrase.py:99-104 *)
Definition extract_by_frequency (b : bg) (topk threshold : Z) : dict bigram (Z * Z) :=
  let bigrams := dfilter (fun _ f => f >=? threshold) (bg_counter b) in
  let bigrams := if topk >? 0 then sort (fun x y : bigram * Z => - snd x <=? - snd y) bigrams else bigrams in
  dict_of (map (fun wf => (fst wf, (snd wf, snd wf))) bigrams).
(** _phrase.py:82-97 and 106-121: scores and the selection; [ge s] is [s >= threshold] *)
Definition extract_scored {T} (ge : T -> bool) (score : bigram -> Z -> res T) (b : bg) : res (dict bigram (Z * T)) :=
  do scored <- mapM (fun wf => do s <- score (fst wf) (snd wf); Ok (fst wf, s)) (bg_counter b);
  let kept := dict_of (filter (fun ws => ge (snd ws)) scored) in
  Ok (concat (map (fun wf => match dget kept (fst wf) with Some s => [(fst wf, (snd wf, s))] | None => [] end) (bg_counter b))).
Definition base_of (b : bg) (w : bigram) : res Z :=
  match dget (bg_unigram b) (fst w), dget (bg_unigram b) (snd w) with Some u0, Some u1 => Ok (u0 * u1) | _, _ => Err KeyError end.
(** _phrase.py:108-110 *)
Definition mikolov_score (mf : Z) (b : bg) (w : bigram) (freq : Z) : res Q :=
  do base <- base_of b w; Ok (if base =? 0 then 0%Q else (inject_Z (freq - mf) / inject_Z base)%Q).
(** _phrase.py:84-86: the argument of the logarithm; [log] raises ValueError unless it is positive *)
Definition pmi_arg (b : bg) (w : bigram) (freq : Z) : res (option Q) :=
  do base <- base_of b w;
  let n := 2 * Zsum snd (bg_counter b) in
  Ok (if base =? 0 then None else Some (inject_Z (n * freq) / inject_Z base)%Q).
Definition pmi_score (b : bg) (w : bigram) (freq : Z) : res R :=
  do a <- pmi_arg b w freq;
  match a with None => Ok 0%R | Some q => if Qle_bool q 0 then Err ValueError else Ok (ln (Q2R q)) end.
Definition extract_by_pmi (threshold : R) (b : bg) : res (dict bigram (Z * R)) :=
  extract_scored (fun s => if Rle_dec threshold s then true else false) (pmi_score b) b.
Definition extract_by_mikolov (threshold : Q) (mf : Z) (b : bg) : res (dict bigram (Z * Q)) :=
  extract_scored (fun s => Qle_bool threshold s) (mikolov_score mf b) b.
