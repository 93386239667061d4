(** * Model of soynlp/noun/_josa.py (extraction of domain-specific positive features). Entropies are real numbers, scores rationals. *)
From Coq Require Import QArith Reals.
From Verif Require Import PyBase PyDict PySort CountLemmas UtilsModel WordModel NounModel.
Open Scope Z_scope.

(** thresholds, _josa.py:3-8 *)
Record jth := mkJth { j_noun_score : Q; j_noun_freq : Q; j_pos_score : Q; j_pos_freq : Z; j_lastchar : Z; j_last_entropy : R; j_noun_entropy : R }.
(** _josa.py:10-12 *)
Definition josa_nouns (th : jth) (scores : dict str (Q * Q)) : list str :=
  map fst (filter (fun p => Qle_bool (j_noun_score th) (fst (snd p)) && Qle_bool (j_noun_freq th) (snd (snd p))) scores).
(** _josa.py:17-26 *)
Definition josa_candidates (th : jth) (g : lrg) (nouns known ignore : list str) : dict str Z :=
  dfilter (fun _ n => n >=? j_pos_freq th)
    (fold_left (fun d noun => fold_left (fun d rc =>
       if mem (fst rc) known || mem (fst rc) ignore then d else dincr d (fst rc) (snd rc)) (get_r g noun (-1)) d) nouns []).
(** _josa.py:58-59 *)
Definition noun_feature (g : lrg) (r : str) : list (str * Z) := filter (fun lc => (1 <? length (fst lc))%nat) (get_l g r (-1)).
(** the entropy of a list of counts, _josa.py:43-45 and 120-123: dividing by a zero sum, logarithm of a number that is not positive *)
Definition josa_entropy (cs : list Z) : res R :=
  let s := Zsum (fun x => x) cs in
  match cs with
  | [] => Ok 0%R
  | _ => if s =? 0 then Err ZeroDivisionError
         else if forallb (fun x => 0 <? x * s) cs then Ok (- Rsum (map (fun x => (IZR x / IZR s) * ln (IZR x / IZR s)) cs))%R
         else Err ValueError
  end.
(** _josa.py:113-125: counts per last character *)
Definition last_counter (lcount : list (str * Z)) : dict N Z :=
  fold_left (fun d lc => dincr d (last (fst lc) 0%N) (snd lc)) lcount [].
(** _josa.py:104-111: the inner loop returns at once *)
Definition josa_is_NJ (r : str) (nouns pos_r : list str) : bool :=
  match find (fun i => mem (firstn i r) nouns) (seq 1 (length r - 1)) with
  | Some i => mem (skipn i r) pos_r
  | None => false
  end.
(** _josa.py:97-102 *)
Definition josa_longer_noun (l r : str) (nouns : list str) : bool :=
  existsb (fun i => mem (l ++ firstn i r) nouns) (seq 1 (length r)).
(** _josa.py:79-95; features of one character are left out by [noun_feature] already *)
Definition josa_predict3 (r : str) (features : list (str * Z)) (nouns pos_r : list str) : Z * Z * Z :=
  fold_left (fun a lf => let '(pos, neg, unk) := a in let l := fst lf in let freq := snd lf in
      if (length l <=? 1)%nat then a else
      if josa_is_NJ r nouns pos_r then (pos, neg + freq, unk) else
      if josa_longer_noun l r nouns then (pos, neg + freq, unk) else
      if mem l nouns then (pos + freq, neg, unk) else (pos, neg, unk + freq)) features (0, 0, 0).
(** _josa.py:61-77 *)
Definition josa_predict (th : jth) (r : str) (features : list (str * Z)) (nouns pos_r : list str) : res (Q * Z) :=
  let counter := last_counter features in
  do e <- josa_entropy (map snd counter);
  if (Z.of_nat (length counter) <? j_lastchar th) || (if Rlt_dec e (j_last_entropy th) then true else false) then Ok (0%Q, 0) else
  let '(pos, neg, unk) := josa_predict3 r features nouns pos_r in
  let score := if pos + neg >? 0 then qdiv (pos - neg) (pos + neg) else 0%Q in
  let freq := if Qle_bool (j_pos_score th) score then pos else neg + unk in
  Ok (if freq <? j_pos_freq th then (0%Q, freq) else (score, freq)).
(** _josa.py:32-51, one candidate. Known features are kept apart: the dict of the program holds them as well and drops them at the end (53-55). *)
Definition josa_step (th : jth) (g : lrg) (nouns known : list str) (dom : dict str (Q * Z)) (r : str) : res (dict str (Q * Z)) :=
  if mem r known || mem r nouns then Ok dom else
  let features := noun_feature g r in
  do p <- josa_predict th r features nouns (known ++ dkeys dom);
  do e <- josa_entropy (map snd (filter (fun lc => mem (fst lc) nouns) features));
  Ok (if Qle_bool (j_pos_score th) (fst p) && (j_pos_freq th <=? snd p) && (if Rle_dec (j_noun_entropy th) e then true else false)
      then dset dom r p else dom).
(** _josa.py:3-56 *)
Definition josa_extract (th : jth) (g : lrg) (scores : dict str (Q * Q)) (known ignore : list str) : res (dict str (Q * Z)) :=
  let nouns := josa_nouns th scores in
  foldM (josa_step th g nouns known) (sort (fun x y : str => (length x <=? length y)%nat) (dkeys (josa_candidates th g nouns known ignore))) [].
(** the defaults of LRNounExtractor_v2.extract_domain_pos_features, _noun_ver2.py:204-210 *)
Definition josa_default : jth := mkJth (3 # 10) (100 # 1) (3 # 10) 1000 4 (1 / 2)%R (3 / 2)%R.
(** as called by LRNounExtractor_v2: the prediction scores are (support, score); an exception is not distinguished from no feature *)
Definition josa_dom (scores : dict str (Z * Q)) (g : lrg) (known : list str) : list str :=
  match josa_extract josa_default g (map (fun p => (fst p, (inject_Z (fst (snd p)), snd (snd p)))) scores) known [] with Ok d => dkeys d | Err _ => [] end.
