(** * LRNounExtractor (version 1) as an object that is used again and again (soynlp/noun/_noun_ver1.py:19-285): trainings that read the corpus twice,
    also such that fail in between, predictions and extractions in any order *)
From Coq Require Import QArith Reals.
From Verif Require Import PyBase PyDict PySort PyText UtilsModel NounModel NounV1Model.
Open Scope Z_scope.

(** the object: what __init__ sets (19-27; the coefficients and limits are the v1conf), None where it says None *)
Record v1object := mkO { o_graph : option lrg; o_words : option (list str); o_sub : dict str Z }.
Definition new_object : v1object := mkO None None [].
(** one iteration over the corpus: the sentences it yields, and the exception that ends it, if one does *)
Record pass := mkPass { p_yields : list str; p_fails : option exn }.
(** a corpus: what len() gives (None: it has no __iter__ or no __len__), and what the two iterations of train give *)
Record corpus2 := mkCorpus2 { k_len : option Z; k_first : pass; k_second : pass }.
(** calls; an extraction without candidates is one with the empty list *)
Inductive vcall :=
| VTrain (k : corpus2) (min_noun_frequency : Z)
| VTrainExtract (k : corpus2) (min_noun_score : Q) (min_noun_frequency : Z) (cands : list str)
| VExtract (min_noun_score : Q) (min_noun_frequency : Z) (cands : list str)
| VPredict (word : str) (min_noun_score : Q) (nouns : dict str (Q * Q))
| VIsNoun (word : str) (min_noun_score : Q).
Inductive vanswer := VTrained | VNouns (d : dict str (Z * Q * Q)) | VScore (p : Q * Q) | VBool (b : bool) | VRaised (e : exn).

(** 70-75 with utils.py:81-100: _scan_vocabulary assigns _substring_counter (106) before the corpus is read again; lrgraph and words are assigned at the end *)
Definition v1_fit (c : v1conf) (pre : str -> str) (k : corpus2) (mf : Z) (x : v1object) : v1object * vanswer :=
  if match k_len k with None => true | Some n => n <=? 0 end then (x, VRaised ValueError) else
  match p_fails (k_first k) with
  | Some e => (x, VRaised e)
  | None =>
    let (sub, wr) := scan_vocabulary c pre (p_yields (k_first k)) mf in
    let x := mkO (o_graph x) (o_words x) sub in
    match p_fails (k_second k) with
    | Some e => (x, VRaised e)
    | None => match lrg_new (build_lrgraph (v_lm c) pre (p_yields (k_second k)) (dkeys sub) wr) [] 10 9 with
              | Ok g => (mkO (Some g) (Some (dkeys sub)) sub, VTrained)
              | Err e => (x, VRaised e)
              end
    end
  end.
(** 143-168. [sorted(None)]: TypeError; [None.get_r] and, when no candidate has two characters, [None.reset_lrgraph]: AttributeError *)
Definition v1_ask (c : v1conf) (ms : Q) (mf : Z) (cands : list str) (x : v1object) : v1object * vanswer :=
  match cands, o_words x with
  | [], None => (x, VRaised TypeError)
  | _, _ =>
    match o_graph x with
    | None => (x, VRaised AttributeError)
    | Some g => let (st, d) := v1_extract c (mkV1S g (match o_words x with Some ws => ws | None => [] end) (o_sub x)) ms mf cands in
                (mkO (Some (v_graph st)) (o_words x) (o_sub x), VNouns d)
    end
  end.
(** one call; 64-68, 192-208 *)
Definition vrun (c : v1conf) (pre : str -> str) (x : v1object) (k : vcall) : v1object * vanswer :=
  match k with
  | VTrain k mf => v1_fit c pre k mf x
  | VTrainExtract k ms mf cands => match v1_fit c pre k mf x with (x, VTrained) => v1_ask c ms mf cands x | p => p end
  | VExtract ms mf cands => v1_ask c ms mf cands x
  | VPredict w ms nouns => (x, match o_graph x with None => VRaised AttributeError | Some g => VScore (v1_predict c g w ms nouns) end)
  | VIsNoun w ms => (x, match o_graph x with None => VRaised AttributeError | Some g => VBool (v1_is_noun c g w ms) end)
  end.
Fixpoint vrun_all (c : v1conf) (pre : str -> str) (x : v1object) (ks : list vcall) : v1object * list vanswer :=
  match ks with
  | [] => (x, [])
  | k :: ks => let (x1, a) := vrun c pre x k in let (x2, l) := vrun_all c pre x1 ks in (x2, a :: l)
  end.
