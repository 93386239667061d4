(** * LRNounExtractor_v2 as an object that is used again and again (soynlp/noun/_noun_ver2.py:22-304): trainings (also such that fail), extractions,
    predictions and extractions of domain features in any order *)
From Coq Require Import Reals QArith.
From Verif Require Import PyBase PyDict PyText UtilsModel WordModel NounModel JosaModel.
Open Scope Z_scope.

(** the arguments of the constructor that are read after it (31-38), the two word lists of the package that the post-processing reads (_noun_postprocessing.py:1-19),
    and normalize_sent_for_lrgraph; postprocessing is the default, verbose and logpath are not modelled *)
Record setup := mkSetup { s_left : Z; s_right : Z; s_checkpoint : Z; s_normalized : bool; s_compounds : bool; s_posf : bool;
                          s_josa : list str; s_suffix : list str; s_normalize : str -> str }.
(** the object: the features and what [lrgraph] is *)
Record extractor := mkX { x_conf : nconf; x_graph : option lrg }.
(** 29: a new extractor has no graph *)
Definition new_extractor (c : nconf) : extractor := mkX c None.
(** a corpus: what len() gives, the sentences it yields, and the exception that ends the iteration, if one does *)
Record corpus := mkCorpus { c_len : Z; c_yields : list str; c_fails : option exn }.

(** calls *)
Inductive call :=
| TrainSents (c : corpus) (min_eojeol_frequency : Z)
| TrainCounter (ec : ecounter)
| Extract (min_noun_score min_noun_frequency : Q) (reset_lrgraph : bool)
| Predict (word : str) (min_noun_score : Q)
| Domain (cands : list str) (ignore : list str) (append_ : bool) (th : jth).
(** how they end *)
Inductive answer := Trained | Nouns (d : dict str (Q * Q)) | Score (p : Z * Q) | Features (d : dict str (Q * Z)) | Raised (e : exn).

(** 156-176: check_corpus, then the counting; utils.py:223-250. The graph of the extractor is assigned at the end. *)
Definition count_corpus (s : setup) (c : corpus) (min_eojeol : Z) : res ecounter :=
  if c_len c <=? 0 then Err ValueError else
  match c_fails c with
  | Some e => Err e
  | None => Ok (mkCounter (dfilter (fun _ v => v >=? min_eojeol)
      (counting_loop (if s_normalized s then s_normalize s else fun x => x) min_eojeol (s_left s + s_right s) (s_checkpoint s) 0 (c_yields c) [])))
  end.
(** 147-199 *)
Definition set_trained (x : extractor) (g : res lrg) : extractor * answer :=
  match g with Ok g => (mkX (x_conf x) (Some g), Trained) | Err e => (x, Raised e) end.
(** 204-241 with the arguments of the call; [None.reset_lrgraph] and so on: AttributeError. What [_append_features] adds is computed by [append_features].
    An exception of _josa.py leaves the reset graph. *)
Definition domain (cands ignore : list str) (append_ : bool) (th : jth) (x : extractor) : extractor * answer :=
  match x_graph x with
  | None => (x, Raised AttributeError)
  | Some g =>
    let c := x_conf x in
    let cands := match cands with [] => dkeys (noun_candidates c g None) | _ => cands end in
    let (g1, scores) := batch_predict c g cands (j_noun_score th) in
    let g2 := reset_lrgraph g1 in
    match josa_extract th g2 (map (fun p => (fst p, (inject_Z (fst (snd p)), snd (snd p)))) scores) (pos_f c) ignore with
    | Err e => (mkX c (Some g2), Raised e)
    | Ok d => if append_
              then match append_features c (u "pos") (dkeys d) with Ok c' => (mkX c' (Some g2), Features d) | Err e => (mkX c (Some g2), Raised e) end
              else (mkX c (Some g2), Features d)
    end
  end.
(** one call. (An exception inside of extract, which only happens for an EojeolCounter with keys that hold blanks, is taken to leave the object as it was.) *)
Definition run (s : setup) (x : extractor) (k : call) : extractor * answer :=
  match k with
  | TrainSents c me => set_trained x (do ec <- count_corpus s c me; train_counter ec (s_left s) (s_right s))
  | TrainCounter ec => set_trained x (train_counter ec (s_left s) (s_right s))
  | Extract ms mf reset =>
    match x_graph x with
    | None => (x, Raised AttributeError)
    | Some g => match noun_extract (s_josa s) (s_suffix s) josa_dom default_postprocessing (s_compounds s) (s_posf s) (x_conf x) g ms mf reset with
                | Ok (st, nouns) => (mkX (n_conf st) (Some (n_graph st)), Nouns nouns)
                | Err e => (x, Raised e)
                end
    end
  | Predict w ms => (x, match x_graph x with None => Raised AttributeError | Some g => Score (noun_predict (x_conf x) g w ms) end)
  | Domain cands ignore append_ th => domain cands ignore append_ th x
  end.
Fixpoint run_all (s : setup) (x : extractor) (ks : list call) : extractor * list answer :=
  match ks with
  | [] => (x, [])
  | k :: ks => let (x1, a) := run s x k in let (x2, l) := run_all s x1 ks in (x2, a :: l)
  end.
