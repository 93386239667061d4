(** * Specification vocabulary for the life of vectorizers *)
From Coq Require Import QArith.
From Verif Require Import PyBase PyDict PySort PyText PyFile CountLemmas VectorizerModel VectorizerSpec VecLifeModel.
Open Scope Z_scope.

(** a reading that ends well and has a document *)
Definition good {D} (d : reading D) : bool := match fails d, yields d with None, _ :: _ => true | _, _ => false end.
(** the documents from which a call learns a vocabulary, if it does *)
Definition learns_from {D} (o : vop D) : option (list D) :=
  match o with
  | Fit d | FitTransform d _ | FitToFile d _ _ _ => if good d then Some (yields d) else None
  | _ => None
  end.
(** the file that a call may write *)
Definition may_write {D} (o : vop D) : option str :=
  match o with Save f => Some (vname f) | ToFile _ _ p | FitToFile _ _ _ p => Some p | _ => None end.
(** names that save and load use *)
Definition vocab_name (p : str) : Prop := exists a, p = a ++ u ".vocab".
(** tokens that survive a line of a text file *)
Definition clean (t : str) : Prop := strip t = t /\ no_nl t.
(** a vocabulary that some call of the history learnt, or the empty one of a new vectorizer *)
Definition was_learnt {D} (conf : nat -> vconf D) (ks : list (nat * vop D)) (v : vocab) : Prop :=
  v = mkVocab [] [] 0 \/ exists i o docs, In (i, o) ks /\ learns_from o = Some docs /\ fit (conf i) docs = Ok v.
(** calls that only ask *)
Definition asks {D} (o : vop D) : bool := match o with Transform _ | EncodeList _ | DecodeList _ | EncodeBow _ | DecodeBow _ | Vocabs | Len => true | _ => false end.
(** the places of a matrix and their values, one line each *)
Definition mm_rows (l : list (Z * Z * Z)) : str := concat (map (fun t => mm_row (fst (fst t) + 1) (snd (fst t) + 1) (snd t)) l).
Definition mm_head (rows cols entries : Z) : str := u "%%MatrixMarket matrix coordinate integer general" ++ [10%N] ++ u "%" ++ [10%N] ++ mm_row rows cols entries.
