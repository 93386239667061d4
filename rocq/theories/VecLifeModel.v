(** * Vectorizers that are used again and again and share files (soynlp/vectorizer/_vectorizer.py): fits, transformations, files and encodings in any order *)
From Coq Require Import QArith Qround.
From Verif Require Import PyBase PyDict PySort PyText PyFile CountLemmas VectorizerModel.
Open Scope Z_scope.

(** one iteration over the documents (with their tokenization): the documents it yields, and the exception that ends it, if one does *)
Record reading (D : Type) := mkReading { yields : list D; fails : option exn }.
Arguments mkReading {D}. Arguments yields {D}. Arguments fails {D}.
(** calls of one vectorizer; a method that iterates several times over its documents has a reading for each. [str] arguments are absolute paths; directories are not modelled. *)
Inductive vop (D : Type) :=
| Fit (d : reading D) | FitTransform (d1 d2 : reading D) | FitToFile (d1 d2 d3 : reading D) (path : str)
| Transform (d : reading D) | ToFile (d1 d2 : reading D) (path : str) | Save (fname : str) | Load (fname : str)
| EncodeList (d : D) | DecodeList (l : list Z) | EncodeBow (d : D) | DecodeBow (b : dict Z Z) | Vocabs | Len.
Arguments Fit {D}. Arguments FitTransform {D}. Arguments FitToFile {D}. Arguments Transform {D}. Arguments ToFile {D}. Arguments Save {D}. Arguments Load {D}.
Arguments EncodeList {D}. Arguments DecodeList {D}. Arguments EncodeBow {D}. Arguments DecodeBow {D}. Arguments Vocabs {D}. Arguments Len {D}.
Inductive vans := Done | AMatrix (m : matrix Z) | AInts (l : list Z) | AWords (l : list str) | ABow (b : dict Z Z) | ACounts (b : dict str Z) | ALen (n : Z) | Raised (e : exn) | NoFile.
(** the vectorizers (named by numbers) and the contents of the files *)
Record world := mkWorld { w_voc : nat -> vocab; w_files : dict str str }.
Definition new_world (files : dict str str) : world := mkWorld (fun _ => mkVocab [] [] 0) files.
Definition set_voc (w : world) (i : nat) (v : vocab) : world := mkWorld (fun j => if Nat.eqb j i then v else w_voc w j) (w_files w).
Definition set_file (w : world) (p : str) (s : str) : world := mkWorld (w_voc w) (dset (w_files w) p s).
Definition ans {A} (f : A -> vans) (r : res A) : vans := match r with Ok x => f x | Err e => Raised e end.

(** 34-69: the vocabulary is assigned after the loop over the documents *)
Definition fit_r {D} (c : vconf D) (d : reading D) : res vocab := match fails d with Some e => Err e | None => fit c (yields d) end.
(** 71-88 *)
Definition transform_r {D} (c : vconf D) (v : vocab) (d : reading D) : res (matrix Z) := match fails d with Some e => Err e | None => transform c v (yields d) end.
(** 94-131: the content written: header from the first reading, rows from the second *)
Definition mm_content {D} (c : vconf D) (v : vocab) (docs1 docs2 : list D) : str :=
  let n_elements := Zsum (fun d => Z.of_nat (length (nodup (list_eq_dec N.eq_dec) (filter (dmem (vocabulary v)) (vtok c d))))) docs1 in
  u "%%MatrixMarket matrix coordinate integer general" ++ [LF] ++ u "%" ++ [LF] ++
  file_row [Z.of_nat (length docs1); n_vocabs v; n_elements] ++
  concat (map (fun d => concat (map (fun jc => file_row [fst d + 1; fst jc + 1; snd jc]) (counter (encode_list v (vtok c (snd d)))))) (enumerate docs2)).
(** 94-131. The file is opened after the first reading; what was written before an exception stays in it, since [with] closes the file. *)
Definition to_file_w {D} (c : vconf D) (v : vocab) (d1 d2 : reading D) (path : str) (w : world) : world * vans :=
  match fails d1 with
  | Some e => (w, Raised e)
  | None => match yields d1 with
            | [] => (w, Raised UnboundLocalError)
            | _ => (set_file w path (mm_content c v (yields d1) (yields d2)), match fails d2 with Some e => Raised e | None => Done end)
            end
  end.
(** 151-153, 159-160: the name of the file *)
Definition vname (f : str) : str := if eqb (skipn (length f - 6) f) (u ".vocab") then f else f ++ u ".vocab".
(** one call on vectorizer [i]; 30-32, 90-92, 133-164. A file that does not exist: FileNotFoundError. *)
Definition vrun {D} (conf : nat -> vconf D) (w : world) (k : nat * vop D) : world * vans :=
  let (i, o) := k in let c := conf i in let v := w_voc w i in
  match o with
  | Fit d => match fit_r c d with Ok v => (set_voc w i v, Done) | Err e => (w, Raised e) end
  | FitTransform d1 d2 => match fit_r c d1 with Ok v => (set_voc w i v, ans AMatrix (transform_r c v d2)) | Err e => (w, Raised e) end
  | FitToFile d1 d2 d3 path => match fit_r c d1 with Ok v => to_file_w c v d2 d3 path (set_voc w i v) | Err e => (w, Raised e) end
  | Transform d => (w, ans AMatrix (transform_r c v d))
  | ToFile d1 d2 path => to_file_w c v d1 d2 path w
  | Save f => (set_file w (vname f) (v_save v), Done)
  | Load f => match dget (w_files w) (vname f) with Some s => (set_voc w i (v_load s), Done) | None => (w, NoFile) end
  | EncodeList d => (w, AInts (encode_list v (vtok c d)))
  | DecodeList l => (w, ans AWords (decode_list v l))
  | EncodeBow d => (w, ABow (encode_bow v (vtok c d)))
  | DecodeBow b => (w, ans ACounts (decode_bow v b))
  | Vocabs => (w, AWords (vocabs v))
  | Len => (w, ALen (n_vocabs v))
  end.
Fixpoint vrun_all {D} (conf : nat -> vconf D) (w : world) (ks : list (nat * vop D)) : world * list vans :=
  match ks with
  | [] => (w, [])
  | k :: ks => let (w1, a) := vrun conf w k in let (w2, l) := vrun_all conf w1 ks in (w2, a :: l)
  end.
