(** * Model of the tokenizers with the identity of the dicts handed to their constructors.
    [scores if scores else {}] (tokenizer/_tokenizer.py:81, 112, 255-256) keeps the caller's dict object itself unless it is empty at that moment;
    [NounLMatchTokenizer(nouns)] (tokenizer/_noun_tokenizer.py:5-6) keeps the container in any case; MaxLRScoreTokenizer copies Dl and Dr into dicts
    of its own (246-253) and keeps the preferences. The world lists the caller's dict objects and the tokenizers. What a tokenizer does with its dicts
    is modelled in TokenizerModel.v. *)
From Coq Require Import QArith.
From Verif Require Import PyBase PyDict PySort PyText CountLemmas TokenizerModel LRTokModel.
Open Scope nat_scope.
Record lr_params := LRP { max_ldiff : Q; max_lratio : Q; ensure_l : Q; ensure_diff : Q }.
(** Dl, Dr: a dict of the caller's, another container of words, or nothing *)
Inductive lr_arg := ADict (r : nat) | AList (l : list str).
(** the constructor calls. For MaxLRScoreTokenizer the tokenizer builder returns new dicts *)
Inductive make :=
| MakeL (scores : option nat) (ds : Q)                       (* LTokenizer(scores, default_score) *)
| MakeMax (scores : option nat) (max_length : Z) (ds : Q)  (* MaxScoreTokenizer(scores, max_length, default_score) *)
| MakeNounL (nouns : nat)                                    (* NounLMatchTokenizer(nouns) *)
| MakeNoun (scores : option nat)                             (* NounMatchTokenizer(noun_scores) *)
| MakeLR (Dl Dr : lr_arg) (Pl Pr : option nat) (lrgraph : dict str (dict str Q))
         (builder : option (dict str (dict str Q) -> dict str Q * dict str Q)) (p : lr_params).
(** a tokenizer: [Some r] is dict object number r, [None] a new empty dict nobody else knows *)
Inductive tokenizer :=
| TL (scores : option nat) (ds : Q)
| TMax (scores : option nat) (max_length : Z) (ds : Q)
| TNounL (nouns : nat)
| TNoun (scores : option nat)
| TLR (Dl Dr : dict str Q) (Pl Pr : option nat) (p : lr_params).
Record sworld := SW { s_dicts : list (dict str Q); s_toks : list tokenizer }.
Definition dict_of (W : sworld) (r : nat) : dict str Q := nth r (s_dicts W) [].
Definition deref (W : sworld) (o : option nat) : dict str Q := match o with Some r => dict_of W r | None => [] end.

(** [x if x else {}] *)
Definition keep (W : sworld) (o : option nat) : option nat :=
  match o with Some r => match dict_of W r with [] => None | _ => Some r end | None => None end.
(** 244-253: a dict is copied, of another container a dict is made *)
Definition arg_of (W : sworld) (a : lr_arg) : words_arg := match a with ADict r => WDict (dict_of W r) | AList l => WList l end.
(** the constructors: 80-82, 111-114, 228-275; _noun_tokenizer.py:5-6, 68-69 (the defaults are max_length=10, default_score=0.0) *)
Definition construct (W : sworld) (m : make) : res tokenizer :=
  match m with
  | MakeL s ds => Ok (TL (keep W s) ds)
  | MakeMax s ml ds => Ok (TMax (keep W s) ml ds)
  | MakeNounL r => Ok (TNounL r)
  | MakeNoun s => Ok (TNoun (keep W s))
  | MakeLR Dl Dr Pl Pr g b p =>
    do ll <- lr_new (arg_of W Dl) (arg_of W Dr) (deref W Pl) (deref W Pr) g b;
    Ok (TLR (fst ll) (snd ll) (keep W Pl) (keep W Pr) p)
  end.

(** what happens: the caller makes a dict, sets or deletes one of its entries, makes a tokenizer, or has a sentence tokenized *)
Inductive sop :=
| SDict (d : dict str Q) | SSet (r : nat) (w : str) (x : Q) | SDel (r : nat) (w : str)
| SMake (m : make) | STok (i : nat) (sentence : str).
Fixpoint put {A} (l : list A) (i : nat) (x : A) : list A :=
  match l, i with [], _ => [] | _ :: l', 0 => x :: l' | y :: l', S i' => y :: put l' i' x end.

(** what [tokenize(sentence)] gives with the remaining arguments at their defaults (for LTokenizer: tolerance 0.0, flatten; the nouns composed) *)
Inductive answer := Words (r : res (list str)) | Tagged (r : res (list (list (str * bool)))).
Definition answer_of (W : sworld) (t : tokenizer) (s : str) : answer :=
  match t with
  | TL sc ds => Words (Ok (ltok_flat (deref W sc) ds 0%Q s))
  | TMax sc ml ds => Words (ms_tokenize_flat (deref W sc) ds ml s)
  | TNounL r => Words (Ok (nl_tokenize (dmem (dict_of W r)) s true))
  | TNoun sc => Words (nm_tokenize_flat (deref W sc) s true)
  | TLR Dl Dr Pl Pr p => Tagged (lr_tokenize Dl Dr (deref W Pl) (deref W Pr) (max_ldiff p) (max_lratio p) (ensure_l p) (ensure_diff p) s)
  end.
(** one step: the world after it, an exception that is raised, and the answer if a sentence was tokenized. A step on an object that does not exist does
    nothing; tokenizing changes nothing (no method of a tokenizer assigns to an attribute or to a dict). *)
Definition sstep (W : sworld) (o : sop) : sworld * option exn * option answer :=
  match o with
  | SDict d => (SW (s_dicts W ++ [d]) (s_toks W), None, None)
  | SSet r w x => (SW (put (s_dicts W) r (dset (dict_of W r) w x)) (s_toks W), None, None)
  | SDel r w => if dmem (dict_of W r) w then (SW (put (s_dicts W) r (dpop (dict_of W r) w)) (s_toks W), None, None) else (W, Some KeyError, None)
  | SMake m => match construct W m with Ok t => (SW (s_dicts W) (s_toks W ++ [t]), None, None) | Err e => (W, Some e, None) end
  | STok i s => match nth_error (s_toks W) i with Some t => (W, None, Some (answer_of W t s)) | None => (W, None, None) end
  end.
Definition srun (ops : list sop) : sworld := fold_left (fun W o => fst (fst (sstep W o))) ops (SW [] []).
(** the answer to a sentence given to tokenizer i after a history; None if there is no such tokenizer *)
Definition ask (ops : list sop) (i : nat) (s : str) : option answer := snd (sstep (srun ops) (STok i s)).
