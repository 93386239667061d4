(** * What a tokenizer answers, as a function of the history of the caller's dicts *)
From Coq Require Import QArith.
From Verif Require Import PyBase PyDict PySort PyText CountLemmas TokenizerModel LRTokModel TokShareModel.
Open Scope nat_scope.
(** dict number r: what it was made with, and what happened afterwards *)
Fixpoint made_at (r : nat) (ops : list sop) : option (dict str Q * list sop) :=
  match ops with
  | [] => None
  | SDict d :: ops' => match r with 0 => Some (d, ops') | S r' => made_at r' ops' end
  | _ :: ops' => made_at r ops'
  end.
(** what one operation does to dict number r *)
Definition edit (r : nat) (d : dict str Q) (o : sop) : dict str Q :=
  match o with
  | SSet r' w x => if r' =? r then dset d w x else d
  | SDel r' w => if r' =? r then dpop d w else d
  | _ => d
  end.
(** the contents of dict number r at the end of a history *)
Definition contents (r : nat) (ops : list sop) : dict str Q :=
  match made_at r ops with Some (d, later) => fold_left (edit r) later d | None => [] end.

(** only MaxLRScoreTokenizer can refuse: it divides the rows of its graph by their sums *)
Definition refuses (m : make) : bool :=
  match m with
  | MakeLR _ _ _ _ g _ _ => existsb (fun lr : str * dict str Q => match snd lr with [] => false | _ => Qeq_bool (fold_left (fun s kv => s + snd kv)%Q (snd lr) 0%Q) 0%Q end) g
  | _ => false
  end.
(** tokenizer number i: the history before the call of its constructor, and the call *)
Fixpoint born (i : nat) (before ops : list sop) : option (list sop * make) :=
  match ops with
  | [] => None
  | o :: ops' =>
    match o with
    | SMake m => if refuses m then born i (before ++ [o]) ops' else match i with 0 => Some (before, m) | S i' => born i' (before ++ [o]) ops' end
    | _ => born i (before ++ [o]) ops'
    end
  end.

(** the dict a tokenizer made after [before] looks words up in: the caller's dict as it is now, unless it was empty when the tokenizer was made *)
Definition looked_up (before now : list sop) (o : option nat) : dict str Q :=
  match o with
  | None => []
  | Some r => match contents r before with [] => [] | _ => contents r now end
  end.
(** a dict as an argument that is copied *)
Definition copied (before : list sop) (a : lr_arg) : words_arg := match a with ADict r => WDict (contents r before) | AList l => WList l end.
Definition then_of (before : list sop) (o : option nat) : dict str Q := match o with Some r => contents r before | None => [] end.
(** the answer of the tokenizer made after [before] by the call [m], at the end of the history [now] *)
Definition expected (before : list sop) (m : make) (now : list sop) (s : str) : answer :=
  match m with
  | MakeL sc ds => Words (Ok (ltok_flat (looked_up before now sc) ds 0%Q s))
  | MakeMax sc ml ds => Words (ms_tokenize_flat (looked_up before now sc) ds ml s)
  | MakeNounL r => Words (Ok (nl_tokenize (dmem (contents r now)) s true))
  | MakeNoun sc => Words (nm_tokenize_flat (looked_up before now sc) s true)
  | MakeLR Dl Dr Pl Pr g b p =>
    match lr_new (copied before Dl) (copied before Dr) (then_of before Pl) (then_of before Pr) g b with
    | Ok (dl, dr) => Tagged (lr_tokenize dl dr (looked_up before now Pl) (looked_up before now Pr) (max_ldiff p) (max_lratio p) (ensure_l p) (ensure_diff p) s)
    | Err e => Tagged (Err e)
    end
  end.
