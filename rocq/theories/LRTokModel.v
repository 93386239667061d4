(** * Model of the construction of MaxLRScoreTokenizer, tokenizer/_tokenizer.py:228-275 *)
From Coq Require Import QArith.
From Verif Require Import PyBase PyDict PyText CountLemmas TokenizerModel.
Open Scope nat_scope.

(** Dl and Dr may be dicts, other containers of words (a list here), or absent (an empty list) *)
Inductive words_arg := WDict (d : dict str Q) | WList (l : list str).
(** 236-240: [norm]; the result is never read, only its failure matters *)
Definition norm_ok (row : dict str Q) : bool := match row with [] => true | _ => negb (Qeq_bool (fold_left (fun s kv => s + snd kv)%Q row 0%Q) 0%Q) end.
(** 246-255: [if not Dl: Dl = {}], [{l:1.0 for l in Dl}], [self.Dl.update(Dl)] *)
Definition words_dict (a : words_arg) : dict str Q := match a with WDict d => d | WList l => fold_left (fun d w => dset d w 1%Q) l [] end.
Definition add_words (built : dict str Q) (a : words_arg) : dict str Q := fold_left (fun d kv => dset d (fst kv) (snd kv)) (words_dict a) built.
(** 258-266 *)
Definition add_preferred (d p : dict str Q) : dict str Q := fold_left (fun d w => if dmem d w then d else dset d w 1%Q) (dkeys p) d.
(** 228-275: the dictionaries Dl and Dr; the tokenizer builder is a function from the graph to two dicts *)
Definition lr_new (Dl Dr : words_arg) (Pl Pr : dict str Q) (lrgraph : dict str (dict str Q)) (builder : option (dict str (dict str Q) -> dict str Q * dict str Q)) : res (dict str Q * dict str Q) :=
  if forallb (fun lr : str * dict str Q => norm_ok (snd lr)) lrgraph then
    let '(bl, br) := match builder with Some f => f lrgraph | None => ([], []) end in
    Ok (add_preferred (add_words bl Dl) Pl, add_preferred (add_words br Dr) Pr)
  else Err ZeroDivisionError.
