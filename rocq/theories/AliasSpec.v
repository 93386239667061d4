(** * Specification vocabulary for sharing *)
From Coq Require Import List ZArith.
Import ListNotations.
From Verif Require Import PyBase PyDict UtilsModel UtilsSpec AliasModel.
Open Scope Z_scope.

(** the caller's dict of dicts: distinct keys, a row of its own for every key *)
Definition callers_dict (h : heap) (c : nat) : Prop :=
  (c < nout h)%nat /\ NoDup (map fst (outv h c)) /\ NoDup (map snd (outv h c)) /\ (forall i, In i (map snd (outv h c)) -> (i < nrow h)%nat) /\ is_graph (read h c).
(** the calls up to the first reset_lrgraph; after freeze, reset_lrgraph does nothing *)
Fixpoint until_reset (ops : list op) : list op :=
  match ops with
  | [] => []
  | OpReset :: _ => []
  | OpFreeze :: r => OpFreeze :: r
  | o :: r => o :: until_reset r
  end.
(** a write of the caller: [K] are the rows he holds references to. He can change his dict [c], these rows, and make new objects;
    afterwards he holds references to [K'] *)
Definition callers_write (c : nat) (K : list nat) (h h' : heap) (K' : list nat) : Prop :=
  (nrow h <= nrow h')%nat /\ (nout h <= nout h')%nat /\
  (forall o, (o < nout h)%nat -> o <> c -> outv h' o = outv h o) /\
  (forall i, (i < nrow h)%nat -> ~ In i K -> rowv h' i = rowv h i) /\
  (forall i, In i (map snd (outv h' c)) -> In i K') /\
  (forall i, In i K' -> In i K \/ (nrow h <= i < nrow h')%nat).
(** calls on the object mixed with writes of the caller *)
Inductive mixed (c : nat) : list nat -> heap * obj -> list op -> heap * obj -> list nat -> Prop :=
| mixed_nil K hg : mixed c K hg [] hg K
| mixed_op K hg o ops hg' K' : mixed c K (hstep hg o) ops hg' K' -> mixed c K hg (o :: ops) hg' K'
| mixed_write K K1 h h' g ops hg' K' : callers_write c K h h' K1 -> mixed c K1 (h', g) ops hg' K' -> mixed c K (h, g) ops hg' K'.
