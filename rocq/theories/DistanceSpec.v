(** * Specification vocabulary for the distances *)
From Verif Require Import PyBase.
Open Scope Z_scope.

(** [align U c s t k]: [s] can be turned into [t] by an alignment of total cost [k]:
    deletions and insertions cost [U], matching [x] with [y] costs [c x y]. *)
Inductive align {A} (U : Z) (c : A -> A -> Z) : list A -> list A -> Z -> Prop :=
| al_nil : align U c [] [] 0
| al_del x s t k : align U c s t k -> align U c (x :: s) t (k + U)
| al_ins y s t k : align U c s t k -> align U c s (y :: t) (k + U)
| al_sub x y s t k : align U c s t k -> align U c (x :: s) (y :: t) (k + c x y).

(** [v] is the least cost of an alignment *)
Definition least_cost {A} (U : Z) (c : A -> A -> Z) (s t : list A) (v : Z) : Prop :=
  align U c s t v /\ forall k, align U c s t k -> v <= k.

(** unit substitution cost *)
Definition unit_cost {A} `{EqB A} (x y : A) : Z := if eqb x y then 0 else 1.
