(** * Model of LRGraph with explicit objects (utils/utils.py:318-488), to say which dicts are shared with the caller.
    The heap holds the dicts from right parts to counts ("rows", [rowv]) and the dicts from left parts to rows ("outer dicts",
    [outv]). References are numbers below [nrow] and [nout]. *)
From Coq Require Import List ZArith Lia Bool.
Import ListNotations.
From Verif Require Import PyBase PyDict UtilsModel UtilsSpec.
Open Scope Z_scope.

Record heap := mkHeap { rowv : nat -> dict str Z; outv : nat -> dict str nat; nrow : nat; nout : nat }.
Definition set_row (h : heap) (i : nat) (v : dict str Z) : heap := mkHeap (fun j => if (j =? i)%nat then v else rowv h j) (outv h) (nrow h) (nout h).
Definition set_out (h : heap) (o : nat) (v : dict str nat) : heap := mkHeap (rowv h) (fun j => if (j =? o)%nat then v else outv h j) (nrow h) (nout h).
(** the dict of dicts that the outer dict [o] denotes *)
Definition read (h : heap) (o : nat) : graph := map (fun p => (fst p, rowv h (snd p))) (outv h o).
(** [{l:{r:c for r,c in rdict.items()} for l,rdict in d.items()}] and the like: a new outer dict with new rows *)
Definition alloc (h : heap) (d : graph) : heap * nat :=
  (mkHeap (fun j => if (nrow h <=? j)%nat && (j <? nrow h + length d)%nat then nth (j - nrow h) (map snd d) [] else rowv h j)
          (fun o => if (o =? nout h)%nat then combine (map fst d) (seq (nrow h) (length d)) else outv h o)
          (nrow h + length d) (S (nout h)), nout h).
(** [dict(d)]: a new outer dict with the same rows *)
Definition copy_outer (h : heap) (o : nat) : heap * nat :=
  (mkHeap (rowv h) (fun j => if (j =? nout h)%nat then outv h o else outv h j) (nrow h) (S (nout h)), nout h).

(** an LRGraph object: references to [self._lr], [self._rl], [self._lr_origin] *)
Record obj := mkObj { o_lr : nat; o_rl : nat; o_or : option nat; o_lm : Z; o_rm : Z }.
(** the type of the first row of the caller's dict (line 362). Simplification: all rows have that type (a dict whose first row is a dict
    and a later one a defaultdict would keep that defaultdict as a shared row that creates missing keys) *)
Inductive row_kind := KDict | KDefaultdict | KOther.
(** 320-340 with [lrgraph] the dict [c], [sents=None]; [plain]: [type(lrgraph) is dict] (356) *)
Definition construct (h : heap) (c : nat) (plain : bool) (kind : row_kind) (lm rm : Z) : res (heap * obj) :=
  if negb (lm >? 1) then Err AssertionError else
  if negb (rm >? 0) then Err AssertionError else
  do hl <- match outv h c with
           | [] => Ok (let (h1, a) := alloc h [] in let (h2, b) := alloc h1 [] in (h2, a, b))
           | _ =>
             let (h0, o) := if plain then (h, c) else copy_outer h c in
             do ho <- match kind with
                      | KOther => Err ValueError
                      | KDefaultdict => Ok (alloc h0 (read h0 o))
                      | KDict => Ok (h0, o)
                      end;
             let (h1, a) := ho in
             let (h2, b) := alloc h1 (make_rl (read h1 a)) in Ok (h2, a, b)
           end;
  let '(h2, a, b) := hl in
  let (h3, d) := alloc h2 (read h2 a) in
  Ok (h3, mkObj a b (Some d) lm rm).

(** 376-383 *)
Definition hreset (h : heap) (g : obj) : heap * obj :=
  match o_or g with
  | None => (h, g)
  | Some o => match outv h o with
              | [] => (h, g)
              | _ => let (h1, a) := alloc h (read h o) in
                     let (h2, b) := alloc h1 (make_rl (read h1 a)) in (h2, mkObj a b (o_or g) (o_lm g) (o_rm g))
              end
  end.
(** [d\[a\]\[b\] += c], in place *)
Definition hadd2 (h : heap) (o : nat) (a b : str) (c : Z) : res heap :=
  match dget (outv h o) a with
  | None => Err KeyError
  | Some i => match dget (rowv h i) b with
              | None => Err KeyError
              | Some v => Ok (set_row h i (dset (rowv h i) b (v + c)))
              end
  end.
(** 385-388 *)
Definition hadd_pair (h : heap) (g : obj) (l r : str) (c : Z) : heap * option exn :=
  match hadd2 h (o_lr g) l r c with
  | Err e => (h, Some e)
  | Ok h1 => match r with
             | [] => (h1, None)
             | _ => match hadd2 h1 (o_rl g) r l c with Err e => (h1, Some e) | Ok h2 => (h2, None) end
             end
  end.
(** 390-393 *)
Fixpoint hadd_splits (h : heap) (g : obj) (eojeol : str) (is : list nat) (c : Z) : heap * option exn :=
  match is with
  | [] => (h, None)
  | i :: is' => match hadd_pair h g (firstn i eojeol) (skipn i eojeol) c with
                | (h', None) => hadd_splits h' g eojeol is' c
                | r => r
                end
  end.
(** 396-403, 404-411, in place *)
Definition hdec2 (h : heap) (o : nat) (a b : str) (c : Z) : heap :=
  match dget (outv h o) a with
  | None => h
  | Some i =>
    match dget (rowv h i) b with
    | None => h
    | Some v =>
      if v - c <=? 0 then
        let h1 := set_row h i (dpop (rowv h i) b) in
        match dpop (rowv h i) b with [] => set_out h1 o (dpop (outv h o) a) | _ => h1 end
      else set_row h i (dset (rowv h i) b (v - c))
    end
  end.
(** 395-410 *)
Definition hremove_pair (h : heap) (g : obj) (l r : str) (c : Z) : heap := hdec2 (hdec2 h (o_lr g) l r c) (o_rl g) r l c.
(** 412-415 *)
Definition hremove_eojeol (h : heap) (g : obj) (eojeol : str) (c : Z) : heap :=
  fold_left (fun h i => hremove_pair h g (firstn i eojeol) (skipn i eojeol) c) (seq 1 (length eojeol)) h.
(** one call on the object *)
Definition hstep (hg : heap * obj) (o : op) : heap * obj :=
  let (h, g) := hg in
  match o with
  | OpAdd l r c => (fst (hadd_pair h g l r c), g)
  | OpAddEojeol e c => (fst (hadd_splits h g e (seq 1 (length e)) c), g)
  | OpRemove l r c => (hremove_pair h g l r c, g)
  | OpRemoveEojeol e c => (hremove_eojeol h g e c, g)
  | OpReset => hreset h g
  | OpFreeze => (h, mkObj (o_lr g) (o_rl g) None (o_lm g) (o_rm g))
  end.
Definition hrun (hg : heap * obj) (ops : list op) : heap * obj := fold_left hstep ops hg.
(** the graph the object denotes, in the model without references *)
Definition denotes (hg : heap * obj) : lrg :=
  mkLrg (read (fst hg) (o_lr (snd hg))) (read (fst hg) (o_rl (snd hg))) (option_map (read (fst hg)) (o_or (snd hg))) (o_lm (snd hg)) (o_rm (snd hg)).
