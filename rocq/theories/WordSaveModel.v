(** * WordExtractor as an object: trainings that fail part way, save and load (soynlp/word/_word.py:25-116, 248-310) *)
From Coq Require Import Reals QArith.
From Verif Require Import PyBase PyDict PyText WordModel.
Open Scope Z_scope.

(** what a counter is: a dict, [defaultdict(int)], or [defaultdict(lambda: 0)] made by a function inside of train *)
Inductive kind := KDict | KInt | KLambda.
(** the object: its counters and the first three parameters, what L and R are, what _aL and _aR are, verbose, and the thresholds of extract *)
Record ext := mkE { e_x : wx; e_kind : kind; e_kind_a : kind; e_verbose : Z; e_th : thresholds Q }.
(** a corpus: what len() gives, the sentences it yields, and the exception that ends the iteration, if one does
    (raised by the iterator, or by [sent.split()] of something that is no string) *)
Record corpus := mkC { c_len : Z; c_yields : list str; c_fails : option exn }.
(** what a training does to L and R: 102-103 makes them defaultdicts of another kind in the loop. [num_sent] counts from [i] *)
Fixpoint loop_kind (nfp : Z) (k : kind) (i : Z) (sents : list str) : kind :=
  match sents with
  | [] => k
  | s :: ss => loop_kind nfp (if negb (length (split s) <=? 1)%nat && ((nfp >? 0) && (i mod nfp =? 0)) then KLambda else k) (i + 1) ss
  end.
(** 54-116; an exception leaves what was counted before. What is printed is not modelled (get_process_memory is taken to work) *)
Definition train_obj (e : ext) (c : corpus) (nfp : Z) (cumulate : bool) : ext * option exn :=
  if c_len c <=? 0 then (e, Some ValueError) else
  let x := e_x e in
  let x0 := if cumulate then x else mkWx [] [] [] [] (max_left x) (max_right x) (min_freq x) in
  let y := train_loop nfp x0 0 (c_yields c) in
  match c_fails c with
  | Some err => (mkE y (loop_kind nfp KInt 0 (c_yields c)) KInt (e_verbose e) (e_th e), Some err)
  | None => (mkE (mkWx (prune (min_freq y) (wL y)) (prune (min_freq y) (wR y)) (prune_a (waL y)) (prune_a (waR y)) (max_left y) (max_right y) (min_freq y))
               KDict KDict (e_verbose e) (e_th e), None)
  end.
(** 25-52 *)
Definition new_ext (ml mr mf verbose : Z) (th : thresholds Q) : ext := mkE (wx_new ml mr mf) KDict KDict verbose th.
Definition construct (ml mr mf verbose : Z) (th : thresholds Q) (c : corpus) : ext * option exn :=
  if c_len c =? 0 then (new_ext ml mr mf verbose th, None) else train_obj (new_ext ml mr mf verbose th) c 0 true.

(** ** save and load *)
(** a file: the pickle of the two dicts that save makes from the extractor, without some of their keys (save leaves out none); or no complete pickle *)
Inductive file := FPickle (e : ext) (absent : list str) | FBroken.
(** pickle finds no name for a function that was made inside of another one: AttributeError *)
Definition picklable (k : kind) : bool := match k with KLambda => false | _ => true end.
(** 248-275: the file is opened, and so emptied, before pickle looks at the dicts *)
Definition save_obj (e : ext) : file * option exn := if picklable (e_kind e) && picklable (e_kind_a e) then (FPickle e [], None) else (FBroken, Some AttributeError).
Definition set_x (x : wx) (e : ext) : ext := mkE x (e_kind e) (e_kind_a e) (e_verbose e) (e_th e).
Definition set_th (t : thresholds Q) (e : ext) : ext := mkE (e_x e) (e_kind e) (e_kind_a e) (e_verbose e) t.
(** 281-305: the keys in the order in which load looks them up, and the assignments to the object [e] of what the file has ([f]) *)
Definition load_steps : list (str * (ext -> ext -> ext)) :=
  [(u "configuration", fun f e => e);
   (u "max_left_length", fun f e => let x := e_x e in set_x (mkWx (wL x) (wR x) (waL x) (waR x) (max_left (e_x f)) (max_right x) (min_freq x)) e);
   (u "max_right_length", fun f e => let x := e_x e in set_x (mkWx (wL x) (wR x) (waL x) (waR x) (max_left x) (max_right (e_x f)) (min_freq x)) e);
   (u "min_frequency", fun f e => let x := e_x e in set_x (mkWx (wL x) (wR x) (waL x) (waR x) (max_left x) (max_right x) (min_freq (e_x f))) e);
   (u "verbose_points", fun f e => mkE (e_x e) (e_kind e) (e_kind_a e) (e_verbose f) (e_th e));
   (u "min_cohesion_forward", fun f e => let t := e_th e in set_th (mkTh (min_cohesion_forward (e_th f)) (min_cohesion_backward t) (min_left_be t) (min_right_be t) (min_left_av t) (min_right_av t) (max_droprate t) (remove_subwords t)) e);
   (u "min_cohesion_backward", fun f e => let t := e_th e in set_th (mkTh (min_cohesion_forward t) (min_cohesion_backward (e_th f)) (min_left_be t) (min_right_be t) (min_left_av t) (min_right_av t) (max_droprate t) (remove_subwords t)) e);
   (u "max_droprate_leftside_frequency", fun f e => let t := e_th e in set_th (mkTh (min_cohesion_forward t) (min_cohesion_backward t) (min_left_be t) (min_right_be t) (min_left_av t) (min_right_av t) (max_droprate (e_th f)) (remove_subwords t)) e);
   (u "min_left_branching_entropy", fun f e => let t := e_th e in set_th (mkTh (min_cohesion_forward t) (min_cohesion_backward t) (min_left_be (e_th f)) (min_right_be t) (min_left_av t) (min_right_av t) (max_droprate t) (remove_subwords t)) e);
   (u "min_right_branching_entropy", fun f e => let t := e_th e in set_th (mkTh (min_cohesion_forward t) (min_cohesion_backward t) (min_left_be t) (min_right_be (e_th f)) (min_left_av t) (min_right_av t) (max_droprate t) (remove_subwords t)) e);
   (u "min_left_accessor_variety", fun f e => let t := e_th e in set_th (mkTh (min_cohesion_forward t) (min_cohesion_backward t) (min_left_be t) (min_right_be t) (min_left_av (e_th f)) (min_right_av t) (max_droprate t) (remove_subwords t)) e);
   (u "min_right_accessor_variety", fun f e => let t := e_th e in set_th (mkTh (min_cohesion_forward t) (min_cohesion_backward t) (min_left_be t) (min_right_be t) (min_left_av t) (min_right_av (e_th f)) (max_droprate t) (remove_subwords t)) e);
   (u "remove_subwords", fun f e => let t := e_th e in set_th (mkTh (min_cohesion_forward t) (min_cohesion_backward t) (min_left_be t) (min_right_be t) (min_left_av t) (min_right_av t) (max_droprate t) (remove_subwords (e_th f))) e);
   (u "data", fun f e => e);
   (u "L", fun f e => let x := e_x e in mkE (mkWx (wL (e_x f)) (wR x) (waL x) (waR x) (max_left x) (max_right x) (min_freq x)) (e_kind f) (e_kind_a e) (e_verbose e) (e_th e));
   (u "R", fun f e => let x := e_x e in set_x (mkWx (wL x) (wR (e_x f)) (waL x) (waR x) (max_left x) (max_right x) (min_freq x)) e);
   (u "aL", fun f e => let x := e_x e in mkE (mkWx (wL x) (wR x) (waL (e_x f)) (waR x) (max_left x) (max_right x) (min_freq x)) (e_kind e) (e_kind_a f) (e_verbose e) (e_th e));
   (u "aR", fun f e => let x := e_x e in set_x (mkWx (wL x) (wR x) (waL x) (waR (e_x f)) (max_left x) (max_right x) (min_freq x)) e)].
(** the assignments one after another until a key is not there. (The kind of L stands for that of R, the kind of _aL for that of _aR: they change together but
    for a load that ends between them.) *)
Fixpoint run_steps (absent : list str) (f : ext) (steps : list (str * (ext -> ext -> ext))) (e : ext) : ext * option exn :=
  match steps with
  | [] => (e, None)
  | (k, assign) :: rest => if mem k absent then (e, Some KeyError) else run_steps absent f rest (assign f e)
  end.
(** how a call ends *)
Inductive outcome := Done | Raised (e : exn) | Unreadable (* EOFError or UnpicklingError *) | NoFile | NoObject.
Definition outcome_of (e : option exn) : outcome := match e with None => Done | Some e => Raised e end.
(** 277-310 *)
Definition load_obj (e : ext) (f : option file) : ext * outcome :=
  match f with
  | None => (e, NoFile)
  | Some FBroken => (e, Unreadable)
  | Some (FPickle fe absent) => let '(e', r) := run_steps absent fe load_steps e in (e', outcome_of r)
  end.

(** ** several extractors and files *)
Record world := mkW { w_exts : list ext; w_files : dict str file }.
Inductive wop :=
| WNew (ml mr mf verbose : Z) (th : thresholds Q) (c : corpus)
| WTrain (i : nat) (c : corpus) (nfp : Z) (cumulate : bool)
| WSave (i : nat) (name : str)
| WLoad (i : nat) (name : str).
Definition put {A} (l : list A) (i : nat) (v : A) : list A := firstn i l ++ match skipn i l with [] => [] | _ :: r => v :: r end.
Definition wstep (W : world) (o : wop) : world * outcome :=
  match o with
  | WNew ml mr mf verbose th c =>
      let '(e, r) := construct ml mr mf verbose th c in (match r with None => mkW (w_exts W ++ [e]) (w_files W) | Some _ => W end, outcome_of r)
  | WTrain i c nfp cumulate =>
      match nth_error (w_exts W) i with
      | Some e => let '(e', r) := train_obj e c nfp cumulate in (mkW (put (w_exts W) i e') (w_files W), outcome_of r)
      | None => (W, NoObject)
      end
  | WSave i name =>
      match nth_error (w_exts W) i with
      | Some e => let '(f, r) := save_obj e in (mkW (w_exts W) (dset (w_files W) name f), outcome_of r)
      | None => (W, NoObject)
      end
  | WLoad i name =>
      match nth_error (w_exts W) i with
      | Some e => let '(e', r) := load_obj e (dget (w_files W) name) in (mkW (put (w_exts W) i e') (w_files W), r)
      | None => (W, NoObject)
      end
  end.
Definition wempty : world := mkW [] [].
Definition wrun (W : world) (ops : list wop) : world := fold_left (fun W o => fst (wstep W o)) ops W.
