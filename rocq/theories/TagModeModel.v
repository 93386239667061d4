(** * Model of SimpleTagger.tag with all its modes, postagger/_tagger.py:16-52 *)
From Coq Require Import QArith.
From Verif Require Import PyBase PyDict PySort PyText TaggerModel.

(** the value of [sent_] at the end (17-47): flattened in a sentence or one list per eojeol *)
Inductive tagged := Flat (ws : list (str * option str)) | Nested (wss : list (list (str * option str))).
(** 42: [sorted(..., key=lambda x:(x\[0\].b, x\[1\]))]: tuples are compared field by field *)
Definition debug_le (x y : lr * Q) : bool :=
  (b_of (fst x) <? b_of (fst y)) || ((b_of (fst x) =? b_of (fst y)) && Qle_bool (snd x) (snd y)).
Definition debug_candidates (scored : list (lr * Q)) : list (lr * Q) := sort debug_le scored.

Section Mode.
  (** a matcher with candidates of type [C] and its evaluator; [begin_of] is the attribute [b] of a candidate, None for a list *)
  Context {C : Type} (generate : str -> list C) (evaluate : C -> Q) (best : list C -> option (list lr)) (as_lr : C -> option lr).
  Variable post : option (str -> list lr -> list lr).
  (** 40-43: the key function raises on the first candidate without attribute [b] *)
  Fixpoint scored (cs : list C) : res (list (lr * Q)) :=
    match cs with
    | [] => Ok []
    | c :: cs => match as_lr c with None => Err AttributeError | Some x => do r <- scored cs; Ok ((x, evaluate c) :: r) end
    end.
  (** 21-43: one eojeol *)
  Definition tag_one (debug : bool) (eojeol : str) : res (list (str * option str) * list (lr * Q)) :=
    let candidates := generate eojeol in
    do words <- tag_eojeol (fun _ => best candidates) post eojeol;
    if debug then do s <- scored candidates; Ok (words, debug_candidates s) else Ok (words, []).
  (** 16-52: the second component is None without [debug] *)
  Definition tag_mode (flatten debug : bool) (sentence : str) : res (tagged * option (list (list (lr * Q)))) :=
    do l <- mapM (tag_one debug) (split sentence);
    let sent := map fst l in
    Ok (if flatten then Flat (concat sent) else Nested sent, if debug then Some (map snd l) else None).
End Mode.

(** LRTemplateMatcher with LREvaluator; EojeolTemplateMatcher, whose candidates are lists, with SimpleEojeolEvaluator *)
Definition tag_lr_mode (g : lr_matcher) (w : nat -> Q) (p : preference) (post : option (str -> list lr -> list lr)) :=
  tag_mode (lr_generate g) (lr_evaluate w p) (fun cs => Some (lr_select_best (lr_evaluate w p) cs)) (fun c => Some c) post.
Definition tag_simple_mode (g : eojeol_matcher) (w : nat -> Q) (post : option (str -> list lr -> list lr)) :=
  tag_mode (eojeol_generate g) (eojeol_evaluate w) (select_best (eojeol_evaluate w)) (fun _ => None) post.
