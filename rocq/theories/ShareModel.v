(** * Model of PredicatorExtractor objects that share the caller's objects (predicator/_predicator.py, utils/utils.py)
    PredModel.v describes one extractor by value. Here the sets and the eojeol counters are objects: [sets] and [cnts] hold their present
    contents, and an extractor ([px]) holds references into them. Verbose output is not modelled; the maximal numbers of covered eojeols,
    which only the verbose output shows, are left out. A set is the list of its elements without duplicates (as in PredModel.v). *)
From Coq Require Import QArith Reals.
From Verif Require Import PyBase PyDict PySort PyText CountLemmas UtilsModel TaggerModel LemmaModel NounModel JosaModel PredModel.
Open Scope Z_scope.

(** a PredicatorExtractor: [self._josas], [self._adjective_stems], [self._verb_stems], [self._eomis] are the caller's sets (or fresh ones
    with the default dictionaries), [self._stems] and [self._nouns] sets of its own; [self.eojeol_counter] is None before training *)
Record px := mkPx { x_josas : nat; x_adj : nat; x_verb : nat; x_eomis : nat; x_stems : list str; x_nouns : list str;
                    x_counter : option nat; x_ee : bool; x_es : bool }.
Record pool := mkPool { sets : list (list str); cnts : list ecounter; exts : list px }.
(** the contents of the default dictionaries, _predicator.py:69-100 *)
Record dflts := mkDflts { d_josas : list str; d_adj : list str; d_verb : list str; d_eomis : list str }.
(** the parameters of [train] for the extraction of endings and stems, 156-161 *)
Record tparams := mkTparams { tp_mnf : Z; tp_ems : Q; tp_emf : Z; tp_min_char : Z; tp_min_entropy : R; tp_sms : Q; tp_smf : Z }.

Definition set_at (P : pool) (r : nat) : list str := nth r (sets P) [].
Definition put_set (P : pool) (r : nat) (s : list str) : pool := mkPool (upd (sets P) r s) (cnts P) (exts P).
Definition put_counter (P : pool) (r : nat) (c : ecounter) : pool := mkPool (sets P) (upd (cnts P) r c) (exts P).
Definition put_px (P : pool) (k : nat) (x : px) : pool := mkPool (sets P) (cnts P) (upd (exts P) k x).
Definition new_set (P : pool) (s : list str) : pool * nat := (mkPool (sets P ++ [s]) (cnts P) (exts P), length (sets P)).
(** what an extractor works with at the moment *)
Definition conf_of (P : pool) (x : px) : pconf :=
  mkPconf (set_at P (x_josas x)) (set_at P (x_adj x)) (set_at P (x_verb x)) (x_stems x) (set_at P (x_eomis x)) (x_nouns x).
(** the eojeols of the counter the extractor is bound to *)
Definition table_of (P : pool) (x : px) : dict str Z := match x_counter x with None => [] | Some r => ec_counter (nth r (cnts P) (mkCounter [])) end.
Definition with_counter (x : px) (r : nat) : px := mkPx (x_josas x) (x_adj x) (x_verb x) (x_eomis x) (x_stems x) (x_nouns x) (Some r) (x_ee x) (x_es x).
Definition with_eomis (x : px) (r : nat) : px := mkPx (x_josas x) (x_adj x) (x_verb x) r (x_stems x) (x_nouns x) (x_counter x) (x_ee x) (x_es x).
Definition with_stems (x : px) (s : list str) : px := mkPx (x_josas x) (x_adj x) (x_verb x) (x_eomis x) s (x_nouns x) (x_counter x) (x_ee x) (x_es x).

(** [Invalid]: the program names an object that does not exist *)
Inductive outcome := Done | Raised (e : exn) | Tables (adjectives verbs : dict str predicator) | Invalid.

(** _predicator.py:38-67. [if not josas]: an empty set is replaced by the default; one missing set of stems replaces both *)
Definition px_new (D : dflts) (P : pool) (nouns : list str) (josas adj verb eomis : option nat) (ee es : bool) : pool :=
  let (P, j) := match josas with
                | Some j => match set_at P j with [] => new_set P (d_josas D) | _ => (P, j) end
                | None => new_set P (d_josas D)
                end in
  let '(P, a, v) := match adj, verb with
                    | Some a, Some v => (P, a, v)
                    | _, _ => let (P, a) := new_set P (d_adj D) in let (P, v) := new_set P (d_verb D) in (P, a, v)
                    end in
  let (P, e) := match eomis with Some e => (P, e) | None => new_set P (d_eomis D) end in
  let stems := dedup (set_at P a ++ set_at P v) in
  mkPool (sets P) (cnts P) (exts P ++ [mkPx j a v e stems (remove_stem_prefix stems nouns) None ee es]).

(** 218-229: the caller's counter is pruned in place and its sum computed anew *)
Definition prune (c : ecounter) (m : Z) : ecounter := let d := train_eojeols (ec_counter c) m in mkEc d (zsum (dvals d)) (ec_coverage c).
(** 264-287: [self._eomis.update] changes the set object, whoever else holds it *)
Definition learn_eomis (P : pool) (x : px) (g : lrg) (t : tparams) : pool * outcome :=
  match eomi_extract (x_stems x) (x_nouns x) (tp_mnf t) g None (tp_ems t) (tp_emf t) true with
  | Err e => (P, Raised e)
  | Ok r => (put_set P (x_eomis x) (setupdate (set_at P (x_eomis x)) (dkeys (snd r))), Done)
  end.
(** 293-315: [self._stems] is the extractor's own *)
Definition learn_stems (P : pool) (k : nat) (x : px) (g : lrg) (t : tparams) : pool * outcome :=
  match stem_extract (stem_new g (x_stems x) (set_at P (x_eomis x)) (tp_min_char t) (tp_min_entropy t)) g [] (tp_sms t) (tp_smf t) with
  | Err e => (P, Raised e)
  | Ok r => (put_px P k (with_stems x (setupdate (x_stems x) (dkeys r))), Done)
  end.
(** 174-188; the pool keeps what was done before an exception *)
Definition learn (P : pool) (k : nat) (x : px) (d : dict str Z) (t : tparams) : pool * outcome :=
  if x_ee x || x_es x then
    match predicator_graph (conf_of P x) d with
    | Err e => (P, Raised e)
    | Ok g =>
      match (if x_ee x then learn_eomis P x g t else (P, Done)) with
      | (P, Done) => if x_es x then learn_stems P k x g t else (P, Done)
      | po => po
      end
    end
  else (P, Done).
(** 156-188 with an EojeolCounter (167-169) *)
Definition px_train (P : pool) (k r : nat) (m : Z) (t : tparams) : pool * outcome :=
  match nth_error (exts P) k, nth_error (cnts P) r with
  | Some x, Some c =>
    let c := prune c m in
    let x := with_counter x r in
    learn (put_px (put_counter P r c) k x) k x (ec_counter c) t
  | _, _ => (P, Invalid)
  end.
(** 236-247, 321-335, 346-390, 443: before the separation [self._eomis] is bound to a new set *)
Definition px_extract (P : pool) (k : nat) (cands : dict str Z) (mf : Z) : pool * outcome :=
  match nth_error (exts P) k with
  | None => (P, Invalid)
  | Some x =>
    match (match cands with
           | [] => match x_counter x with
                   | None => Err AttributeError
                   | Some r => Ok (default_candidates (ec_counter (nth r (cnts P) (mkCounter []))) mf)
                   end
           | _ => Ok cands
           end) with
    | Err e => (P, Raised e)
    | Ok cands =>
      match as_lemma_candidates (conf_of P x) cands with
      | Err e => (P, Raised e)
      | Ok (c, preds, _) =>
        let (P, r) := new_set P (p_eomis c) in
        let P := put_px P k (with_eomis x r) in
        match separate c preds with Err e => (P, Raised e) | Ok (a, v) => (P, Tables a v) end
      end
    end
  end.

(** what a program does with the extractors, and with its own sets and counters *)
Inductive pop :=
| PNew (nouns : list str) (josas adj verb eomis : option nat) (ee es : bool)
| PTrain (k r : nat) (m : Z) (t : tparams)
| PExtract (k : nat) (cands : dict str Z) (mf : Z)
| PCover (r : nat) (eojeols : list str)   (** [counter.remove_covered_eojeols(eojeols)], utils.py:273-275 *)
| PUpdate (r : nat) (ws : list str).      (** [s.update(ws)] by the caller *)
(** the references a program can use: those of existing sets *)
Definition known (P : pool) (o : option nat) : bool := match o with None => true | Some r => (r <? length (sets P))%nat end.
Definition pstep (D : dflts) (P : pool) (op : pop) : pool * outcome :=
  match op with
  | PNew nouns j a v e ee es =>
    if known P j && known P a && known P v && known P e then (px_new D P nouns j a v e ee es, Done) else (P, Invalid)
  | PTrain k r m t => px_train P k r m t
  | PExtract k cands mf => px_extract P k cands mf
  | PCover r es =>
    match nth_error (cnts P) r with
    | None => (P, Invalid)
    | Some c => let (c, e) := remove_covered c es in (put_counter P r c, match e with None => Done | Some e => Raised e end)
    end
  | PUpdate r ws => if known P (Some r) then (put_set P r (setupdate (set_at P r) ws), Done) else (P, Invalid)
  end.
(** the program goes on after an exception; the log has what every operation returned *)
Definition prun (D : dflts) (P : pool) (ops : list pop) : pool := fold_left (fun P op => fst (pstep D P op)) ops P.
Fixpoint plog (D : dflts) (P : pool) (ops : list pop) : list (pop * outcome) :=
  match ops with [] => [] | op :: ops => let (P', o) := pstep D P op in (op, o) :: plog D P' ops end.
