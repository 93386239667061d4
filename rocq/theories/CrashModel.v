(** * Model of what interrupted saves and failed loads leave behind: EojeolCounter, LRGraph (utils/utils.py), sort_by_alphabet,
    Vectorizer vocabulary files. [open(path, 'w')] empties the file and the writes append to it, so a process that dies while
    saving leaves the old content (it died before the [open]) or a prefix of the content it was going to write. The cut is
    taken between characters: a cut inside the UTF-8 encoding of a character makes the next [open(...).read] raise
    UnicodeDecodeError and is not modelled, and neither is what the operating system does with data it has not flushed. *)
From Coq Require Import List ZArith QArith.
Import ListNotations.
From Verif Require Import PyBase PyDict PySort PyText PyFile UtilsModel VectorizerModel.
Open Scope Z_scope.

(** utils.py:309-316, with the state left behind by an exception: [self._counter] is filled line by line and
    [self._count_sum] is assigned after the loop *)
Fixpoint ec_load_rows (ls : list str) (d : dict str Z) : dict str Z * option exn :=
  match ls with
  | [] => (d, None)
  | line :: ls' => match split line with
                   | [w; n] => match parse_int n with Ok z => ec_load_rows ls' (dset d w z) | Err e => (d, Some e) end
                   | _ => (d, Some ValueError)
                   end
  end.
Definition ec_load_into (c : ecounter) (content : str) : ecounter * option exn :=
  match ec_load_rows (file_lines content) [] with
  | (d, None) => (mkEc d (zsum (dvals d)) 0, None)
  | (d, Some e) => (mkEc d (ec_sum c) 0, Some e)
  end.

(** utils.py:465-488, with the state left behind by an exception: [self._lr_origin] gets a row when the next left part begins,
    [self._lr] and [self._rl] are assigned at the end *)
Fixpoint lrg_load_rows (ls : list str) (o : graph) (l : str) (rd : dict str Z) : graph * option exn :=
  match ls with
  | [] => (match rd with [] => o | _ => dset o l rd end, None)
  | line :: ls' =>
    match split line with
    | [] => (o, Some IndexError)
    | s0 :: ss =>
      let changed := negb (eqb s0 l) && negb (length rd =? 0)%nat in
      let o' := if changed then dset o l rd else o in
      let rd' := if changed then [] else rd in
      match ss with
      | [s1] => match parse_int s1 with Ok c => lrg_load_rows ls' o' s0 (dset rd' [] c) | Err e => (o', Some e) end
      | [s1; s2] => match parse_int s2 with Ok c => lrg_load_rows ls' o' s0 (dset rd' s1 c) | Err e => (o', Some e) end
      | _ => (o', Some ValueError)
      end
    end
  end.
Definition lrg_load_into (g : lrg) (content : str) : lrg * option exn :=
  let (o, e) := lrg_load_rows (file_lines content) [] [] [] in
  match e with
  | Some e => (mkLrg (lr g) (rl g) (Some o) (l_max g) (r_max g), Some e)
  | None => match check_lrgraph o with
            | Ok (d, rd) => (mkLrg d rd (Some o) (l_max g) (r_max g), None)
            | Err e => (mkLrg (lr g) (rl g) (Some o) (l_max g) (r_max g), Some e)
            end
  end.
