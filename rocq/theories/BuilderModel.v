(** * Model of soynlp/tokenizer/_tokenizer_builder.py (EojeolPatternTrainer) and of the calls of soynlp/postagger/_pos_extractor.py
    Sets are lists without repetitions. Ranks (floats) are rationals. The text written to the terminal is not modelled, but the arithmetic done for it is.
    The caller's set wordset_r is changed by the code (line 65); only the trainer's view of it is modelled. *)
From Coq Require Import QArith.
From Verif Require Import PyBase PyDict PySort PyText PyFile CountLemmas UtilsModel NounModel NounV1Model.
Open Scope Z_scope.

Definition opt_eqb {A} `{EqB A} (x y : option A) : bool := match x, y with Some a, Some b => eqb a b | None, None => true | _, _ => false end.
Lemma opt_eqb_spec {A} `{EqB A} (x y : option A) : reflect (x = y) (opt_eqb x y).
Proof. destruct x as [a|], y as [b|]; cbn [opt_eqb]; try (constructor; congruence). destruct (eqb_spec a b); constructor; congruence. Qed.
#[export] Instance EqB_opt {A} `{EqB A} : EqB (option A) := {| eqb := opt_eqb; eqb_spec := opt_eqb_spec |}.

(** 10-18 *)
Record bconf := mkB { b_lm : Z; b_rm : Z; b_mf : Z; b_verbose : bool }.
Definition b_default : bconf := mkB 10 6 10 true.

(** 46, 48: the two loops over a token reuse the variable i of the loop over sentences; its value after them *)
Definition scan_i (c : bconf) (i : Z) (token : str) : Z :=
  let n := Z.of_nat (length token) in
  if 1 <=? Z.min (b_rm c) n - 1 then Z.min (b_rm c) n - 1 else if 1 <=? Z.min (b_lm c) n then Z.min (b_lm c) n else i.
(** 75, likewise *)
Definition build_i (c : bconf) (i : Z) (token : str) : Z :=
  let n := Z.of_nat (length token) in if 1 <=? Z.min (b_lm c) n then Z.min (b_lm c) n else i.
(** 50-52 and 83-85: the progress report: [total] sentences, [over] divides the percentage *)
Definition tick (c : bconf) (total i over : Z) : res unit :=
  if b_verbose c then
    if total / 40 =? 0 then Err ZeroDivisionError
    else if i mod (total / 40) =? 0 then if over =? 0 then Err ZeroDivisionError else Ok tt else Ok tt
  else Ok tt.

(** 42-44: [sent.split(' ')] without empty tokens *)
Definition space_tokens (sent : str) : list str := filter (fun t => match t with [] => false | _ => true end) (split_on SP sent).
(** 41-52, from sentence number [i]; scan_l and scan_r are the loops 46-49, as in _noun_ver1.py:97-100 *)
Fixpoint scan_loop (c : bconf) (total i : Z) (sents : list str) (dl dr : dict str Z) : res (dict str Z * dict str Z) :=
  match sents with
  | [] => Ok (dl, dr)
  | sent :: sents' =>
      let tokens := space_tokens sent in
      let dl' := fold_left (fun d t => fold_left (fun d w => dincr d w 1) (scan_l (b_lm c) t) d) tokens dl in
      let dr' := fold_left (fun d t => fold_left (fun d w => dincr d w 1) (scan_r (b_rm c) t) d) tokens dr in
      do _ <- tick c total (fold_left (scan_i c) tokens i) (Z.of_nat (length sent));
      scan_loop c total (i + 1) sents' dl' dr'
  end.
(** 26-60 *)
Definition b_scan (c : bconf) (sents : list str) : res (list str * list str) :=
  do lr <- scan_loop c (Z.of_nat (length sents)) 0 sents [] [];
  Ok (dkeys (dfilter (fun _ n => n >=? b_mf c) (fst lr)), dkeys (dfilter (fun _ n => n >=? b_mf c) (snd lr))).

(** 71-81, one token *)
Definition b_token (c : bconf) (wl wr : list str) (g : graph * graph) (token : str) : graph * graph :=
  fold_left (fun g i => let l := firstn i token in let r := skipn i token in
      if negb (mem l wl) || negb (mem r wr) then g else (inc2 (fst g) l r 1, inc2 (snd g) r l 1))
    (seq 1 (Z.to_nat (Z.min (b_lm c) (Z.of_nat (length token))))) g.
(** 70-85, from sentence number [i] *)
Fixpoint build_loop (c : bconf) (total i : Z) (wl wr : list str) (sents : list str) (g : graph * graph) : res (graph * graph) :=
  match sents with
  | [] => Ok g
  | sent :: sents' =>
      do _ <- tick c total (fold_left (build_i c) (split sent) i) total;
      build_loop c total (i + 1) wl wr sents' (fold_left (b_token c wl wr) (split sent) g)
  end.
(** 65: [wordset_r.add] *)
Definition add_word (w : str) (ws : list str) : list str := if mem w ws then ws else ws ++ [w].
(** what train leaves in the trainer *)
Record bstate := mkBS { s_lr : graph; s_rl : graph; s_wl : list str; s_wr : list str }.
(** 62-91; the graphs are copied entry by entry at the end *)
Definition b_build (c : bconf) (sents wl wr : list str) : res bstate :=
  let wr' := add_word [] wr in
  do g <- build_loop c (Z.of_nat (length sents)) 0 wl wr' sents ([], []);
  Ok (mkBS (fst g) (snd g) wl wr').
(** 20-23; None and the empty set are the same to this code *)
Definition b_train (c : bconf) (sents wl wr : list str) : res bstate :=
  do ws <- match wl, wr with _ :: _, _ :: _ => Ok (wl, wr) | _, _ => b_scan c sents end;
  b_build c sents (fst ws) (snd ws).

(** ** save and load *)
Definition b_le (x y : str * Z) : bool := snd y <=? snd x.
(** 98-100, 103-105 *)
Definition key_line (kv : str * dict str Z) : str := u "> " ++ fst kv ++ u " (" ++ format_int (fold_left Z.add (map snd (snd kv)) 0) ++ u ")".
Definition item_line (kv : str * Z) : str := u "  - " ++ fst kv ++ u ": " ++ format_int (snd kv).
Definition graph_lines (g : graph) : list str := concat (map (fun kv => key_line kv :: map item_line (sort b_le (snd kv))) g).
(** 93-105: the contents of the file *)
Definition b_save (c : bconf) (st : bstate) : str :=
  concat (map (fun l => l ++ [10%N])
    ((format_int (b_lm c) ++ [SP] ++ format_int (b_rm c) ++ [SP] ++ format_int (b_mf c) ++ [SP] ++ format_int (if b_verbose c then 1 else 0)) ::
     u "# lrgraph" :: graph_lines (s_lr st) ++ [] :: u "# rlgraph" :: graph_lines (s_rl st))).

(** [s.split(': ')] *)
Fixpoint split_colon (s : str) : list str :=
  match s with
  | [] => [[]]
  | 58%N :: ((32%N :: s') as s0) => [] :: split_colon s'
  | x :: s' => match split_colon s' with w :: ws => (x :: w) :: ws | [] => [[x]] end
  end.
(** [s.rindex('(')]: the text before the last bracket *)
Fixpoint before_bracket (s : str) : option str :=
  match s with
  | [] => None
  | x :: s' => match before_bracket s' with Some b => Some (x :: b) | None => if N.eqb x 40 then Some [] else None end
  end.
(** a graph as the loader builds it: rows read before any key belong to None *)
Definition kgraph := dict (option str) (dict str Z).
(** 135-141, 147-153: a row that is not empty and does not end the loop *)
Definition load_row (kg : option str * kgraph) (row : str) : res (option str * kgraph) :=
  if eqb (firstn 2 row) (u "> ") then
    match before_bracket row with Some b => Ok (Some (strip (skipn 2 b)), snd kg) | None => Err ValueError end
  else if eqb (firstn 4 row) (u "  - ") then
    match split_colon (skipn 4 row) with
    | [k2; f] => do n <- parse_int f; Ok (fst kg, dset (snd kg) (fst kg) (dset (dgetd (snd kg) (fst kg) []) k2 n))
    | _ => Err ValueError
    end
  else Ok kg.
(** 130-141: until the rl-graph; with what is left of the file *)
Fixpoint load_lr (kg : option str * kgraph) (rows : list str) : res (option str * kgraph * list str) :=
  match rows with
  | [] => Ok (kg, [])
  | row0 :: rows' =>
      let row := removelast row0 in
      if eqb row [] then load_lr kg rows' else if eqb row (u "# rlgraph") then Ok (kg, rows') else do kg' <- load_row kg row; load_lr kg' rows'
  end.
(** 144-153: to the end *)
Fixpoint load_rl (kg : option str * kgraph) (rows : list str) : res (option str * kgraph) :=
  match rows with
  | [] => Ok kg
  | row0 :: rows' => let row := removelast row0 in if eqb row [] then load_rl kg rows' else do kg' <- load_row kg row; load_rl kg' rows'
  end.
(** what load leaves in the trainer *)
Record bloaded := mkBL { l_conf : bconf; l_lr : kgraph; l_rl : kgraph; l_wl : list (option str); l_wr : list (option str) }.
(** 107-159, given the contents of the file; None is StopIteration. Line 118 compares and does not assign: verbose is kept.
    A wrong number of parameters is a ValueError, too: the failure to format the message is caught (113-120). *)
Definition b_load (c : bconf) (content : str) : option (res bloaded) :=
  match file_lines content with
  | [] => None
  | first :: rest =>
      match mapM parse_int (split (strip first)) with
      | Ok [lm; rm; mf; _] =>
          match rest with
          | [] => None
          | kind :: rows =>
              Some (if eqb (strip kind) (u "# lrgraph") then
                      do lr <- load_lr (None, []) rows;
                      do rl <- load_rl (fst (fst lr), []) (snd lr);
                      Ok (mkBL (mkB lm rm mf (b_verbose c)) (snd (fst lr)) (snd rl) (dkeys (snd (fst lr))) (dkeys (snd rl)))
                    else Err ValueError)
          end
      | _ => Some (Err ValueError)
      end
  end.

(** ** train_hits (161-205): a method without self *)
(** the arguments it can get: [trainer.train_hits()] binds the trainer itself to lrgraph *)
Inductive harg := HGraph (g : graph) | HNone | HTrainer.
(** [len(x)] *)
Definition h_len (a : harg) : res graph := match a with HGraph g => Ok g | _ => Err TypeError end.
(** [sum({...})]: equal products are counted once *)
Definition set_sum (l : list Q) : Q := fold_left Qplus (fold_left (fun s x => if existsb (Qeq_bool x) s then s else s ++ [x]) l []) 0%Q.
(** 179, 186: the new rank of one word; [skip] leaves out the empty string *)
Definition h_rank (rank : dict str Q) (skip : bool) (row : dict str Z) : res Q :=
  do ps <- mapM (fun kn => match dget rank (fst kn) with Some q => Ok (inject_Z (snd kn) * q)%Q | None => Err KeyError end) (filter (fun kn => negb (skip && eqb (fst kn) [])) row);
  Ok (set_sum ps).
(** 162-166 *)
Definition h_normalize (g : dict str Q) (sum_of_rank df : Q) : res (dict str Q) :=
  let s := fold_left Qplus (map snd g) 0%Q in
  if Qeq_bool s 0 then Err ZeroDivisionError else
  match g with
  | [] => Err ZeroDivisionError
  | _ => Ok (map (fun wr => (fst wr, (df * sum_of_rank / s * snd wr + (1 - df) * sum_of_rank / inject_Z (Z.of_nat (length g)))%Q)) (filter (fun wr => negb (eqb (fst wr) [])) g))
  end.
(** 177-188: the first round, up to the test of self.verbose *)
Definition h_round (lr rl : graph) (rank_l rank_r : dict str Q) (sum_of_rank df : Q) : res (dict str Q * dict str Q) :=
  do nl <- mapM (fun kr => do q <- h_rank rank_r true (snd kr); Ok (fst kr, q)) lr;
  do nl' <- h_normalize nl sum_of_rank df;
  do nr <- mapM (fun kr => do q <- h_rank rank_l false (snd kr); Ok (fst kr, q)) (filter (fun kr => negb (eqb (fst kr) [])) rl);
  do nr' <- h_normalize nr sum_of_rank df;
  Ok (nl', nr').
(** 161-205. [lrgraph == None] reads self, which is not defined; so do lines 190 and 202 *)
Definition train_hits (lrgraph rlgraph : harg) (sum_of_rank df : Q) (max_iter : nat) (tolerance : Q) : res (dict str Q * dict str Q) :=
  match lrgraph with
  | HNone => Err NameError
  | _ =>
      do lr <- h_len lrgraph;
      do _ <- match lr with [] => Err ZeroDivisionError | _ => Ok tt end;
      let rank_l := map (fun kr => (fst kr, (sum_of_rank / inject_Z (Z.of_nat (length lr)))%Q)) lr in
      do rl <- h_len rlgraph;
      do _ <- match rl with [] => Err ZeroDivisionError | _ => Ok tt end;
      let rank_r := map (fun kr => (fst kr, (sum_of_rank / inject_Z (Z.of_nat (length rl)))%Q)) (filter (fun kr => negb (eqb (fst kr) [])) rl) in
      match max_iter with
      | O => Err NameError
      | S _ => do _ <- h_round lr rl rank_l rank_r sum_of_rank df; Err NameError
      end
  end.

(** ** _pos_extractor.py *)
(** a call with keyword arguments: a name that is not a parameter is a TypeError *)
Definition call_with {A} (params keywords : list str) (body : res A) : res A := if forallb (fun k => mem k params) keywords then body else Err TypeError.
(** noun/_noun_ver2.py:20-24 *)
Definition noun_v2_params : list str := [u "max_left_length"; u "max_right_length"; u "predictor_headers"; u "verbose"; u "min_num_of_features"; u "max_frequency_when_noun_is_eojeol"; u "eojeol_counter_filtering_checkpoint"; u "extract_compound"; u "extract_pos_feature"; u "extract_determiner"; u "ensure_normalized"; u "postprocessing"; u "logpath"].
(** postagger/_pos_extractor.py:41-51 *)
Definition pos_keywords : list str := [u "l_max_length"; u "r_max_length"; u "min_eojeol_count"; u "min_num_of_features"; u "max_count_when_noun_is_eojeol"; u "extract_compound"; u "logpath"; u "extract_pos_feature"; u "verbose"].
(** 22-28: whatever the rest of extract does *)
Definition pos_extractor_extract {A} (rest : res A) : res A := call_with noun_v2_params pos_keywords rest.
