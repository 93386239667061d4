(** * C94: the modes of SimpleTagger.tag *)
From Coq Require Import List Bool Arith Lia QArith Lqa Permutation Sorted.
Import ListNotations.
From Verif Require Import PyBase PyDict PySort SortLemmas PyText TaggerModel TaggerProofs TaggerProps TagModeModel.

(** ** flatten only concatenates, debug only adds a second component *)
Lemma mapM_map_res {A B C} (f : A -> res B) (g : A -> res C) (h : B -> C) : (forall x, g x = match f x with Ok y => Ok (h y) | Err e => Err e end) ->
  forall l, mapM g l = match mapM f l with Ok ys => Ok (map h ys) | Err e => Err e end.
Proof.
  intros H. induction l as [|x l IH]; [reflexivity|]. cbn [mapM]. rewrite H, IH. destruct (f x); cbn [bind]; [|reflexivity]. destruct (mapM f l); reflexivity.
Qed.
Lemma lr_scored (ev : lr -> Q) cs : scored ev (fun c => Some c) cs = Ok (map (fun c => (c, ev c)) cs).
Proof. induction cs as [|c cs IH]; [reflexivity|]. cbn [scored map]. rewrite IH. reflexivity. Qed.
Lemma lr_one g w p post debug e : tag_one (lr_generate g) (lr_evaluate w p) (fun cs => Some (lr_select_best (lr_evaluate w p) cs)) (fun c => Some c) post debug e
  = Ok (flatten_lr (match post with Some q => q e (lr_select_best (lr_evaluate w p) (lr_generate g e)) | None => lr_select_best (lr_evaluate w p) (lr_generate g e) end),
        if debug then debug_candidates (map (fun c => (c, lr_evaluate w p c)) (lr_generate g e)) else []).
Proof. unfold tag_one, tag_eojeol. cbn [bind]. rewrite lr_scored. destruct debug; reflexivity. Qed.

Theorem C94_lr_modes : forall g w p post s, exists wss, tag_lr g w p post s = Ok wss /\
  forall flatten debug, exists dbg, tag_lr_mode g w p post flatten debug s = Ok (if flatten then Flat (concat wss) else Nested wss, dbg) /\ (dbg = None <-> debug = false).
Proof.
  intros g w p post s. unfold tag_lr, tag_sentence, tag_lr_mode, tag_mode.
  set (words := fun e => flatten_lr (match post with Some q => q e (lr_select_best (lr_evaluate w p) (lr_generate g e)) | None => lr_select_best (lr_evaluate w p) (lr_generate g e) end)).
  exists (map words (split s)). split.
  - apply mapM_pure. intros; reflexivity.
  - intros flatten debug.
    rewrite (mapM_pure _ (fun e => (words e, if debug then debug_candidates (map (fun c => (c, lr_evaluate w p c)) (lr_generate g e)) else []))) by (intros; apply lr_one). cbn [bind]. rewrite map_map. cbn [fst]. eexists. split; [reflexivity|]. destruct debug; split; intros H; (reflexivity || discriminate).
Qed.
Print Assumptions C94_lr_modes.

(** ** the candidates shown in debug mode: all of them with their scores, by position, then by score *)
Lemma debug_total x y : debug_le x y = true \/ debug_le y x = true.
Proof.
  unfold debug_le. destruct (Nat.ltb_spec (b_of (fst x)) (b_of (fst y))); [left; reflexivity|]. destruct (Nat.ltb_spec (b_of (fst y)) (b_of (fst x))); [right; reflexivity|].
  assert (b_of (fst x) = b_of (fst y)) as -> by lia. rewrite Nat.eqb_refl. cbn [andb orb]. rewrite !Qle_bool_iff. destruct (Qlt_le_dec (snd x) (snd y)); [left; lra|right; lra].
Qed.
Lemma debug_le_iff x y : debug_le x y = true <-> b_of (fst x) < b_of (fst y) \/ b_of (fst x) = b_of (fst y) /\ (snd x <= snd y)%Q.
Proof. unfold debug_le. rewrite orb_true_iff, andb_true_iff, Nat.ltb_lt, Nat.eqb_eq, Qle_bool_iff. reflexivity. Qed.
Lemma debug_trans x y z : debug_le x y = true -> debug_le y z = true -> debug_le x z = true.
Proof. rewrite !debug_le_iff. intros [A|[A A']] [B|[B B']]; [left; lia|left; lia|left; lia|right; split; [lia|lra]]. Qed.

Theorem C94_lr_debug : forall g w p post flatten s, exists out dbg, tag_lr_mode g w p post flatten true s = Ok (out, Some dbg) /\
  Forall2 (fun e d => Permutation d (map (fun c => (c, lr_evaluate w p c)) (lr_generate g e)) /\
    StronglySorted (fun x y : lr * Q => b_of (fst x) < b_of (fst y) \/ b_of (fst x) = b_of (fst y) /\ (snd x <= snd y)%Q) d /\
    (* of two candidates with the same position and score the one generated first comes first *)
    forall b q, map fst (filter (fun x : lr * Q => (b_of (fst x) =? b) && Qeq_bool (snd x) q) d) = filter (fun c => (b_of c =? b) && Qeq_bool (lr_evaluate w p c) q) (lr_generate g e))
  (split s) dbg.
Proof.
  intros g w p post flatten s. unfold tag_lr_mode, tag_mode.
  set (words := fun e => flatten_lr (match post with Some q => q e (lr_select_best (lr_evaluate w p) (lr_generate g e)) | None => lr_select_best (lr_evaluate w p) (lr_generate g e) end)).
  rewrite (mapM_pure _ (fun e => (words e, debug_candidates (map (fun c => (c, lr_evaluate w p c)) (lr_generate g e))))) by (intros; apply lr_one). cbn [bind]. eexists _, _. split; [reflexivity|]. rewrite map_map. cbn [snd].
  induction (split s) as [|e es IH]; cbn [map]; constructor; [|exact IH]. unfold debug_candidates. set (sc := map (fun c => (c, lr_evaluate w p c)) (lr_generate g e)).
  split; [apply sort_perm|]. split.
  - pose proof (sort_sorted debug_le debug_total debug_trans sc) as SS. revert SS. unfold sorted_le. generalize (sort debug_le sc). intros l SS. induction SS as [|x l SS IS F]; constructor; [exact IS|].
    apply Forall_forall. intros y Y. rewrite Forall_forall in F. apply debug_le_iff, F, Y.
  - intros b q.
    assert (EQ : filter (fun x : lr * Q => (b_of (fst x) =? b) && Qeq_bool (snd x) q) (sort debug_le sc) = filter (fun x : lr * Q => (b_of (fst x) =? b) && Qeq_bool (snd x) q) sc).
    { set (k := (mkLR [] None [] None b 0 0, q)).
      assert (X : forall x : lr * Q, (b_of (fst x) =? b) && Qeq_bool (snd x) q = equivb debug_le k x).
      { intros x. unfold equivb. destruct ((b_of (fst x) =? b) && Qeq_bool (snd x) q) eqn:E; symmetry.
        + apply andb_true_iff in E as [E1 E2]. apply Nat.eqb_eq in E1. apply Qeq_bool_iff in E2. apply andb_true_iff. rewrite !debug_le_iff. unfold k. cbn [fst snd b_of]. split; right; (split; [lia|lra]).
        + apply andb_false_iff. destruct (debug_le k x) eqn:L1; [|left; reflexivity]. destruct (debug_le x k) eqn:L2; [|right; reflexivity]. exfalso. rewrite debug_le_iff in L1, L2. unfold k in L1, L2. cbn [fst snd b_of] in L1, L2.
          assert (b_of (fst x) = b) as B by lia. rewrite B, Nat.eqb_refl in E. cbn [andb] in E. assert ((snd x == q)%Q) as SQ by (destruct L1 as [?|[_ L1]]; [lia|]; destruct L2 as [?|[_ L2]]; [lia|]; lra).
          apply Qeq_bool_iff in SQ. congruence. }
      rewrite !(filter_ext _ _ X). apply (sort_stable debug_le debug_total debug_trans). }
    rewrite EQ. unfold sc. clear EQ sc. induction (lr_generate g e) as [|c cs IC]; [reflexivity|]. cbn [map filter fst snd]. destruct ((b_of c =? b) && Qeq_bool (lr_evaluate w p c) q); cbn [map fst]; rewrite IC; reflexivity.
Qed.
Print Assumptions C94_lr_debug.

(** ** EojeolTemplateMatcher: same for flatten; debug never works on a sentence with a word *)
Theorem C94_simple_modes : forall g w post s flatten, exists wss, tag_simple g w post s = Ok wss /\
  tag_simple_mode g w post flatten false s = Ok (if flatten then Flat (concat wss) else Nested wss, None).
Proof.
  intros g w post s flatten. unfold tag_simple_mode, tag_mode, tag_simple, tag_sentence.
  assert (NE : forall e, exists c, select_best (eojeol_evaluate w) (eojeol_generate g e) = Some c).
  { intros e. destruct (select_best (eojeol_evaluate w) (eojeol_generate g e)) as [c|] eqn:S; [exists c; reflexivity|]. apply select_best_none in S. exfalso. revert S. unfold eojeol_generate.
    destruct (map (fun tag => [mkLR e (Some tag) [] None 0 (length e) (length e)]) (filter (fun tag => mem tag (single_tags g)) (get_pos (em_dict g) e))); discriminate. }
  set (tag := tag_eojeol (fun e => select_best (eojeol_evaluate w) (eojeol_generate g e)) post).
  assert (OK : exists wss, mapM tag (split s) = Ok wss).
  { induction (split s) as [|e es (ys & IH)]; [exists []; reflexivity|]. cbn [mapM]. rewrite IH. unfold tag, tag_eojeol. destruct (NE e) as (c & ->). cbn [bind]. eexists. reflexivity. }
  destruct OK as (wss & E). exists wss. split; [exact E|].
  rewrite (mapM_map_res tag _ (fun ws => (ws, []))).
  - rewrite E. cbn [bind]. rewrite map_map. cbn [fst]. rewrite map_id. reflexivity.
  - intros e. unfold tag_one, tag, tag_eojeol. cbn [bind]. destruct (select_best (eojeol_evaluate w) (eojeol_generate g e)); reflexivity.
Qed.
Print Assumptions C94_simple_modes.
Theorem C94_simple_debug : forall g w post s flatten,
  (split s = [] -> tag_simple_mode g w post flatten true s = Ok (if flatten then Flat [] else Nested [], Some [])) /\
  (split s <> [] -> tag_simple_mode g w post flatten true s = Err AttributeError).
Proof.
  intros g w post s flatten. unfold tag_simple_mode, tag_mode. split.
  - intros ->. reflexivity.
  - destruct (split s) as [|e es]; [contradiction|]. intros _. cbn [mapM].
    assert (E : tag_one (eojeol_generate g) (eojeol_evaluate w) (select_best (eojeol_evaluate w)) (fun _ => None) post true e = Err AttributeError); [|rewrite E; reflexivity].
    unfold tag_one, tag_eojeol. destruct (eojeol_generate g e) as [|c cs] eqn:G.
    + exfalso. revert G. unfold eojeol_generate.
      destruct (map (fun tag => [mkLR e (Some tag) [] None 0 (length e) (length e)]) (filter (fun tag => mem tag (single_tags g)) (get_pos (em_dict g) e))); discriminate.
    + destruct (select_best (eojeol_evaluate w) (c :: cs)) as [b|] eqn:S; [reflexivity|]. apply select_best_none in S. discriminate.
Qed.
Print Assumptions C94_simple_debug.

(** ** without a postprocessor every tagged word is a part of a candidate that debug mode shows *)
Theorem C94_words_shown : forall g w p s wss dbg, tag_lr_mode g w p None false true s = Ok (Nested wss, Some dbg) ->
  Forall2 (fun ws d => forall word tag, In (word, tag) ws -> word <> [] /\ exists c q, In (c, q) d /\ ((word = l_of c /\ tag = l_tag c) \/ (word = r_of c /\ tag = r_tag c))) wss dbg.
Proof.
  intros g w p s wss dbg. unfold tag_lr_mode, tag_mode.
  set (words := fun e => flatten_lr (lr_select_best (lr_evaluate w p) (lr_generate g e))).
  rewrite (mapM_pure _ (fun e => (words e, debug_candidates (map (fun c => (c, lr_evaluate w p c)) (lr_generate g e))))) by (intros; apply lr_one). cbn [bind]. rewrite !map_map. cbn [fst snd]. intros H.
  assert (wss = map words (split s)) as -> by (injection H; intros; symmetry; assumption). assert (dbg = map (fun e => debug_candidates (map (fun c => (c, lr_evaluate w p c)) (lr_generate g e))) (split s)) as -> by (injection H; intros; symmetry; assumption). clear H.
  induction (split s) as [|e es IH]; cbn [map]; constructor; [|exact IH]. intros word tag I. unfold words, flatten_lr in I. apply in_concat in I as (l & L & I). apply in_map_iff in L as (c & <- & C).
  assert (G : In c (lr_generate g e)).
  { rewrite lr_select_eq in C. unfold sort_index2 in C. apply sort_In in C. apply greedy_sub in C. apply in_map_iff in C as ((c', q) & <- & C). apply sort_In in C. apply in_map_iff in C as (c'' & E & C). cbn [fst]. congruence. }
  assert (D : In (c, lr_evaluate w p c) (debug_candidates (map (fun c => (c, lr_evaluate w p c)) (lr_generate g e)))).
  { unfold debug_candidates. apply sort_In. apply in_map_iff. exists c. split; [reflexivity|exact G]. }
  apply in_app_or in I as [I|I].
  - destruct (l_of c) as [|x t] eqn:LC; [destruct I|]. destruct I as [I|[]]. assert (word = x :: t) as -> by congruence. split; [discriminate|]. exists c, (lr_evaluate w p c). split; [exact D|]. left. split; congruence.
  - destruct (r_of c) as [|x t] eqn:RC; [destruct I|]. destruct I as [I|[]]. assert (word = x :: t) as -> by congruence. split; [discriminate|]. exists c, (lr_evaluate w p c). split; [exact D|]. right. split; congruence.
Qed.
Print Assumptions C94_words_shown.

Example C94_ex : exists dbg, tag_lr_mode (new_lr_matcher ex_d [] [] ex_ord) lr_weights [] None false true (u "아이의노래방는 아이") =
   Ok (Nested [[(u "노래방", Some (u "Noun")); (u "는", Some (u "Josa")); (u "아이", Some (u "Noun")); (u "의", Some (u "Josa"))]; [(u "아이", Some (u "Noun"))]], Some dbg) /\
   map (map (fun x => (l_of (fst x), r_of (fst x), b_of (fst x)))) dbg = [[(u "아이", [], 0); (u "아이", u "의", 0); (u "노래", [], 3); (u "노래방", [], 3); (u "노래방", u "는", 3)]; [(u "아이", [], 0)]].
Proof. eexists. split; [vm_compute; reflexivity|]. vm_compute. reflexivity. Qed.
Example C94_ex_simple : tag_simple_mode (mkEM ex_d [u "Noun"] []) eojeol_weights None true true (u "아이") = Err AttributeError.
Proof. vm_compute. reflexivity. Qed.
