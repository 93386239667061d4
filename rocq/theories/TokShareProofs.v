From Coq Require Import QArith Lia.
From Verif Require Import PyBase PyDict PySort PyText CountLemmas TokenizerModel LRTokModel TokShareModel TokShareSpec.
Open Scope nat_scope.
Lemma srun_snoc ops o : srun (ops ++ [o]) = fst (fst (sstep (srun ops) o)). Proof. unfold srun. rewrite fold_left_app. reflexivity. Qed.
Lemma put_length {A} (l : list A) : forall i x, length (put l i x) = length l.
Proof. induction l as [|y l IH]; intros [|i] x; cbn [put length]; try reflexivity. f_equal. apply IH. Qed.
Lemma put_nth {A} (l : list A) : forall i x j d, nth j (put l i x) d = if (i =? j) && (j <? length l) then x else nth j l d.
Proof.
  induction l as [|y l IH]; intros i x j d; cbn [put length].
  - rewrite andb_false_r. reflexivity.
  - destruct i as [|i], j as [|j]; cbn [nth put length Nat.eqb]; try reflexivity. rewrite IH. reflexivity.
Qed.
(** how many dicts a history makes *)
Fixpoint ndicts (ops : list sop) : nat := match ops with [] => 0 | SDict _ :: ops' => S (ndicts ops') | _ :: ops' => ndicts ops' end.
Lemma ndicts_app a b : ndicts (a ++ b) = ndicts a + ndicts b.
Proof. induction a as [|o a IH]; [reflexivity|]. cbn [app ndicts]. destruct o; rewrite IH; reflexivity. Qed.
Lemma made_at_app ops later : forall r, made_at r (ops ++ later) = match made_at r ops with Some (d, l) => Some (d, l ++ later) | None => made_at (r - ndicts ops) later end.
Proof.
  induction ops as [|o ops IH]; intros r; [cbn [app made_at ndicts]; rewrite Nat.sub_0_r; reflexivity|]. cbn [app made_at ndicts].
  destruct o; try exact (IH r). destruct r as [|r]; [reflexivity|]. exact (IH r).
Qed.
Lemma made_at_none ops : forall r, made_at r ops = None <-> ndicts ops <= r.
Proof.
  induction ops as [|o ops IH]; intros r; cbn [made_at ndicts]; [split; [lia|reflexivity]|].
  destruct o; try exact (IH r). destruct r as [|r]; [split; [congruence|lia]|]. rewrite IH. lia.
Qed.
Lemma contents_snoc ops o r : contents r (ops ++ [o]) =
  match o with
  | SDict d => if r =? ndicts ops then d else contents r ops
  | _ => if r <? ndicts ops then edit r (contents r ops) o else []
  end.
Proof.
  unfold contents. rewrite made_at_app. destruct (made_at r ops) as [[d l]|] eqn:E.
  - assert (L : r < ndicts ops) by (destruct (Nat.ltb_spec r (ndicts ops)) as [L|L]; [exact L|]; apply made_at_none in L; congruence).
    rewrite fold_left_app. cbn [fold_left]. destruct (Nat.ltb_spec r (ndicts ops)); [|lia]. destruct o; try reflexivity. destruct (Nat.eqb_spec r (ndicts ops)); [lia|]. reflexivity.
  - apply made_at_none in E. destruct (Nat.ltb_spec r (ndicts ops)); [lia|]. destruct o; try reflexivity. cbn [made_at].
    destruct (Nat.eqb_spec r (ndicts ops)) as [->|Ne]; [rewrite Nat.sub_diag; reflexivity|]. destruct (r - ndicts ops) eqn:D; [lia|]. reflexivity.
Qed.
Lemma contents_none ops r : ndicts ops <= r -> contents r ops = [].
Proof. intros L. unfold contents. apply made_at_none in L. rewrite L. reflexivity. Qed.
Lemma dpop_absent (d : dict str Q) w : dmem d w = false -> dpop d w = d.
Proof.
  unfold dmem. induction d as [|[k v] d IH]; intros M; [reflexivity|]. unfold dpop in *. cbn [dget filter fst] in *. destruct (eqb k w); [discriminate|]. cbn [negb]. f_equal. apply IH, M.
Qed.
(** the dicts of the world *)
Lemma dicts_ok ops : length (s_dicts (srun ops)) = ndicts ops /\ forall r, dict_of (srun ops) r = contents r ops.
Proof.
  induction ops as [|o ops IH] using rev_ind; [split; [reflexivity|intros [|r]; reflexivity]|]. destruct IH as [L C]. rewrite srun_snoc, ndicts_app. cbn [ndicts].
  set (W := srun ops) in *. assert (OUT : forall r, ndicts ops <= r -> dict_of W r = []) by (intros r G; rewrite C; apply contents_none, G).
  assert (SAME : ndicts [o] = 0 -> (forall r d, edit r d o = d) -> forall r, dict_of W r = if r <? ndicts ops then edit r (contents r ops) o else []).
  { intros _ Ed r. rewrite Ed, C. destruct (Nat.ltb_spec r (ndicts ops)); [reflexivity|apply contents_none; lia]. }
  destruct o as [d|r0 w x|r0 w|m|i s].
  - cbn [sstep fst s_dicts]. rewrite app_length, L. split; [reflexivity|]. intros r. rewrite contents_snoc. unfold dict_of. cbn [s_dicts].
    destruct (Nat.eqb_spec r (ndicts ops)) as [->|Ne].
    + rewrite app_nth2 by lia. rewrite L, Nat.sub_diag. reflexivity.
    + destruct (Nat.ltb_spec r (ndicts ops)) as [Lt|Ge]; [rewrite app_nth1 by lia; exact (C r)|]. rewrite nth_overflow by (rewrite app_length, L; cbn [length]; lia). symmetry. apply contents_none. lia.
  - cbn [sstep fst s_dicts]. rewrite put_length, L, Nat.add_0_r. split; [reflexivity|]. intros r. rewrite contents_snoc. unfold dict_of at 1. cbn [s_dicts edit]. rewrite put_nth, L. fold (dict_of W r).
    destruct (Nat.eqb_spec r0 r) as [->|Ne]; cbn [andb]; destruct (Nat.ltb_spec r (ndicts ops)); rewrite ?C; try reflexivity; apply contents_none; assumption.
  - cbn [sstep]. destruct (dmem (dict_of W r0) w) eqn:M; cbn [fst s_dicts].
    + rewrite put_length, L, Nat.add_0_r. split; [reflexivity|]. intros r. rewrite contents_snoc. unfold dict_of at 1. cbn [s_dicts edit]. rewrite put_nth, L. fold (dict_of W r).
      destruct (Nat.eqb_spec r0 r) as [->|Ne]; cbn [andb]; destruct (Nat.ltb_spec r (ndicts ops)); rewrite ?C; try reflexivity; apply contents_none; assumption.
    + rewrite Nat.add_0_r. split; [exact L|]. intros r. rewrite contents_snoc. cbn [edit]. rewrite C. destruct (Nat.ltb_spec r (ndicts ops)); [|apply contents_none; assumption].
      destruct (Nat.eqb_spec r0 r) as [->|Ne]; [|reflexivity]. symmetry. apply dpop_absent. rewrite <- C. exact M.
  - rewrite Nat.add_0_r. assert (E : s_dicts (fst (fst (sstep W (SMake m)))) = s_dicts W) by (cbn [sstep]; destruct (construct W m); reflexivity). split; [rewrite E; exact L|].
    intros r. rewrite contents_snoc. unfold dict_of. rewrite E. apply SAME; [reflexivity|]. intros; reflexivity.
  - rewrite Nat.add_0_r. assert (E : fst (fst (sstep W (STok i s))) = W) by (cbn [sstep]; destruct (nth_error (s_toks W) i); reflexivity). rewrite E. split; [exact L|].
    intros r. rewrite contents_snoc. apply SAME; [reflexivity|]. intros; reflexivity.
Qed.
Lemma dict_of_contents ops r : dict_of (srun ops) r = contents r ops. Proof. apply dicts_ok. Qed.
Lemma deref_then ops o : deref (srun ops) o = then_of ops o. Proof. destruct o; [apply dict_of_contents|reflexivity]. Qed.
Lemma arg_copied ops a : arg_of (srun ops) a = copied ops a. Proof. destruct a; [cbn; rewrite dict_of_contents|]; reflexivity. Qed.
Lemma keep_looked before now o : deref (srun now) (keep (srun before) o) = looked_up before now o.
Proof.
  destruct o as [r|]; [|reflexivity]. cbn [keep looked_up]. rewrite dict_of_contents. destruct (contents r before); [reflexivity|]. apply dict_of_contents.
Qed.
Lemma construct_ok before m : match construct (srun before) m with Ok t => refuses m = false /\ forall now s, answer_of (srun now) t s = expected before m now s
                                                              | Err e => refuses m = true /\ e = ZeroDivisionError end.
Proof.
  destruct m as [sc ds|sc ml ds|r|sc|Dl Dr Pl Pr g b p]; cbn [construct refuses].
  1-4: split; [reflexivity|]; intros now s; cbn [answer_of expected]; rewrite ?keep_looked, ?dict_of_contents; reflexivity.
  rewrite !arg_copied, !deref_then. unfold lr_new.
  assert (X : existsb (fun lr : str * dict str Q => match snd lr with [] => false | _ => Qeq_bool (fold_left (fun s kv => s + snd kv)%Q (snd lr) 0%Q) 0%Q end) g
    = negb (forallb (fun lr : str * dict str Q => norm_ok (snd lr)) g)).
  { induction g as [|[l row] g IH]; [reflexivity|]. cbn [existsb forallb]. rewrite negb_andb, IH. f_equal. cbn [snd]. unfold norm_ok. destruct row; [reflexivity|]. rewrite negb_involutive. reflexivity. }
  rewrite X. destruct (forallb _ g) eqn:F; cbn [negb bind].
  - destruct (match b with Some f => f g | None => ([], []) end) as [bl br] eqn:B. cbn [bind fst snd]. split; [reflexivity|]. intros now s. cbn [answer_of expected]. rewrite !keep_looked. unfold lr_new. rewrite F, B. reflexivity.
  - split; reflexivity.
Qed.
(** the tokenizers of the world *)
Lemma born_snoc ops o : forall i before, born i before (ops ++ [o]) = match born i before ops with Some x => Some x | None => born (i - length (filter (fun o => match o with SMake m => negb (refuses m) | _ => false end) ops)) (before ++ ops) [o] end.
Proof.
  induction ops as [|o' ops IH]; intros i before; [cbn [app filter length born]; rewrite app_nil_r, Nat.sub_0_r; reflexivity|].
  cbn [app]. assert (A : before ++ o' :: ops = (before ++ [o']) ++ ops) by (rewrite <- app_assoc; reflexivity). rewrite A.
  destruct o' as [d|r w x|r w|m|j s]; cbn [born filter]; try exact (IH i (before ++ [_])).
  destruct (refuses m) eqn:R; cbn [negb]; [exact (IH i (before ++ [_]))|]. destruct i as [|i]; [reflexivity|]. cbn [length Nat.sub]. exact (IH i (before ++ [_])).
Qed.
Lemma born_none ops : forall i before, born i before ops = None <-> length (filter (fun o => match o with SMake m => negb (refuses m) | _ => false end) ops) <= i.
Proof.
  induction ops as [|o ops IH]; intros i before; [cbn; split; [lia|reflexivity]|]. cbn [born filter]. destruct o as [d|r w x|r w|m|j s]; try apply IH.
  destruct (refuses m) eqn:R; cbn [negb]; [apply IH|]. destruct i as [|i]; cbn [length]; [split; [congruence|lia]|]. rewrite IH. lia.
Qed.
Lemma toks_ok ops : length (s_toks (srun ops)) = length (filter (fun o => match o with SMake m => negb (refuses m) | _ => false end) ops)
  /\ forall i, nth_error (s_toks (srun ops)) i = match born i [] ops with Some (before, m) => match construct (srun before) m with Ok t => Some t | Err _ => None end | None => None end.
Proof.
  induction ops as [|o ops IH] using rev_ind; [split; [reflexivity|intros [|i]; reflexivity]|]. destruct IH as [L T]. rewrite srun_snoc, filter_app, app_length. set (W := srun ops) in *.
  assert (SAME : s_toks (fst (fst (sstep W o))) = s_toks W -> (forall i b, born i b [o] = None) -> length (filter (fun o => match o with SMake m => negb (refuses m) | _ => false end) [o]) = 0 ->
    length (s_toks (fst (fst (sstep W o)))) = length (filter (fun o => match o with SMake m => negb (refuses m) | _ => false end) ops) + length (filter (fun o => match o with SMake m => negb (refuses m) | _ => false end) [o])
    /\ forall i, nth_error (s_toks (fst (fst (sstep W o)))) i = match born i [] (ops ++ [o]) with Some (before, m) => match construct (srun before) m with Ok t => Some t | Err _ => None end | None => None end).
  { intros E B Z. rewrite E, Z, Nat.add_0_r. split; [exact L|]. intros i. rewrite born_snoc, B, T. destruct (born i [] ops) as [[b m]|]; reflexivity. }
  destruct o as [d|r w x|r w|m|j s].
  - apply SAME; reflexivity.
  - apply SAME; reflexivity.
  - apply SAME; try reflexivity. cbn [sstep]. destruct (dmem (dict_of W r) w); reflexivity.
  - pose proof (construct_ok ops m) as K. fold W in K. destruct (construct W m) as [t|e] eqn:C.
    + destruct K as [R _]. cbn [sstep filter]. rewrite C. cbn [fst s_toks negb]. rewrite R. cbn [negb length]. split; [rewrite app_length; cbn [length]; lia|]. intros i. rewrite born_snoc.
      destruct (Nat.lt_ge_cases i (length (s_toks W))) as [Lt|Ge].
      * rewrite nth_error_app1 by exact Lt. rewrite T. destruct (born i [] ops) as [[b m']|] eqn:B; [reflexivity|]. apply born_none in B. lia.
      * rewrite nth_error_app2 by exact Ge. rewrite (proj2 (born_none ops i [])) by lia. rewrite <- L. cbn [born app]. rewrite R. destruct (i - length (s_toks W)) as [|k]; [cbn [nth_error]; fold W; rewrite C; reflexivity|]. destruct k; reflexivity.
    + destruct K as [R _]. apply SAME; [cbn [sstep]; rewrite C; reflexivity|intros i b; cbn [born]; rewrite R; reflexivity|cbn [filter]; rewrite R; reflexivity].
  - apply SAME; try reflexivity. cbn [sstep]. destruct (nth_error (s_toks W) j); reflexivity.
Qed.
Lemma ask_expected ops i s : ask ops i s = match born i [] ops with Some (before, m) => Some (expected before m ops s) | None => None end.
Proof.
  unfold ask. cbn [sstep]. rewrite (proj2 (toks_ok ops) i). destruct (born i [] ops) as [[before m]|] eqn:B; [|reflexivity].
  pose proof (construct_ok before m) as K. destruct (construct (srun before) m) as [t|e]; [cbn [snd]; rewrite (proj2 K); reflexivity|].
  exfalso. destruct K as [R _]. clear -B R. revert B. generalize (@nil sop) as b0. revert i. induction ops as [|o ops IH]; intros i b0 B; [discriminate|]. cbn [born] in B.
  destruct o as [d|r w x|r w|m'|j s']; try exact (IH _ _ B). destruct (refuses m') eqn:R'; [exact (IH _ _ B)|]. destruct i; [|exact (IH _ _ B)]. congruence.
Qed.
