(** * Reading a torn file of EojeolPatternTrainer: the whole file *)
From Coq Require Import List ZArith NArith QArith Lia Permutation Sorted.
Import ListNotations.
From Verif Require Import PyBase PyDict PySort PyText PyFile SortLemmas UtilsModel UtilsSpec UtilsProofs NounModel BuilderModel BuilderSpec BuilderProofs BuilderProofs2 BuilderProps CrashSpec CrashProofs CrashProofs2 BuilderCrashSpec BuilderCrashProofs.
Open Scope Z_scope.

(** ** the rows of a graph *)
Definition rows_of (g : graph) : list brow :=
  concat (map (fun kv => KeyRow (fst kv) (fold_left Z.add (map snd (snd kv)) 0) :: map (fun rn => PairRow (fst kv) (fst rn) (snd rn)) (sort b_le (snd kv))) g).
Lemma graph_lines_rows g : graph_lines g = map row_text (rows_of g).
Proof.
  unfold graph_lines, rows_of. induction g as [|[k row] g IH]; [reflexivity|]. cbn [map concat fst snd]. rewrite map_app, <- IH. cbn [map app]. f_equal. f_equal. rewrite map_map. apply map_ext. intros [r n]. reflexivity.
Qed.
Lemma keyed_pairs l L cur : cur = Some l -> keyed cur (map (fun rn : str * Z => PairRow l (fst rn) (snd rn)) L).
Proof. intros ->. induction L as [|x L IH]; cbn [map keyed]; auto. Qed.
Lemma rows_keyed g : forall cur, keyed cur (rows_of g).
Proof.
  unfold rows_of. induction g as [|[k row] g IH]; intros cur; [exact Logic.I|]. cbn [map concat fst snd app keyed]. apply keyed_app. split; [apply keyed_pairs; reflexivity|]. apply IH.
Qed.
Lemma rows_pairs g l r n : In (l, r, n) (pairs_of (rows_of g)) <-> holds_pair g l r n.
Proof.
  unfold rows_of, holds_pair. induction g as [|[k row] g IH]; [cbn; split; [tauto|intros (rd & [] & _)]|]. cbn [map concat fst snd]. rewrite pairs_of_app, in_app_iff, IH.
  assert (E : In (l, r, n) (pairs_of (KeyRow k (fold_left Z.add (map snd row) 0) :: map (fun rn : str * Z => PairRow k (fst rn) (snd rn)) (sort b_le row))) <-> l = k /\ In (r, n) row).
  { unfold pairs_of. cbn [map concat app]. rewrite map_map. split.
    - intros I. apply in_concat in I as (x & I & J). apply in_map_iff in I as ([r0 n0] & <- & I). cbn [fst snd] in J. destruct J as [J|[]]. apply sort_In in I. injection J as <- <- <-. auto.
    - intros [-> I]. apply in_concat. exists [(k, r, n)]. split; [|left; reflexivity]. apply in_map_iff. exists (r, n). split; [reflexivity|apply sort_In, I]. }
  rewrite E. split.
  - intros [[-> I]|(rd & I & J)]; [exists row; split; [left; reflexivity|exact I]|exists rd; split; [right; exact I|exact J]].
  - intros (rd & [I|I] & J); [left; injection I as <- <-; auto|right; exists rd; auto].
Qed.
Lemma rows_distinct g : is_graph g -> distinct_pairs (pairs_of (rows_of g)).
Proof.
  intros [W F]. unfold distinct_pairs. revert F. induction g as [|[k row] g IH]; intros F; [constructor|]. cbn [map fst] in W. inversion W as [|? ? NI W']; subst.
  inversion F as [|? ? F1 F']; subst. cbn [snd] in F1.
  unfold rows_of. cbn [map concat fst snd]. rewrite pairs_of_app, map_app. fold (rows_of g).
  assert (E : map (fun t : pair3 => (t_l t, t_r t)) (pairs_of (KeyRow k (fold_left Z.add (map snd row) 0) :: map (fun rn : str * Z => PairRow k (fst rn) (snd rn)) (sort b_le row))) = map (fun r => (k, r)) (map fst (sort b_le row))).
  { unfold pairs_of. cbn [map concat app]. rewrite map_map. induction (sort b_le row) as [|[r n] L IHL]; [reflexivity|]. cbn [map concat app fst snd]. unfold t_l at 1, t_r at 1. cbn [fst snd]. f_equal. exact IHL. }
  rewrite E. clear E. assert (N1 : NoDup (map (fun r => (k, r)) (map fst (sort b_le row)))).
  { apply FinFun.Injective_map_NoDup; [intros x y Q; congruence|]. apply (Permutation_NoDup (l := map fst row)); [apply Permutation_map, Permutation_sym, sort_perm|]. exact F1. }
  specialize (IH W' F'). revert N1. induction (map (fun r => (k, r)) (map fst (sort b_le row))) as [|x L IHL] eqn:EL; intros N1; [exact IH|].
  assert (D : forall y, In y (map (fun r => (k, r)) (map fst (sort b_le row))) -> ~ In y (map (fun t : pair3 => (t_l t, t_r t)) (pairs_of (rows_of g)))).
  { intros y I J. apply in_map_iff in I as (r & <- & _). apply in_map_iff in J as ([[l r'] n] & Q & J). unfold t_l, t_r in Q. cbn [fst snd] in Q. injection Q as -> ->. apply rows_pairs in J as (rd & J & _). apply NI. apply in_map_iff. exists (k, rd). auto. }
  rewrite EL in D. clear IHL EL. revert N1 D. generalize (x :: L). intros M. induction M as [|y M IHM]; intros N1 D; [exact IH|]. inversion N1 as [|? ? N2 N3]; subst. cbn [app]. constructor.
  - intros I. apply in_app_or in I as [I|I]; [exact (N2 I)|]. exact (D y (or_introl eq_refl) I).
  - apply IHM; [exact N3|]. intros z I. apply D. right. exact I.
Qed.
Lemma rows_ok g : clean g -> (forall l r n, holds_pair g l r n -> 0 < n) -> Forall row_ok (rows_of g).
Proof.
  intros [_ C] P. apply Forall_forall. intros b I. unfold rows_of in I. apply in_concat in I as (L & I & J). apply in_map_iff in I as ([k row] & <- & I). destruct (C k row I) as [C1 C2]. cbn [fst snd] in J. destruct J as [<-|J]; [exact C1|].
  apply in_map_iff in J as ([r n] & <- & J). apply sort_In in J. cbn [fst snd row_ok]. split; [apply (C2 r n J)|]. apply (P k r n). exists row. auto.
Qed.
Lemma row_ok_nl b : row_ok b -> no_nl (row_text b).
Proof.
  assert (D : forall n, no_nl (format_int n)) by (intros n; apply nospace_no_nl, format_int_word).
  assert (A : forall a b, no_nl a -> no_nl b -> no_nl (a ++ b)) by (intros a b' H1 H2; apply Forall_app; auto).
  assert (L : forall s : str, forallb (fun c => negb (N.eqb c 10) && negb (N.eqb c 13)) s = true -> no_nl s).
  { intros s H. apply Forall_forall. intros c I. rewrite forallb_forall in H. specialize (H c I). apply andb_true_iff in H as [H1 H2]. apply negb_true_iff, N.eqb_neq in H1. apply negb_true_iff, N.eqb_neq in H2. auto. }
  destruct b as [k z|k k' n]; cbn [row_ok row_text].
  - intros NS. repeat apply A; try apply D; try (apply L; reflexivity). apply nospace_no_nl, NS.
  - intros [NS _]. repeat apply A; try apply D; try (apply L; reflexivity). apply nospace_no_nl, NS.
Qed.
Lemma row_not_mark b q : piece q (row_text b) -> removelast q <> u "# rlgraph".
Proof.
  intros P. rewrite (torn_text _ _ P). destruct (length q - 1)%nat as [|m]; [discriminate|]. destruct b; cbn [row_text]; [change (u "> ") with [62%N; 32%N]|change (u "  - ") with [32%N; 32%N; 45%N; 32%N]]; cbn [app firstn]; intros E; injection E as E _; discriminate.
Qed.
Lemma row_text_form b : row_text b <> [] /\ row_text b <> u "# rlgraph". Proof. destruct b; split; discriminate. Qed.

(** ** the first line *)
Lemma head_words c : split (head_text c) = [format_int (b_lm c); format_int (b_rm c); format_int (b_mf c); format_int (if b_verbose c then 1 else 0)].
Proof.
  assert (W : forall n, word (format_int n)) by apply format_int_word. unfold head_text. cbn [app]. rewrite !split_word_sp by (try apply W; reflexivity). rewrite split_word by apply W. reflexivity.
Qed.
Lemma head_nl c : no_nl (head_text c).
Proof.
  assert (D : forall n, no_nl (format_int n)) by (intros n; apply nospace_no_nl, format_int_word).
  assert (A : forall a b, no_nl a -> no_nl b -> no_nl (a ++ b)) by (intros a b' H1 H2; apply Forall_app; auto). assert (SPN : no_nl [SP]) by (repeat constructor; discriminate). unfold head_text. repeat apply A; auto.
Qed.
Lemma head_parse c : mapM parse_int (split (head_text c)) = Ok [b_lm c; b_rm c; b_mf c; if b_verbose c then 1 else 0].
Proof. rewrite head_words. cbn [mapM]. rewrite !parse_format_int. reflexivity. Qed.
Lemma few_words w q : nospace w -> piece q w -> (length (split q) <= 1)%nat.
Proof.
  intros F [t E]. assert (NS : nospace q) by (unfold nospace in *; rewrite E in F; apply Forall_app in F; tauto). destruct q as [|x q]; [cbn; lia|]. rewrite split_word; [cbn; lia|]. split; [discriminate|exact NS].
Qed.
Lemma more_words w s q (m : nat) : word w -> (forall q', piece q' s -> (length (split q') <= m)%nat) -> piece q (w ++ [SP] ++ s) -> (length (split q) <= S m)%nat.
Proof.
  intros W H P. apply piece_app in P as [(t & E)|(q1 & -> & P)].
  - pose proof (few_words w q (proj2 W) (ex_intro _ t E)). lia.
  - apply piece_app in P as [(t & E)|(q2 & -> & P)].
    + destruct q1 as [|x q1]; [rewrite app_nil_r, split_word by exact W; cbn; lia|]. destruct q1 as [|y q1]; [|discriminate]. injection E as <- _. rewrite split_word_sp by (try exact W; reflexivity). cbn; lia.
    + cbn [app]. rewrite split_word_sp by (try exact W; reflexivity). cbn [length]. specialize (H q2 P). lia.
Qed.
Lemma torn_head c q : piece q (head_text c) -> q <> head_text c -> (length (split q) <= 3)%nat.
Proof.
  intros [t E] NE. assert (W : forall n, word (format_int n)) by apply format_int_word.
  assert (V : exists x, format_int (if b_verbose c then 1 else 0) = [x]) by (destruct (b_verbose c); eexists; reflexivity). destruct V as [x V].
  assert (P : piece q (format_int (b_lm c) ++ [SP] ++ format_int (b_rm c) ++ [SP] ++ format_int (b_mf c) ++ [SP] ++ [])).
  { destruct t as [|y t] using rev_ind; [rewrite app_nil_r in E; congruence|]. clear IHt. exists t. unfold head_text in E. rewrite V, !app_assoc in E. apply app_inj_tail in E as [E _]. rewrite !app_assoc, app_nil_r. exact E. }
  clear V E. revert P. apply more_words; [apply W|]. intros q1. apply more_words; [apply W|]. intros q2. apply more_words; [apply W|]. intros q3 [t3 E3]. destruct q3; [cbn; lia|discriminate].
Qed.
Lemma mapM_length {A B} (f : A -> res B) l ys : mapM f l = Ok ys -> length ys = length l.
Proof. revert ys. induction l as [|x l IH]; intros ys; cbn [mapM]; [intros [= <-]; reflexivity|]. destruct (f x); [|discriminate]. cbn [bind]. destruct (mapM f l) as [zs|]; [|discriminate]. cbn [bind]. intros [= <-]. cbn [length]. rewrite (IH zs eq_refl). reflexivity. Qed.

(** ** the file behind its first two lines *)
Definition nl (b : str) : str := b ++ [10%N].
Lemma load_file c c' X q : Forall no_nl X -> no_nl q ->
  b_load c' (written (head_text c :: u "# lrgraph" :: X) ++ q) =
  Some (do lr <- load_lr (None, []) (map (fun b => b ++ [10%N]) X ++ match q with [] => [] | _ => [q] end); do rl <- load_rl (fst (fst lr), []) (snd lr);
        Ok (mkBL (mkB (b_lm c) (b_rm c) (b_mf c) (b_verbose c')) (snd (fst lr)) (snd rl) (dkeys (snd (fst lr))) (dkeys (snd rl)))).
Proof.
  intros FX Q. unfold b_load. rewrite cut_lines; [|constructor; [apply head_nl|constructor; [repeat constructor; discriminate|exact FX]]|exact Q]. cbn [map app].
  rewrite split_strip, split_snoc by reflexivity. rewrite head_parse. replace (strip (u "# lrgraph" ++ [10%N])) with (u "# lrgraph") by reflexivity. rewrite eqb_refl. reflexivity.
Qed.
Lemma load_lr_tail kg q : removelast q <> u "# rlgraph" -> load_lr kg (match q with [] => [] | _ => [q] end) = do kg' <- tail_load kg q; Ok (kg', []).
Proof.
  intros NE. unfold tail_load. destruct q as [|x q]; [reflexivity|]. cbn [load_lr]. cbv zeta. destruct (eqb_spec (removelast (x :: q)) []) as [E0|N1]; [reflexivity|]. rewrite (proj2 (eqb_neq _ _) NE). destruct (load_row kg (removelast (x :: q))); reflexivity.
Qed.
Lemma load_rl_tail kg q : load_rl kg (match q with [] => [] | _ => [q] end) = tail_load kg q.
Proof.
  unfold tail_load. destruct q as [|x q]; [reflexivity|]. cbn [load_rl]. cbv zeta. destruct (eqb_spec (removelast (x :: q)) []) as [E0|N1]; [reflexivity|]. destruct (load_row kg (removelast (x :: q))); reflexivity.
Qed.
Lemma load_rl_rows_tail L rest : Forall (fun b => b <> []) L -> forall kg, load_rl kg (map (fun b => b ++ [10%N]) L ++ rest) = do kg' <- foldM load_row L kg; load_rl kg' rest.
Proof.
  induction L as [|b L IH]; intros F kg; [reflexivity|]. inversion F as [|? ? F1 F3]; subst. cbn [map app load_rl foldM]. rewrite removelast_last. cbv zeta.
  rewrite (proj2 (eqb_neq b []) F1). destruct (load_row kg b); cbn [bind]; [apply IH, F3|reflexivity].
Qed.
Lemma torn_row b cur g q : row_ok b -> keyed cur [b] -> piece q (row_text b) ->
  match torn b q with Err e => tail_load (cur, g) q = Err e | Ok more => exists cur', tail_load (cur, g) q = Ok (cur', fold_left kput more g) end.
Proof. destruct b as [k z|k k' n]; cbn [row_ok keyed]; [intros NS _ P; apply torn_key; assumption|intros [NS NP] [-> _] P; apply torn_pair; assumption]. Qed.
Lemma loaded_kputs c c' ps1 ps2 : distinct_pairs ps1 -> distinct_pairs ps2 ->
  loaded_as c c' (mkBL (mkB (b_lm c) (b_rm c) (b_mf c) (b_verbose c')) (fold_left kput ps1 []) (fold_left kput ps2 []) (dkeys (fold_left kput ps1 [])) (dkeys (fold_left kput ps2 []))) ps1 ps2.
Proof.
  intros D1 D2. pose proof (kputs_consist ps1 D1) as C1. pose proof (kputs_consist ps2 D2) as C2. unfold loaded_as. cbn [l_conf l_lr l_rl l_wl l_wr]. split; [reflexivity|]. split; [exact C1|]. split; [exact C2|].
  split; intros k; apply consists_keys; auto; apply kputs_rows.
Qed.
Lemma torn_distinct R k b q more : distinct_pairs (pairs_of R) -> nth_error R k = Some b -> torn b q = Ok more -> distinct_pairs (pairs_of (firstn k R) ++ more).
Proof.
  intros D NK T. unfold distinct_pairs in *. rewrite map_app. apply nth_error_split in NK as (R1 & R2 & -> & <-). rewrite firstn_app, Nat.sub_diag, firstn_all. cbn [firstn]. rewrite app_nil_r, !pairs_of_app, map_app in *.
  change (b :: R2) with ([b] ++ R2) in D. rewrite pairs_of_app, map_app, app_assoc in D.
  assert (D1 : NoDup (map (fun t : pair3 => (t_l t, t_r t)) (pairs_of R1) ++ map (fun t : pair3 => (t_l t, t_r t)) (pairs_of [b]))).
  { revert D. generalize (map (fun t : pair3 => (t_l t, t_r t)) (pairs_of R2)). generalize (map (fun t : pair3 => (t_l t, t_r t)) (pairs_of R1) ++ map (fun t : pair3 => (t_l t, t_r t)) (pairs_of [b])). intros A0 B0. induction A0 as [|x A0 IH]; intros D; [constructor|].
    cbn [app] in D. inversion D as [|? ? N1 N2]; subst. constructor; [intros I; apply N1, in_or_app; left; exact I|apply IH, N2]. }
  assert (D0 : NoDup (map (fun t : pair3 => (t_l t, t_r t)) (pairs_of R1))).
  { revert D1. generalize (map (fun t : pair3 => (t_l t, t_r t)) (pairs_of [b])). generalize (map (fun t : pair3 => (t_l t, t_r t)) (pairs_of R1)). intros A0 B0. induction A0 as [|x A0 IH]; intros D1; [constructor|].
    cbn [app] in D1. inversion D1 as [|? ? N1 N2]; subst. constructor; [intros I; apply N1, in_or_app; left; exact I|apply IH, N2]. }
  destruct b as [key z|l r n]; cbn [torn] in T.
  - destruct (_ || _); [|discriminate]. injection T as <-. cbn [map]. rewrite app_nil_r. exact D0.
  - destruct (length q <=? 4)%nat; [injection T as <-; cbn [map]; rewrite app_nil_r; exact D0|]. destruct (length q <=? length r + 7)%nat; [discriminate|]. injection T as <-. exact D1.
Qed.
