(** * Proofs about EojeolPatternTrainer: save and load *)
From Coq Require Import QArith Permutation.
From Verif Require Import PyBase PyDict PySort CountLemmas PyText PyFile UtilsModel UtilsSpec UtilsProofs NounModel NounV1Proofs5 BuilderModel.
Open Scope Z_scope.

Lemma before_bracket_app a b : ~ In 40%N b -> before_bracket (a ++ 40%N :: b) = Some a.
Proof.
  intros N. assert (NB : before_bracket b = None).
  { induction b as [|x b IH]; [reflexivity|]. cbn [before_bracket]. rewrite IH by (intros I; apply N; right; exact I). destruct (N.eqb_spec x 40) as [->|_]; [exfalso; apply N; left; reflexivity|reflexivity]. }
  induction a as [|x a IH]; cbn [app before_bracket]; [rewrite NB; reflexivity|]. rewrite IH. reflexivity.
Qed.
Lemma digits_chars z c : In c (format_int z) -> c = 45%N \/ (48 <= c <= 57)%N.
Proof. intros I. pose proof (format_int_chars z) as F. rewrite Forall_forall in F. apply F, I. Qed.
Lemma split_colon_none s : ~ In 32%N s -> split_colon s = [s].
Proof.
  induction s as [|x s IH]; intros N; [reflexivity|]. assert (E : split_colon (x :: s) = match split_colon s with w :: ws => (x :: w) :: ws | [] => [[x]] end).
  { destruct s as [|y s]; [destruct (N.eq_dec x 58) as [->|NE]; [reflexivity|]|].
    - cbn [split_colon]. destruct x as [|p]; [reflexivity|]. repeat (destruct p as [p|p|]; try reflexivity).
    - assert (NY : y <> 32%N) by (intros ->; apply N; right; left; reflexivity). cbn [split_colon]. destruct x as [|p]; [reflexivity|]. repeat (destruct p as [p|p|]; try reflexivity). destruct y as [|q]; [reflexivity|]. repeat (destruct q as [q|q|]; try reflexivity). congruence. }
  rewrite E, IH by (intros I; apply N; right; exact I). reflexivity.
Qed.
Lemma split_colon_step x s : (x <> 58%N \/ forall s', s <> 32%N :: s') -> split_colon (x :: s) = match split_colon s with w :: ws => (x :: w) :: ws | [] => [[x]] end.
Proof.
  intros H. cbn [split_colon]. destruct x as [|p]; [reflexivity|]. repeat (destruct p as [p|p|]; try reflexivity).
  destruct s as [|y s]; [reflexivity|]. destruct y as [|q]; [reflexivity|]. repeat (destruct q as [q|q|]; try reflexivity). destruct H as [H|H]; [congruence|]. destruct (H s eq_refl).
Qed.
Lemma split_colon_two k d : ~ In 32%N k -> ~ In 32%N d -> split_colon (k ++ u ": " ++ d) = [k; d].
Proof.
  intros Nk Nd. induction k as [|x k IH]; cbn [app].
  - change (u ": " ++ d) with (58%N :: 32%N :: d). cbn [split_colon]. rewrite (split_colon_none d Nd). reflexivity.
  - rewrite split_colon_step; [rewrite IH by (intros I; apply Nk; right; exact I); reflexivity|]. right. intros s' E. destruct k as [|y k]; [discriminate E|]. injection E as -> _. apply Nk. right. left. reflexivity.
Qed.
Lemma nospace_no32 k : nospace k -> ~ In 32%N k.
Proof. unfold nospace. rewrite Forall_forall. intros F I. specialize (F _ I). discriminate F. Qed.
Lemma strip_nospace k : nospace k -> strip (k ++ [SP]) = k.
Proof.
  unfold nospace. intros F. assert (D : forall s, Forall (fun c => is_space c = false) s -> dropwhile is_space s = s) by (intros [|x s] H; [reflexivity|]; inversion H as [|? ? X]; subst; cbn [dropwhile]; rewrite X; reflexivity).
  unfold strip, lstrip, rstrip. destruct k as [|x k]; [reflexivity|]. cbn [app]. inversion F as [|? ? X]; subst. cbn [dropwhile]. rewrite X. change (x :: k ++ [SP]) with ((x :: k) ++ [SP]). rewrite rev_app_distr. cbn [rev app]. cbn [dropwhile]. change (is_space SP) with true. cbn iota.
  change (rev k ++ [x]) with (rev (x :: k)). rewrite D by (apply Forall_rev, F). apply rev_involutive.
Qed.
Lemma load_key kg k row : nospace k -> load_row kg (key_line (k, row)) = Ok (Some k, snd kg).
Proof.
  intros F. unfold load_row, key_line. cbn [fst snd]. set (n := format_int _). replace (firstn 2 _) with (u "> ") by reflexivity. rewrite eqb_refl.
  replace (u "> " ++ k ++ u " (" ++ n ++ u ")") with ((u "> " ++ k ++ [SP]) ++ 40%N :: (n ++ u ")")) by (rewrite <- !app_assoc; reflexivity).
  rewrite before_bracket_app.
  - do 2 f_equal. change (skipn 2 (u "> " ++ k ++ [SP])) with (k ++ [SP]). rewrite strip_nospace by exact F. reflexivity.
  - intros I. apply in_app_iff in I as [I|I]; [apply digits_chars in I; lia|]. cbn in I. destruct I as [I|I]; [discriminate I|exact I].
Qed.
Lemma load_item key g k n : nospace k -> load_row (key, g) (item_line (k, n)) = Ok (key, dset g key (dset (dgetd g key []) k n)).
Proof.
  intros F. unfold load_row, item_line. cbn [fst snd]. replace (firstn 2 _) with (u "  ") by reflexivity. replace (firstn 4 _) with (u "  - ") by reflexivity. change (eqb (u "  ") (u "> ")) with false. rewrite eqb_refl.
  change (skipn 4 (u "  - " ++ k ++ u ": " ++ format_int n)) with (k ++ u ": " ++ format_int n). rewrite split_colon_two by (first [apply nospace_no32, F|intros I; apply digits_chars in I; lia]). rewrite parse_format_int. reflexivity.
Qed.
Lemma foldM_app {A B} (f : A -> B -> res A) l1 l2 : forall a, foldM f (l1 ++ l2) a = do a' <- foldM f l1 a; foldM f l2 a'.
Proof. induction l1 as [|x l1 IH]; intros a; [reflexivity|]. cbn [app foldM]. destruct (f a x); cbn [bind]; [apply IH|reflexivity]. Qed.
Lemma load_items (k : str) (L : dict str Z) : forall (g0 : kgraph) (done : dict str Z), ~ In (Some k) (dkeys g0) -> NoDup (dkeys (done ++ L)) -> Forall (fun kn => nospace (fst kn)) L -> done <> [] ->
  foldM load_row (map item_line L) (Some k, g0 ++ [(Some k, done)]) = Ok (Some k, g0 ++ [(Some k, done ++ L)]).
Proof.
  induction L as [|[k2 n] L IH]; intros g0 done NI ND F NE; [cbn [map foldM]; rewrite app_nil_r; reflexivity|]. inversion F as [|? ? F1 F2]; subst. cbn [map foldM]. rewrite load_item by exact F1. cbn [bind].
  assert (D1 : dgetd (g0 ++ [(Some k, done)]) (Some k) [] = done).
  { clear - NI. unfold dgetd. induction g0 as [|[k0 v0] g0 IH]; cbn [app dget]; [rewrite eqb_refl; reflexivity|]. destruct (eqb_spec k0 (Some k)) as [->|_]; [exfalso; apply NI; left; reflexivity|]. apply IH. intros I. apply NI. right. exact I. }
  match goal with |- context [dset (dgetd ?a ?b ?c) k2 n] => change (dgetd a b c) with (dgetd (g0 ++ [(Some k, done)]) (Some k) []) end. rewrite D1. rewrite (dset_new done k2 n).
  2:{ intros I. unfold dkeys in ND. rewrite map_app in ND. cbn [map fst] in ND. apply NoDup_remove_2 in ND. apply ND. apply in_or_app. left. exact I. }
  assert (D2 : forall v, dset (g0 ++ [(Some k, done)]) (Some k) v = g0 ++ [(Some k, v)]).
  { clear - NI. intros v. induction g0 as [|[k0 v0] g0 IH]; cbn [app dset]; [rewrite eqb_refl; reflexivity|]. destruct (eqb_spec k0 (Some k)) as [->|_]; [exfalso; apply NI; left; reflexivity|]. f_equal. apply IH. intros I. apply NI. right. exact I. }
  rewrite D2, IH; [rewrite <- app_assoc; reflexivity|exact NI|rewrite <- app_assoc; exact ND|exact F2|destruct done; discriminate].
Qed.
Definition nonempty_row (kv : str * dict str Z) : bool := match snd kv with [] => false | _ => true end.
Definition saved (g : graph) : kgraph := map (fun kv => (Some (fst kv), sort b_le (snd kv))) (filter nonempty_row g).
Definition clean (g : graph) : Prop := is_graph g /\ forall k row, In (k, row) g -> nospace k /\ forall k' n, In (k', n) row -> nospace k'.
Lemma load_graph (G : graph) : forall (key : option str) (g0 : kgraph), clean G -> (forall k, In k (dkeys G) -> ~ In (Some k) (dkeys g0)) -> exists key', foldM load_row (graph_lines G) (key, g0) = Ok (key', g0 ++ saved G).
Proof.
  induction G as [|[k row] G IH]; intros key g0 [[ND FR] C] DJ; [exists key; cbn [graph_lines map concat foldM]; rewrite app_nil_r; reflexivity|].
  cbn [map fst] in ND. inversion ND as [|? ? NI ND']; subst. inversion FR as [|? ? F1 FR']; subst. cbn [snd] in F1.
  assert (C' : clean G) by (split; [split; assumption|intros k0 r0 I; apply C; right; exact I]).
  change (graph_lines ((k, row) :: G)) with ((key_line (k, row) :: map item_line (sort b_le row)) ++ graph_lines G). cbn [app foldM]. destruct (C k row (or_introl eq_refl)) as [Ck Cr]. rewrite load_key by exact Ck. cbn [bind snd]. rewrite foldM_app.
  assert (NK : ~ In (Some k) (dkeys g0)) by (apply DJ; left; reflexivity).
  pose proof (sort_perm b_le row) as P. assert (NDs : NoDup (dkeys (sort b_le row))) by (unfold dkeys; eapply Permutation_NoDup; [apply Permutation_map, Permutation_sym, P|exact F1]).
  assert (Fs : Forall (fun kn => nospace (fst kn)) (sort b_le row)) by (apply Forall_forall; intros [k' n] I; apply sort_In in I; apply (Cr k' n I)).
  destruct row as [|kn0 row0] eqn:ER.
  - cbn [sort map foldM bind]. destruct (IH (Some k) g0 C') as [key' E]; [intros k0 I; apply DJ; right; exact I|]. exists key'. refine (eq_trans E _). reflexivity.
  - rewrite <- ER in *. destruct (sort b_le row) as [|[k1 n1] L] eqn:ES; [exfalso; apply Permutation_length in P; rewrite ER in P; discriminate P|]. cbn [map foldM]. inversion Fs as [|? ? Fs1 Fs2]; subst x l. rewrite load_item by exact Fs1. cbn [bind].
    assert (G1 : dget g0 (Some k) = None) by (destruct (dget g0 (Some k)) eqn:D; [exfalso; apply NK; apply dget_In in D; apply in_map_iff; eexists; split; [|exact D]; reflexivity|reflexivity]).
    unfold dgetd at 1. rewrite G1. assert (G2 : forall v, dset g0 (Some k) v = g0 ++ [(Some k, v)]).
    { clear - NK. intros v. induction g0 as [|[k0 v0] g0 IH]; cbn [app dset]; [reflexivity|]. destruct (eqb_spec k0 (Some k)) as [->|_]; [exfalso; apply NK; left; reflexivity|]. f_equal. apply IH. intros I. apply NK. right. exact I. }
    rewrite G2. cbn [dset]. rewrite load_items; [|exact NK|exact NDs|exact Fs2|discriminate]. cbn [bind app].
    destruct (IH (Some k) (g0 ++ [(Some k, (k1, n1) :: L)]) C') as [key' E].
    { intros k0 I J. unfold dkeys in J. rewrite map_app in J. apply in_app_iff in J as [J|J]; [apply (DJ k0 (or_intror I)), J|]. cbn in J. destruct J as [J|[]]. injection J as <-. contradiction. }
    exists key'. refine (eq_trans E _). rewrite <- app_assoc. cbn [app]. unfold saved. cbn [filter nonempty_row snd]. replace (nonempty_row (k, row)) with true by (rewrite ER; reflexivity). cbn [map fst snd]. rewrite ES. reflexivity.
Qed.

(** ** the file *)
Lemma load_lr_rows L rest : Forall (fun b => b <> [] /\ b <> u "# rlgraph") L -> forall kg, load_lr kg (map (fun b => b ++ [10%N]) L ++ rest) = do kg' <- foldM load_row L kg; load_lr kg' rest.
Proof.
  induction L as [|b L IH]; intros F kg; [reflexivity|]. inversion F as [|? ? [F1 F2] F3]; subst. cbn [map app load_lr foldM]. rewrite removelast_last. cbv zeta.
  rewrite (proj2 (eqb_neq b []) F1), (proj2 (eqb_neq b _) F2). destruct (load_row kg b); cbn [bind]; [apply IH, F3|reflexivity].
Qed.
Lemma load_rl_rows L : Forall (fun b => b <> []) L -> forall kg, load_rl kg (map (fun b => b ++ [10%N]) L) = foldM load_row L kg.
Proof.
  induction L as [|b L IH]; intros F kg; [reflexivity|]. inversion F as [|? ? F1 F3]; subst. cbn [map load_rl foldM]. rewrite removelast_last. cbv zeta.
  rewrite (proj2 (eqb_neq b []) F1). destruct (load_row kg b); cbn [bind]; [apply IH, F3|reflexivity].
Qed.
Lemma graph_lines_form G : Forall (fun b => b <> [] /\ b <> u "# rlgraph") (graph_lines G).
Proof.
  apply Forall_forall. intros b I. apply in_concat in I as (L & IL & I). apply in_map_iff in IL as (kv & <- & _). destruct I as [<-|I]; [split; discriminate|]. apply in_map_iff in I as (kn & <- & _). split; discriminate.
Qed.
Lemma graph_lines_nl G : clean G -> Forall no_nl (graph_lines G).
Proof.
  intros [_ C]. assert (D : forall n, no_nl (format_int n)) by (intros n; apply nospace_no_nl, format_int_word).
  assert (A : forall a b, no_nl a -> no_nl b -> no_nl (a ++ b)) by (intros a b H1 H2; apply Forall_app; auto).
  assert (L : forall s, forallb (fun c => negb (N.eqb c 10) && negb (N.eqb c 13)) s = true -> no_nl s) by (intros s H; apply Forall_forall; intros c I; rewrite forallb_forall in H; specialize (H c I); apply andb_true_iff in H as [H1 H2]; apply negb_true_iff, N.eqb_neq in H1; apply negb_true_iff, N.eqb_neq in H2; auto).
  apply Forall_forall. intros b I. apply in_concat in I as (X & IL & I). apply in_map_iff in IL as ([k row] & <- & IG). destruct (C k row IG) as [Ck Cr]. destruct I as [<-|I].
  - unfold key_line. cbn [fst snd]. repeat apply A; auto; apply nospace_no_nl, Ck.
  - apply in_map_iff in I as ([k' n] & <- & I). cbn [snd] in I. apply sort_In in I. unfold item_line. cbn [fst snd]. repeat apply A; auto. apply nospace_no_nl, (Cr k' n I).
Qed.
Lemma load_save c c' st : clean (s_lr st) -> clean (s_rl st) ->
  b_load c' (b_save c st) = Some (Ok (mkBL (mkB (b_lm c) (b_rm c) (b_mf c) (b_verbose c')) (saved (s_lr st)) (saved (s_rl st)) (dkeys (saved (s_lr st))) (dkeys (saved (s_rl st))))).
Proof.
  intros CL CR. unfold b_load, b_save. set (hd := format_int (b_lm c) ++ _).
  assert (W : forall n, word (format_int n)) by apply format_int_word.
  assert (D : forall n, no_nl (format_int n)) by (intros n; apply nospace_no_nl, format_int_word).
  assert (A : forall a b, no_nl a -> no_nl b -> no_nl (a ++ b)) by (intros a b H1 H2; apply Forall_app; auto).
  assert (SPN : no_nl [SP]) by (repeat constructor; discriminate).
  rewrite file_lines_concat.
  2:{ constructor; [unfold hd; repeat apply A; auto|]. constructor; [repeat constructor; discriminate|]. apply Forall_app. split; [apply graph_lines_nl, CL|]. constructor; [constructor|]. constructor; [repeat constructor; discriminate|]. apply graph_lines_nl, CR. }
  cbn [map]. assert (SH : split (strip (hd ++ [10%N])) = [format_int (b_lm c); format_int (b_rm c); format_int (b_mf c); format_int (if b_verbose c then 1 else 0)]).
  { assert (ST : strip (hd ++ [10%N]) = hd).
    { unfold strip, lstrip, rstrip. assert (DW : dropwhile is_space (hd ++ [10%N]) = hd ++ [10%N]).
      { unfold hd. destruct (format_int (b_lm c)) as [|x f] eqn:E; [exfalso; apply (format_int_nonempty (b_lm c)), E|]. pose proof (proj2 (W (b_lm c))) as F. rewrite E in F. inversion F as [|? ? X]; subst. cbn [app dropwhile]. rewrite X. reflexivity. }
      rewrite DW, rev_app_distr. cbn [rev app dropwhile]. change (is_space 10) with true. cbn iota. unfold hd. set (f := format_int (if b_verbose c then 1 else 0)). rewrite !rev_app_distr, <- !app_assoc.
      destruct (rev f) as [|x f'] eqn:E; [exfalso; apply (format_int_nonempty (if b_verbose c then 1 else 0)); fold f; rewrite <- (rev_involutive f), E; reflexivity|].
      assert (X : is_space x = false). { pose proof (proj2 (W (if b_verbose c then 1 else 0))) as F. fold f in F. rewrite Forall_forall in F. apply F. apply in_rev. rewrite E. left. reflexivity. }
      cbn [app dropwhile]. rewrite X. change (x :: f' ++ ?t) with ((x :: f') ++ t). rewrite <- E. rewrite !rev_app_distr, !rev_involutive, <- !app_assoc. reflexivity. }
    rewrite ST. unfold hd. cbn [app]. rewrite !split_word_sp by (try apply W; reflexivity). rewrite split_word by apply W. reflexivity. }
  rewrite SH. cbn [mapM]. rewrite !parse_format_int. cbn [bind mapM].
  replace (strip (u "# lrgraph" ++ [10%N])) with (u "# lrgraph") by reflexivity. rewrite eqb_refl. f_equal.
  rewrite map_app, load_lr_rows by apply graph_lines_form. destruct (load_graph (s_lr st) None [] CL) as [k1 E1]; [intros k _ []|]. match goal with |- context [foldM load_row (graph_lines (s_lr st)) ?a] => replace (foldM load_row (graph_lines (s_lr st)) a) with (Ok (k1, saved (s_lr st))) by (symmetry; exact E1) end. cbn [bind app].
  cbn [map load_lr]. cbn [app removelast]. cbv zeta. change (eqb (@nil N) []) with true. cbn iota. rewrite (removelast_last (u "# rlgraph") 10%N). change (eqb (u "# rlgraph") []) with false. cbn iota. rewrite eqb_refl. cbn [bind fst snd].
  rewrite load_rl_rows by (eapply Forall_impl; [|apply graph_lines_form]; intros b [H _]; exact H). destruct (load_graph (s_rl st) k1 [] CR) as [k2 E2]; [intros k _ []|]. match goal with |- context [foldM load_row (graph_lines (s_rl st)) ?a] => replace (foldM load_row (graph_lines (s_rl st)) a) with (Ok (k2, saved (s_rl st))) by (symmetry; exact E2) end. reflexivity.
Qed.
