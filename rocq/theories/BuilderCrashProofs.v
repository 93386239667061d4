(** * Reading a torn file of EojeolPatternTrainer *)
From Coq Require Import List ZArith NArith QArith Lia Permutation Sorted.
Import ListNotations.
From Verif Require Import PyBase PyDict PySort PyText PyFile SortLemmas UtilsModel UtilsSpec UtilsProofs NounModel BuilderModel BuilderSpec BuilderProofs BuilderProofs2 CrashSpec CrashProofs CrashProofs2 BuilderCrashSpec.
Open Scope Z_scope.

Fixpoint keyed (cur : option str) (R : list brow) : Prop :=
  match R with [] => True | KeyRow k _ :: R' => keyed (Some k) R' | PairRow l _ _ :: R' => cur = Some l /\ keyed cur R' end.
Fixpoint cur_after (cur : option str) (R : list brow) : option str :=
  match R with [] => cur | KeyRow k _ :: R' => cur_after (Some k) R' | PairRow _ _ _ :: R' => cur_after cur R' end.
Lemma keyed_app A B : forall cur, keyed cur (A ++ B) <-> keyed cur A /\ keyed (cur_after cur A) B.
Proof. induction A as [|[k z|l r n] A IH]; intros cur; cbn [app keyed cur_after]; [tauto|apply IH|rewrite IH; tauto]. Qed.
Definition row_ok (b : brow) : Prop := match b with KeyRow k z => nospace k | PairRow k k' n => nospace k' /\ 0 < n end.
Definition kput (g : kgraph) (t : pair3) : kgraph := dset g (Some (t_l t)) (dset (dgetd g (Some (t_l t)) []) (t_r t) (t_c t)).

Lemma removelast_len {A} (l : list A) : removelast l = firstn (length l - 1) l.
Proof. rewrite removelast_firstn_len. f_equal. lia. Qed.
Lemma piece_firstn q s : piece q s -> q = firstn (length q) s /\ (length q <= length s)%nat.
Proof. intros [t ->]. rewrite firstn_app, Nat.sub_diag, firstn_all, app_length. cbn [firstn]. rewrite app_nil_r. split; [reflexivity|lia]. Qed.
Lemma torn_text q s : piece q s -> removelast q = firstn (length q - 1) s.
Proof. intros P. rewrite removelast_len. destruct (piece_firstn q s P) as [E L]. rewrite E at 2. rewrite firstn_firstn. f_equal. lia. Qed.
Lemma before_bracket_none s : ~ In 40%N s -> before_bracket s = None.
Proof.
  induction s as [|x s IH]; intros NI; [reflexivity|]. cbn [before_bracket]. rewrite IH by (intros I; apply NI; right; exact I). destruct (N.eqb_spec x 40) as [->|]; [exfalso; apply NI; left; reflexivity|reflexivity].
Qed.
Lemma before_bracket_some s : In 40%N s -> exists b, before_bracket s = Some b.
Proof.
  induction s as [|x s IH]; intros I; [destruct I|]. cbn [before_bracket]. destruct (before_bracket s) as [b|] eqn:E; [eexists; reflexivity|]. destruct I as [->|I]; [exists []; reflexivity|]. destruct (IH I) as [b Q]. discriminate.
Qed.
Lemma nospace_firstn m (s : str) : nospace s -> ~ In 32%N (firstn m s).
Proof. intros F I. assert (In 32%N s) as J by (rewrite <- (firstn_skipn m s); apply in_or_app; left; exact I). unfold nospace in F. rewrite Forall_forall in F. specialize (F _ J). discriminate. Qed.
(** the last line of a torn graph *)
Definition tail_load (kg : option str * kgraph) (q : str) : res (option str * kgraph) := if eqb (removelast q) [] then Ok kg else load_row kg (removelast q).
Lemma torn_key cur g k z q : nospace k -> piece q (row_text (KeyRow k z)) ->
  match torn (KeyRow k z) q with Err e => tail_load (cur, g) q = Err e | Ok more => exists cur', tail_load (cur, g) q = Ok (cur', fold_left kput more g) end.
Proof.
  intros NS P. unfold tail_load. pose proof (torn_text _ _ P) as T. cbn [torn].
  destruct (length q) as [|[|[|n]]] eqn:L; cbn [Nat.leb orb].
  - rewrite T. exists cur. reflexivity.
  - rewrite T. exists cur. reflexivity.
  - rewrite T. exists cur. reflexivity.
  - assert (R : exists s, removelast q = u "> " ++ s) by (rewrite T; eexists; reflexivity). destruct R as [s R].
    destruct (mem 40%N (removelast q)) eqn:M.
    + apply mem_In in M. rewrite R in *. replace (eqb (u "> " ++ s) []) with false by reflexivity. cbn iota. unfold load_row. replace (eqb (firstn 2 (u "> " ++ s)) (u "> ")) with true by reflexivity. cbn iota.
      destruct (before_bracket_some _ M) as [b ->]. eexists. reflexivity.
    + apply mem_In_false in M. rewrite R in *. replace (eqb (u "> " ++ s) []) with false by reflexivity. cbn iota. unfold load_row. replace (eqb (firstn 2 (u "> " ++ s)) (u "> ")) with true by reflexivity. cbn iota.
      rewrite (before_bracket_none _ M). reflexivity.
Qed.
Lemma torn_pair g k k' n q : nospace k' -> 0 < n -> piece q (row_text (PairRow k k' n)) ->
  match torn (PairRow k k' n) q with Err e => tail_load (Some k, g) q = Err e | Ok more => exists cur', tail_load (Some k, g) q = Ok (cur', fold_left kput more g) end.
Proof.
  intros NS NP P. unfold tail_load. pose proof (torn_text _ _ P) as T. pose proof (piece_firstn _ _ P) as [_ LE]. cbn [torn].
  destruct (length q) as [|[|[|[|[|m]]]]] eqn:L.
  1-5: cbn [Nat.leb]; rewrite T; exists (Some k); reflexivity.
  replace (S (S (S (S (S m)))) <=? 4)%nat with false by reflexivity. cbv iota.
  assert (R : removelast q = u "  - " ++ firstn m (k' ++ u ": " ++ format_int n)) by (rewrite T; reflexivity). clear T.
  rewrite R. replace (eqb (u "  - " ++ firstn m (k' ++ u ": " ++ format_int n)) []) with false by reflexivity. cbn iota.
  set (s := firstn m (k' ++ u ": " ++ format_int n)). unfold load_row. cbn [fst snd]. replace (eqb (firstn 2 (u "  - " ++ s)) (u "> ")) with false by reflexivity. replace (eqb (firstn 4 (u "  - " ++ s)) (u "  - ")) with true by reflexivity. cbn iota.
  replace (skipn 4 (u "  - " ++ s)) with s by reflexivity.
  assert (DN : forall j, ~ In 32%N (firstn j (format_int n))) by (intros j; apply nospace_firstn, digits_nospace, format_pos_digits; lia).
  destruct (Nat.leb_spec (S (S (S (S (S m))))) (length k' + 7)) as [Lm|Lm]; cbv iota.
  - destruct (Nat.leb_spec m (length k')) as [L1|L1].
    + assert (s = firstn m k') as -> by (unfold s; rewrite firstn_app; replace (m - length k')%nat with 0%nat by lia; cbn [firstn]; apply app_nil_r).
      rewrite split_colon_none by (apply nospace_firstn, NS).
      reflexivity.
    + destruct (Nat.eq_dec m (S (length k'))) as [E|NE].
      * assert (s = k' ++ [58%N]) as ->. { unfold s. rewrite firstn_app, E. replace (S (length k') - length k')%nat with 1%nat by lia. rewrite firstn_all2 by lia. reflexivity. }
        rewrite split_colon_none; [reflexivity|]. intros I. apply in_app_or in I as [I|[I|[]]]; [|discriminate]. apply (nospace_firstn (length k') k' NS). rewrite firstn_all. exact I.
      * assert (s = k' ++ u ": " ++ []) as ->. { unfold s. rewrite firstn_app. replace (m - length k')%nat with 2%nat by lia. rewrite firstn_all2 by lia. reflexivity. }
        rewrite split_colon_two; [reflexivity| |intros []]. intros I. apply (nospace_firstn (length k') k' NS). rewrite firstn_all. exact I.
  - set (j := (m - length k' - 2)%nat).
    assert (s = k' ++ u ": " ++ firstn j (format_int n)) as ->.
    { unfold s. rewrite firstn_app, firstn_all2 by lia. f_equal. replace (m - length k')%nat with (2 + j)%nat by (unfold j; lia). reflexivity. }
    rewrite split_colon_two; [|intros I; apply (nospace_firstn (length k') k' NS); rewrite firstn_all; exact I|apply DN].
    assert (LT : length (row_text (PairRow k k' n)) = (6 + length k' + length (format_int n))%nat) by (cbn [row_text]; rewrite !app_length; change (length (u "  - ")) with 4%nat; change (length (u ": ")) with 2%nat; lia).
    assert (Lj : length (firstn j (format_int n)) = j) by (rewrite firstn_length; unfold j; lia).
    rewrite (cut_number n (firstn j (format_int n)) ltac:(lia)); [|exists (skipn j (format_int n)); symmetry; apply firstn_skipn|intros E; rewrite E in Lj; cbn [length] in Lj; unfold j in Lj; lia].
    cbn [bind]. eexists. cbn [fold_left]. unfold kput, t_l, t_r, t_c. cbn [fst snd]. unfold first_digits. rewrite Lj.
    replace (length (format_int n) - j)%nat with (length (format_int n) + length k' + 7 - S (S (S (S (S m)))))%nat by (unfold j; lia). reflexivity.
Qed.
(** complete rows *)
Lemma row_load b cur g : row_ok b -> keyed cur [b] -> load_row (cur, g) (row_text b) = Ok (cur_after cur [b], fold_left kput (pairs_of [b]) g).
Proof.
  destruct b as [k z|k k' n]; cbn [row_ok keyed cur_after].
  - intros NS _. change (row_text (KeyRow k z)) with (u "> " ++ k ++ u " (" ++ format_int z ++ u ")").
    assert (E : exists row : dict str Z, fold_left Z.add (map snd row) 0 = z) by (exists [([], z)]; reflexivity). destruct E as [row E].
    pose proof (load_key (cur, g) k row NS) as H. unfold key_line in H. cbn [fst snd] in H. rewrite E in H. rewrite H. reflexivity.
  - intros [NS NP] [-> _]. exact (load_item (Some k) g k' n NS).
Qed.
Lemma pairs_of_app A B : pairs_of (A ++ B) = pairs_of A ++ pairs_of B. Proof. unfold pairs_of. rewrite map_app, concat_app. reflexivity. Qed.
Lemma rows_load R : forall cur g, Forall row_ok R -> keyed cur R -> foldM load_row (map row_text R) (cur, g) = Ok (cur_after cur R, fold_left kput (pairs_of R) g).
Proof.
  induction R as [|b R IH]; intros cur g F K; [reflexivity|]. inversion F as [|? ? F1 F2]; subst. change (b :: R) with ([b] ++ R) in K. apply keyed_app in K as [K1 K2]. cbn [map foldM]. rewrite (row_load b cur g F1 K1). cbn [bind].
  rewrite IH by assumption. change (b :: R) with ([b] ++ R). rewrite pairs_of_app, fold_left_app. f_equal. f_equal. destruct b; reflexivity.
Qed.
(** what the successive assignments amount to *)
Lemma kput_consists (g : kgraph) ps t : consists_of g ps -> (forall n, ~ In (t_l t, t_r t, n) ps) -> consists_of (kput g t) (ps ++ [t]).
Proof.
  intros [ND H] NI. destruct t as [[l r] n]. unfold kput, t_l, t_r, t_c in *. cbn [fst snd] in *. split; [apply (dwf_dset g (Some l)); exact ND|].
  assert (NR : forall row, dget g (Some l) = Some row -> dget row r = None).
  { intros row G. destruct (dget row r) as [m|] eqn:Q; [|reflexivity]. exfalso. destruct (proj1 (H (Some l) r m)) as (l0 & E & I); [exists row; split; [apply dget_In, G|apply dget_In, Q]|]. injection E as <-. apply (NI m), I. }
  assert (KH : forall (g0 : kgraph) k k' m, NoDup (dkeys g0) -> (kholds g0 k k' m <-> exists row, dget g0 k = Some row /\ In (k', m) row)).
  { intros g0 k k' m N0. unfold kholds. split; intros (row & I & J); exists row; (split; [|exact J]); [apply (dget_In_iff g0 k row N0), I|apply dget_In, I]. }
  intros k k' m. rewrite KH by (apply (dwf_dset g (Some l)); exact ND). rewrite dget_dset. destruct (eqb_spec (Some l) k) as [<-|NE].
  - split.
    + intros (row & E & I). assert (row = dset (dgetd g (Some l) []) r n) as -> by congruence. clear E. exists l. split; [reflexivity|]. apply in_or_app. unfold dgetd in I. destruct (dget g (Some l)) as [row|] eqn:G.
      * rewrite (dset_items_new _ _ _ (NR row eq_refl)) in I. apply in_app_or in I as [I|[I|[]]]; [|right; left; congruence]. left. destruct (proj1 (H (Some l) k' m)) as (l0 & E & J); [exists row; split; [apply dget_In, G|exact I]|]. injection E as <-. exact J.
      * cbn [dset] in I. destruct I as [I|[]]. right. left. congruence.
    + intros (l0 & E & I). injection E as <-. eexists. split; [reflexivity|]. unfold dgetd. apply in_app_or in I as [I|[I|[]]].
      * destruct (proj2 (H (Some l) k' m)) as (row & I1 & I2); [exists l; auto|]. apply (dget_In_iff g _ _ ND) in I1. rewrite I1. rewrite (dset_items_new _ _ _ (NR row I1)). apply in_or_app. left. exact I2.
      * injection I as <- <-. destruct (dget g (Some l)) as [row|] eqn:G; [rewrite (dset_items_new _ _ _ (NR row eq_refl)); apply in_or_app; right; left; reflexivity|left; reflexivity].
  - rewrite <- (KH g k k' m ND), H. split; intros (l0 & -> & I); exists l0; (split; [reflexivity|]).
    + apply in_or_app. left. exact I.
    + apply in_app_or in I as [I|[I|[]]]; [exact I|]. congruence.
Qed.
Definition distinct_pairs (ps : list pair3) : Prop := NoDup (map (fun t => (t_l t, t_r t)) ps).
Lemma kputs_consist ps : distinct_pairs ps -> consists_of (fold_left kput ps []) ps.
Proof.
  induction ps as [|t ps IH] using rev_ind; intros D.
  - cbn [fold_left]. split; [constructor|]. intros k k' n. split; [intros (row & [] & _)|intros (l & _ & [])].
  - unfold distinct_pairs in D. rewrite map_app in D. cbn [map] in D. rewrite fold_left_app. cbn [fold_left]. apply kput_consists.
    + apply IH. apply NoDup_remove_1 in D. rewrite app_nil_r in D. exact D.
    + intros n I. apply NoDup_remove_2 in D. rewrite app_nil_r in D. apply D. apply in_map_iff. exists (t_l t, t_r t, n). split; [reflexivity|exact I].
Qed.
Lemma consists_keys g ps k : consists_of g ps -> Forall (fun kr : option str * dict str Z => snd kr <> []) g -> (In k (dkeys g) <-> exists l k' n, k = Some l /\ In (l, k', n) ps).
Proof.
  intros [ND H] NE. split.
  - intros I. apply in_map_iff in I as ([k0 row] & E & I). cbn [fst] in E. subst k0. rewrite Forall_forall in NE. specialize (NE _ I). cbn [snd] in NE. destruct row as [|[k' n] row]; [congruence|].
    destruct (proj1 (H k k' n)) as (l & E & J); [exists ((k', n) :: row); split; [exact I|left; reflexivity]|]. exists l, k', n. auto.
  - intros (l & k' & n & E & I). destruct (proj2 (H k k' n)) as (row & J & _); [exists l; auto|]. apply in_map_iff. exists (k, row). auto.
Qed.
Lemma kputs_rows ps : Forall (fun kr : option str * dict str Z => snd kr <> []) (fold_left kput ps []).
Proof.
  assert (G : forall g, Forall (fun kr : option str * dict str Z => snd kr <> []) g -> Forall (fun kr : option str * dict str Z => snd kr <> []) (fold_left kput ps g)); [|apply G; constructor].
  induction ps as [|t ps IH]; intros g F; [exact F|]. cbn [fold_left]. apply IH. unfold kput. set (row := dset (dgetd g (Some (t_l t)) []) (t_r t) (t_c t)). assert (NE : row <> []) by (unfold row; destruct (dgetd g (Some (t_l t)) []) as [|[a b] l]; cbn [dset]; [discriminate|destruct (eqb a (t_r t)); discriminate]).
  clearbody row. induction F as [|[k v] g F1 F2 IHg]; cbn [dset]; [constructor; [exact NE|constructor]|]. destruct (eqb k (Some (t_l t))); constructor; auto.
Qed.
