(** Proofs about WordExtractor.extract / word_scores and Bigram *)
From Coq Require Import Reals QArith.
From Verif Require Import PyBase PyDict PySort PyText CountLemmas UtilsProofs UtilsProofs5 QLemmas WordModel WordSpec WordProofs WordProofs2 WordProofs3 WordProofs4 WordProofs5.
Open Scope Z_scope.

Lemma passes_meets {T} (lt : T -> T -> bool) th mf w s : passes lt th mf w s = true <-> meets lt th mf w s.
Proof.
  unfold passes, meets. rewrite andb_true_iff, !negb_true_iff, !orb_false_iff, andb_false_iff, orb_false_iff, !Z.ltb_ge, Nat.leb_gt.
  assert (E : mf <= Z.max (leftside_frequency s) (rightside_frequency s) <-> mf <= leftside_frequency s \/ mf <= rightside_frequency s) by lia. rewrite E.
  split.
  - intros (((((A & B) & C) & D) & F) & G). repeat split; auto; intros; destruct G as [G|[G1 G2]]; auto; lia.
  - intros (A & B & C & D & F & G). split; [tauto|]. destruct (Nat.lt_ge_cases (length w) 2); [left; lia|right; auto].
Qed.

Section Extract.
Context {T : Type} (lt : T -> T -> bool) (th : thresholds T) (x : wx).
Hypothesis I : Inv x.
Notation item := (str * scores T)%type.
Definition hit (w : str) (e : item) : bool :=
  passes lt th (min_freq x) (fst e) (snd e) && eqb (removelast (fst e)) w && negb (Qle_bool (droprate (fst (frequency x w)) (leftside_frequency (snd e))) (max_droprate th)).
Definition keep (done : list item) (e : item) : bool :=
  passes lt th (min_freq x) (fst e) (snd e) && negb (remove_subwords th && existsb (hit (fst e)) done).
Lemma step_eq out e : extract_step lt th x (Ok out) e =
  Ok (if passes lt th (min_freq x) (fst e) (snd e) then
        let out := dset out (fst e) (snd e) in
        if remove_subwords th && hit (removelast (fst e)) e then dpop out (removelast (fst e)) else out
      else out).
Proof.
  unfold extract_step, hit. cbn [bind]. rewrite eqb_refl, andb_true_r. destruct (passes _ _ _ _ _); [|reflexivity]. cbn [andb]. destruct (remove_subwords th); cbn [negb andb]; [|reflexivity].
  set (sw := removelast (fst e)). unfold frequency. cbn [fst]. unfold droprate.
  set (o := dset out (fst e) (snd e)).
  assert (PO : forall b : bool, (if b && dmem o sw then dpop o sw else o) = if b then dpop o sw else o).
  { intros [|]; [|reflexivity]. cbn [andb]. destruct (dmem o sw) eqn:M; [reflexivity|]. unfold dpop. symmetry.
    apply filter_all. apply Forall_forall. intros [k v] J. cbn [fst]. rewrite negb_true_iff. apply eqb_neq. intros ->. apply (in_map fst) in J. cbn [fst] in J. apply dmem_keys in J. unfold dmem in M, J. congruence. }
  unfold dgetd. destruct (dget (wL x) sw) as [v|] eqn:E.
  - pose proof (ctr_pos _ _ _ (I_L x I) E) as P. destruct (Z.eqb_spec v 0); [lia|]. rewrite <- PO. destruct (_ && _); reflexivity.
  - cbn [Z.eqb]. rewrite <- PO. destruct (_ && _); reflexivity.
Qed.
Lemma removelast_longer (w w' : str) : removelast w' = w -> w' <> [] -> length w' = S (length w).
Proof. intros <- N. destruct w' as [|a w'] using rev_ind; [congruence|]. rewrite removelast_last, app_length. cbn. lia. Qed.
Lemma extract_loop : forall rest done, NoDup (map fst (done ++ rest)) -> StronglySorted (fun a b : item => (length (fst a) <= length (fst b))%nat) (done ++ rest) ->
  fold_left (extract_step lt th x) rest (Ok (filter (keep done) done)) = Ok (filter (keep (done ++ rest)) (done ++ rest)).
Proof.
  induction rest as [|e rest IH]; intros done ND S; cbn [fold_left]; [rewrite app_nil_r; reflexivity|].
  rewrite step_eq.
  assert (Q : (if passes lt th (min_freq x) (fst e) (snd e) then
        let out := dset (filter (keep done) done) (fst e) (snd e) in
        if remove_subwords th && hit (removelast (fst e)) e then dpop out (removelast (fst e)) else out
      else filter (keep done) done) = filter (keep (done ++ [e])) (done ++ [e])).
  { rewrite filter_app. cbn [filter].
    assert (NI : forall d, In d done -> fst d <> fst e).
    { intros d J E. rewrite map_app in ND. cbn [map] in ND. apply NoDup_remove_2 in ND. apply ND. apply in_or_app; left. rewrite <- E. apply in_map, J. }
    assert (K1 : forall d, keep (done ++ [e]) d = keep done d && negb (remove_subwords th && hit (fst d) e)).
    { intros d. unfold keep. rewrite existsb_app. cbn [existsb]. rewrite orb_false_r. destruct (passes _ _ _ _ _), (remove_subwords th), (existsb (hit (fst d)) done), (hit (fst d) e); reflexivity. }
    destruct (passes lt th (min_freq x) (fst e) (snd e)) eqn:P.
    - cbv zeta. rewrite dset_items_new.
      2:{ apply dget_None. intros J. apply in_map_iff in J. destruct J as (d & E & J). apply filter_In in J. exact (NI d (proj1 J) E). }
      assert (KE : keep done e = true).
      { unfold keep. rewrite P. cbn [andb]. rewrite negb_true_iff, andb_false_iff. right. apply not_true_is_false. intros X. apply existsb_exists in X. destruct X as (d & J & H). unfold hit in H.
        rewrite !andb_true_iff in H. destruct H as [[_ H] _]. apply eqb_eq in H.
        assert (Le : (length (fst d) <= length (fst e))%nat). { clear - S J. induction done as [|d0 done IHd]; [destruct J|]. cbn in S. inversion S as [|? ? S' F]; subst. destruct J as [->|J]; [|apply IHd; assumption].
          rewrite Forall_forall in F. apply F. apply in_or_app; right; left; reflexivity. }
        destruct (fst d) as [|c t] eqn:Ed; [|pose proof (removelast_longer _ _ H ltac:(discriminate)); lia]. cbn in H. apply (NI d J). congruence. }
      assert (DE : forall l : list item, dpop l (removelast (fst e)) = filter (fun d => negb (eqb (fst d) (removelast (fst e)))) l) by reflexivity.
      assert (HT : forall d : item, hit (fst d) e = hit (removelast (fst e)) e && eqb (fst d) (removelast (fst e))).
      { intros d. unfold hit. rewrite P, eqb_refl. cbn [andb]. rewrite (eqb_sym (removelast (fst e)) (fst d)). destruct (eqb_spec (fst d) (removelast (fst e))) as [->|]; [rewrite andb_true_r; reflexivity|rewrite andb_false_r; reflexivity]. }
      rewrite (filter_ext (keep (done ++ [e])) (fun d => keep done d && negb (remove_subwords th && (hit (removelast (fst e)) e && eqb (fst d) (removelast (fst e)))))) by (intros d; rewrite K1, HT; reflexivity).
      rewrite K1, HT, KE. cbn [andb]. destruct (remove_subwords th && hit (removelast (fst e)) e) eqn:B.
      + apply andb_true_iff in B. destruct B as [B1 B2]. rewrite B1, B2. cbn [andb]. rewrite DE, filter_app, filter_filter_comm. cbn [filter fst]. destruct e; reflexivity.
      + replace (remove_subwords th && (hit (removelast (fst e)) e && eqb (fst e) (removelast (fst e)))) with false by (destruct (remove_subwords th), (hit (removelast (fst e)) e); try discriminate; reflexivity).
        cbn [negb]. f_equal; [|destruct e; reflexivity]. apply filter_ext. intros d. destruct (remove_subwords th), (hit (removelast (fst e)) e); try discriminate; cbn [andb negb]; rewrite andb_true_r; reflexivity.
    - assert (KE : keep (done ++ [e]) e = false) by (unfold keep; rewrite P; reflexivity). rewrite KE, app_nil_r. apply filter_ext. intros d. rewrite K1. unfold hit. rewrite P. cbn [andb]. rewrite andb_false_r, andb_true_r. reflexivity. }
  rewrite Q. replace (done ++ e :: rest) with ((done ++ [e]) ++ rest) in * by (rewrite <- app_assoc; reflexivity). apply IH; assumption.
Qed.
Lemma len_sorted (l : list item) : StronglySorted (fun a b : item => (length (fst a) <= length (fst b))%nat) (sort (fun a b => length (fst a) <=? length (fst b))%nat l).
Proof.
  pose proof (sort_sorted (fun a b : item => length (fst a) <=? length (fst b))%nat) as S. unfold sorted_le in S.
  specialize (S ltac:(intros a b; rewrite !Nat.leb_le; lia) ltac:(intros a b c; rewrite !Nat.leb_le; lia) l).
  induction S as [|a l' S' IH F]; constructor; [assumption|]. eapply Forall_impl; [|exact F]. intros b. apply Nat.leb_le.
Qed.
Lemma extract_eq ss : NoDup (map fst ss) -> extract lt th x ss = Ok (filter (keep ss) (sort (fun a b => length (fst a) <=? length (fst b))%nat ss)).
Proof.
  intros ND. unfold extract. pose proof (sort_perm (fun a b : item => length (fst a) <=? length (fst b))%nat ss) as P.
  change (Ok []) with (Ok (filter (keep []) [])). rewrite extract_loop; cbn [app].
  - assert (K : forall d, keep (sort (fun a b : item => length (fst a) <=? length (fst b))%nat ss) d = keep ss d).
    { intros d. unfold keep. f_equal. f_equal. f_equal. apply Bool.eq_iff_eq_true. rewrite !existsb_exists. split; intros (e & J & H); exists e; (split; [|exact H]).
      - exact (Permutation_in _ P J). - exact (Permutation_in _ (Permutation_sym P) J). }
    rewrite (filter_ext _ _ K). reflexivity.
  - eapply Permutation_NoDup; [|exact ND]. apply Permutation_map, Permutation_sym, P.
  - apply len_sorted.
Qed.
Lemma hit_subsumed ss w : existsb (hit w) ss = true <-> subsumed lt th x ss w.
Proof.
  rewrite existsb_exists. unfold hit, subsumed. split.
  - intros ([w' s'] & J & H). cbn [fst snd] in H. rewrite !andb_true_iff, negb_true_iff, qleb_false, eqb_eq, passes_meets in H. exists w', s'. tauto.
  - intros (w' & s' & J & E & M & D). exists (w', s'). split; [exact J|]. cbn [fst snd]. rewrite !andb_true_iff, negb_true_iff, qleb_false, eqb_eq, passes_meets. tauto.
Qed.
End Extract.

Lemma words_In x w : In w (words x) <-> (0 < Z.of_nat (length w) \/ True) /\ ((In w (dkeys (wL x)) /\ Z.of_nat (length w) <= max_left x) \/ (In w (dkeys (wR x)) /\ Z.of_nat (length w) <= max_right x)).
Proof. unfold words. rewrite nodup_In, in_app_iff, !filter_In, !Z.leb_le. tauto. Qed.
Lemma mapM_ok' {A B} (f : A -> res B) (g : A -> B) l : (forall x, In x l -> f x = Ok (g x)) -> mapM f l = Ok (map g l).
Proof. induction l as [|x l IH]; intros H; cbn [mapM map]; [reflexivity|]. rewrite (H x (or_introl eq_refl)). cbn [bind]. rewrite IH by (intros; apply H; right; assumption). reflexivity. Qed.
Definition coh (x : wx) (w : str) : R * R := match cohesion_score x w with Ok c => c | Err _ => (0%R, 0%R) end.
Lemma cohesion_total x w : Inv x -> cohesion_score x w = Ok (coh x w).
Proof.
  intros I. unfold coh. destruct (Nat.lt_ge_cases (length w) 2) as [L|L].
  - unfold cohesion_score. destruct (Nat.leb_spec (length w) 1); [reflexivity|lia].
  - destruct (cohesion_ok x w I L) as (l & r & E & _). rewrite E. reflexivity.
Qed.
Lemma dget_map {V W} (f : str -> V -> W) (d : dict str V) w : dget (map (fun kv => (fst kv, f (fst kv) (snd kv))) d) w = option_map (f w) (dget d w).
Proof. induction d as [|[k v] d IH]; cbn [map dget fst snd]; [reflexivity|]. destruct (eqb_spec k w) as [->|]; [reflexivity|exact IH]. Qed.
Lemma word_scores_ok x order : Inv x -> NoDup order -> exists d, word_scores x order = Ok d /\ map fst d = order /\
  forall w s, In (w, s) d <-> In w order /\ s = mkScores (fst (coh x w)) (snd (coh x w))
    (fst (dgetd (all_branching_entropy x) w (0%R, 0%R))) (snd (dgetd (all_branching_entropy x) w (0%R, 0%R)))
    (fst (dgetd (all_accessor_variety x) w (0, 0))) (snd (dgetd (all_accessor_variety x) w (0, 0))) (fst (frequency x w)) (snd (frequency x w)).
Proof.
  intros I ND. unfold word_scores. rewrite (mapM_ok' _ (fun w => (w, coh x w))) by (intros w _; rewrite cohesion_total by exact I; reflexivity). cbn [bind]. rewrite map_map. cbn [fst snd].
  eexists. split; [reflexivity|]. rewrite dict_of_wf.
  - rewrite map_map. cbn [fst]. split; [apply map_id|]. intros w s. rewrite in_map_iff. split.
    + intros (w' & E & J). injection E as -> <-. split; [exact J|reflexivity].
    + intros [J ->]. exists w. split; [reflexivity|exact J].
  - rewrite map_map. cbn [fst]. rewrite map_id. exact ND.
Qed.

(** ** Bigram *)
Lemma adjacent_to_bigram ws : adjacent ws = to_bigram ws.
Proof. induction ws as [|a ws IH]; [reflexivity|]. destruct ws as [|b ws]; [reflexivity|]. unfold to_bigram in *. cbn [tl combine adjacent]. f_equal. exact IH. Qed.
Definition n1 (tok : str -> list str) (b : str * str) (s : str) : Z := occ b (adjacent (tok s)).
Lemma n_bigram_cons tok b s ss : n_bigram tok b (s :: ss) = n1 tok b s + n_bigram tok b ss.
Proof.
  unfold n_bigram, n1. cbn [map concat]. rewrite count_app. f_equal. rewrite count_Zsum. unfold occ. apply Zsum_ext. intros [a c] _. destruct b as [b1 b2]. cbn [fst snd].
  rewrite (eqb_sym a), (eqb_sym c). reflexivity.
Qed.
Definition bstep (tok : str -> list str) (mf cp i : Z) (s : str) (d : dict (str * str) Z) :=
  let d := if (cp >? 0) && (i mod cp =? 0) then bfilter mf d else d in
  let ws := tok s in if (length ws <=? 1)%nat then d else bump_all (to_bigram ws) d.
Lemma bfilter_getd mf (d : dict (str * str) Z) k : ctr d -> dgetd (bfilter mf d) k 0 = at_least mf (dgetd d k 0).
Proof.
  intros C. unfold bfilter, at_least. rewrite filter_getd by exact C. unfold dgetd. destruct (dget d k) as [v|].
  - rewrite Z.geb_leb. reflexivity.
  - destruct (mf <=? 0); reflexivity.
Qed.
Lemma short_adjacent {A} (ws : list A) : (length ws <= 1)%nat -> adjacent ws = [].
Proof. destruct ws as [|a [|b ws]]; cbn; try reflexivity; lia. Qed.
Lemma bstep_spec tok mf cp i s d : ctr d -> ctr (bstep tok mf cp i s d) /\
  forall b, dgetd (bstep tok mf cp i s d) b 0 = (if (cp >? 0) && (i mod cp =? 0) then at_least mf (dgetd d b 0) else dgetd d b 0) + n1 tok b s.
Proof.
  intros C. unfold bstep, n1. set (d' := if (cp >? 0) && (i mod cp =? 0) then bfilter mf d else d).
  assert (C' : ctr d') by (unfold d'; destruct (_ && _); [apply ctr_filter, C|exact C]).
  assert (E : forall b, dgetd d' b 0 = if (cp >? 0) && (i mod cp =? 0) then at_least mf (dgetd d b 0) else dgetd d b 0) by (intros b; unfold d'; destruct (_ && _); [apply bfilter_getd, C|reflexivity]).
  cbv zeta. destruct (Nat.leb_spec (length (tok s)) 1) as [L|L].
  - split; [exact C'|]. intros b. rewrite E, short_adjacent by exact L. unfold occ. cbn [Zsum]. lia.
  - split; [apply ctr_bump, C'|]. intros b. rewrite bump_get, E, adjacent_to_bigram. reflexivity.
Qed.
Lemma bloop_ctr tok mf cp : forall ss i d, ctr d -> ctr (bigram_loop tok mf cp i ss d).
Proof. induction ss as [|s ss IH]; intros i d C; [exact C|]. cbn [bigram_loop]. apply IH. apply (bstep_spec tok mf cp i s d C). Qed.
Lemma bloop_plain tok mf cp : cp <= 0 -> forall ss i d, ctr d -> forall b, dgetd (bigram_loop tok mf cp i ss d) b 0 = dgetd d b 0 + n_bigram tok b ss.
Proof.
  intros H. induction ss as [|s ss IH]; intros i d C b; [cbn; lia|].
  change (bigram_loop tok mf cp i (s :: ss) d) with (bigram_loop tok mf cp (i + 1) ss (bstep tok mf cp i s d)).
  destruct (bstep_spec tok mf cp i s d C) as [C' E]. rewrite IH, E, n_bigram_cons by exact C'. destruct (Z.gtb_spec cp 0); [lia|]. cbn [andb]. lia.
Qed.
Lemma bloop_pruned tok mf cp : forall ss i d, ctr d -> forall b,
  dgetd (bigram_loop tok mf cp i ss d) b 0 = dgetd d b 0 + n_bigram tok b ss \/
  exists j, (j < length ss)%nat /\ 0 < cp /\ (i + Z.of_nat j) mod cp = 0 /\ dgetd (bigram_loop tok mf cp i ss d) b 0 = n_bigram tok b (skipn j ss).
Proof.
  induction ss as [|s ss IH]; intros i d C b; [left; cbn; lia|].
  change (bigram_loop tok mf cp i (s :: ss) d) with (bigram_loop tok mf cp (i + 1) ss (bstep tok mf cp i s d)).
  destruct (bstep_spec tok mf cp i s d C) as [C' E]. destruct (IH (i + 1) _ C' b) as [A|(j & J & P & M & A)].
  - rewrite A, E, n_bigram_cons. destruct ((cp >? 0) && (i mod cp =? 0)) eqn:PA; [|left; lia]. apply andb_prop in PA. destruct PA as [P1 P2].
    unfold at_least. destruct (Z.leb_spec mf (dgetd d b 0)); [left; lia|]. right. exists 0%nat. cbn [length skipn]. rewrite n_bigram_cons. rewrite Z.add_0_r.
    repeat split; lia.
  - right. exists (S j). cbn [length skipn]. replace (i + Z.of_nat (S j)) with (i + 1 + Z.of_nat j) by lia. repeat split; auto. lia.
Qed.

Lemma bigram_train_eq tok mf cp vb ss b : bigram_train tok mf cp vb ss = Ok b ->
  bg_counter b = bfilter mf (bigram_loop tok mf cp 0 ss []) /\ bg_unigram b = unigrams (bg_counter b) /\ ctr (bg_counter b).
Proof.
  unfold bigram_train. set (d := bfilter mf (bigram_loop tok mf cp 0 ss [])). intros E.
  assert (b = mkBg d (unigrams d)) as -> by (destruct ss; [destruct vb; [discriminate|]|]; injection E as <-; reflexivity).
  cbn [bg_counter bg_unigram]. repeat split; apply ctr_filter, bloop_ctr, ctr_nil.
Qed.
(** the unigram table *)
Lemma unigrams_get (d : dict (str * str) Z) w : dgetd (unigrams d) w 0 = count (fun bf => eqb (fst (fst bf)) w) d + count (fun bf => eqb (snd (fst bf)) w) d.
Proof.
  unfold unigrams. rewrite bump_get, occ_concat, !count_Zsum, <- Zsum_add. unfold dgetd. cbn [dget]. rewrite Z.add_0_l. apply Zsum_ext. intros [[a c] f] _. unfold occ. cbn [Zsum fst snd].
  rewrite (eqb_sym w a), (eqb_sym w c). lia.
Qed.
Lemma unigrams_pos (d : dict (str * str) Z) a c f : In ((a, c), f) d -> 0 < dgetd (unigrams d) a 0 /\ 0 < dgetd (unigrams d) c 0.
Proof.
  intros J. rewrite !unigrams_get, !count_Zsum.
  assert (A : forall (g : str * str * Z -> bool), 0 <= Zsum (fun x => if g x then 1 else 0) d) by (intros g; apply Zsum_nonneg; intros y _; destruct (g y); lia).
  assert (B : forall (g : str * str * Z -> bool), g ((a, c), f) = true -> 1 <= Zsum (fun x => if g x then 1 else 0) d).
  { intros g G. pose proof (Zsum_In_le (fun x => if g x then 1 else 0) d ((a, c), f)) as X. cbv beta in X. rewrite G in X. apply X; [intros y _; destruct (g y); lia|exact J]. }
  split.
  - pose proof (B (fun bf => eqb (fst (fst bf)) a) (eqb_refl a)). pose proof (A (fun bf => eqb (snd (fst bf)) a)). cbv beta in *. lia.
  - pose proof (B (fun bf => eqb (snd (fst bf)) c) (eqb_refl c)). pose proof (A (fun bf => eqb (fst (fst bf)) c)). cbv beta in *. lia.
Qed.
Lemma unigrams_ctr (d : dict (str * str) Z) : ctr (unigrams d). Proof. apply ctr_bump, ctr_nil. Qed.
Lemma base_of_ok b a c f : bg_unigram b = unigrams (bg_counter b) -> In ((a, c), f) (bg_counter b) ->
  base_of b (a, c) = Ok (dgetd (bg_unigram b) a 0 * dgetd (bg_unigram b) c 0) /\ 0 < dgetd (bg_unigram b) a 0 * dgetd (bg_unigram b) c 0.
Proof.
  intros U J. unfold base_of. cbn [fst snd]. rewrite U. destruct (unigrams_pos _ _ _ _ J) as [A B]. rewrite (ctr_get _ a (unigrams_ctr _)), (ctr_get _ c (unigrams_ctr _)).
  destruct (Z.ltb_spec 0 (dgetd (unigrams (bg_counter b)) a 0)); [|lia]. destruct (Z.ltb_spec 0 (dgetd (unigrams (bg_counter b)) c 0)); [|lia]. split; [reflexivity|]. apply Z.mul_pos_pos; assumption.
Qed.
(** selection by score *)
Lemma dget_filter_map {V W} (f : str * str -> V -> W) (p : W -> bool) (d : dict (str * str) V) w : dwf d ->
  dget (filter (fun ws => p (snd ws)) (map (fun kv => (fst kv, f (fst kv) (snd kv))) d)) w =
    match dget d w with Some v => if p (f w v) then Some (f w v) else None | None => None end.
Proof.
  intros D. change (filter (fun ws => p (snd ws)) (map (fun kv => (fst kv, f (fst kv) (snd kv))) d)) with (dfilter (fun _ x => p x) (map (fun kv => (fst kv, f (fst kv) (snd kv))) d)).
  assert (D' : dwf (map (fun kv => (fst kv, f (fst kv) (snd kv))) d)) by (unfold dwf, dkeys in *; rewrite map_map; exact D).
  rewrite (dget_dfilter _ _ _ D').
  assert (E : dget (map (fun kv => (fst kv, f (fst kv) (snd kv))) d) w = option_map (f w) (dget d w)).
  { clear. induction d as [|[k v] d IH]; cbn [map dget fst snd]; [reflexivity|]. destruct (eqb_spec k w) as [->|]; [reflexivity|exact IH]. }
  rewrite E. destruct (dget d w); reflexivity.
Qed.
Lemma extract_scored_eq {T} (ge : T -> bool) (score : str * str -> Z -> res T) (sc : str * str -> Z -> T) b : dwf (bg_counter b) ->
  (forall w f, In (w, f) (bg_counter b) -> score w f = Ok (sc w f)) ->
  exists out, extract_scored ge score b = Ok out /\ NoDup (map fst out) /\
    forall w f s, In (w, (f, s)) out <-> In (w, f) (bg_counter b) /\ s = sc w f /\ ge s = true.
Proof.
  intros W S. unfold extract_scored. rewrite (mapM_ok' _ (fun wf => (fst wf, sc (fst wf) (snd wf)))) by (intros [w f] J; cbn [fst snd]; rewrite (S w f J); reflexivity). cbn [bind].
  set (scored := map (fun wf => (fst wf, sc (fst wf) (snd wf))) (bg_counter b)).
  assert (WS : dwf (filter (fun ws => ge (snd ws)) scored)) by (apply NoDup_filter_map; unfold dwf, dkeys, scored; rewrite map_map; exact W).
  rewrite dict_of_wf by exact WS. eexists. split; [reflexivity|].
  assert (M : forall w f, In (w, f) (bg_counter b) -> dget (filter (fun ws => ge (snd ws)) scored) w = if ge (sc w f) then Some (sc w f) else None).
  { intros w f J. unfold scored. rewrite (dget_filter_map sc ge) by exact W. rewrite (In_dget _ _ _ W J). reflexivity. }
  split.
  - assert (G : forall l, NoDup (map fst l) -> NoDup (map fst (concat (map (fun wf : str * str * Z => match dget (filter (fun ws => ge (snd ws)) scored) (fst wf) with Some s => [(fst wf, (snd wf, s))] | None => [] end) l)))).
    { induction l as [|[w f] l IH]; intros N; cbn [map concat]; [constructor|]. inversion N as [|? ? Hn N']; subst. rewrite map_app. cbn [fst snd] in *.
      destruct (dget _ w); cbn [map app fst]; [|apply IH, N']. constructor; [|apply IH, N'].
      intros J. apply Hn. apply in_map_iff in J. destruct J as ([w' y] & E & J). cbn [fst] in E. subst w'. apply in_concat in J. destruct J as (z & J & K). apply in_map_iff in J. destruct J as ([w2 f2] & <- & J).
      cbn [fst snd] in K. destruct (dget _ w2); [|destruct K]. destruct K as [K|[]]. injection K as -> _. apply (in_map fst) in J. exact J. }
    apply G, W.
  - intros w f s. rewrite in_concat. split.
    + intros (z & J & K). apply in_map_iff in J. destruct J as ([w2 f2] & <- & J). cbn [fst snd] in K. rewrite (M w2 f2 J) in K. destruct (ge (sc w2 f2)) eqn:GE; [|destruct K]. destruct K as [K|[]]. injection K as -> -> <-. auto.
    + intros (J & -> & GE). exists [(w, (f, sc w f))]. split; [|left; reflexivity]. apply in_map_iff. exists (w, f). split; [|exact J]. cbn [fst snd]. rewrite (M w f J), GE. reflexivity.
Qed.
Lemma by_frequency b topk th : dwf (bg_counter b) -> NoDup (map fst (extract_by_frequency b topk th)) /\
  (forall w f s, In (w, (f, s)) (extract_by_frequency b topk th) <-> In (w, f) (bg_counter b) /\ s = f /\ th <= f) /\
  (0 < topk -> StronglySorted (fun x y => fst (snd y) <= fst (snd x)) (extract_by_frequency b topk th)).
Proof.
  intros W. unfold extract_by_frequency.
  set (F := dfilter (fun _ f => f >=? th) (bg_counter b)). set (S := if topk >? 0 then sort (fun x y : str * str * Z => - snd x <=? - snd y) F else F).
  assert (P : Permutation S F) by (unfold S; destruct (topk >? 0); [apply sort_perm|apply Permutation_refl]).
  assert (WF : NoDup (map fst F)) by (apply dwf_dfilter, W).
  assert (WS : NoDup (map fst S)) by (eapply Permutation_NoDup; [apply Permutation_map, Permutation_sym, P|exact WF]).
  rewrite dict_of_wf by (rewrite map_map; exact WS). split; [rewrite map_map; exact WS|]. split.
  - intros w f s. rewrite in_map_iff. split.
    + intros ([w' f'] & E & J). injection E as -> -> <-. apply (Permutation_in _ P) in J. apply filter_In in J. cbn [fst snd] in J. destruct J as [J G]. repeat split; auto. lia.
    + intros (J & -> & G). exists (w, f). split; [reflexivity|]. apply (Permutation_in _ (Permutation_sym P)). apply filter_In. split; [exact J|]. cbn [fst snd]. lia.
  - intros H. unfold S. destruct (Z.gtb_spec topk 0); [|lia].
    assert (Q : StronglySorted (fun x y : str * str * Z => (- snd x <=? - snd y) = true) (sort (fun x y : str * str * Z => - snd x <=? - snd y) F)) by (apply sort_sorted; intros; lia).
    clear - Q. clearbody F. induction Q as [|a l S0 IH F0]; cbn [map]; constructor; [assumption|]. rewrite Forall_map. eapply Forall_impl; [|exact F0]. intros c Hc. cbv beta in Hc. apply Z.leb_le in Hc. cbn [fst snd]. lia.
Qed.
