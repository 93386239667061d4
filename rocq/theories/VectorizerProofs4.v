(** * Proofs about the word-context matrix: vocabulary, encoding *)
From Coq Require Import QArith Qround Lqa.
From Verif Require Import PyBase PyDict PySort PyText PyFile CountLemmas SortLemmas QLemmas UtilsSpec UtilsProofs UtilsProofs3 UtilsProofs5 VectorizerModel VectorizerSpec VectorizerProofs VectorizerProofs2 VectorizerProofs3.
Open Scope Z_scope.

Lemma count_words_eq {S} (tok : S -> list str) sents : count_words tok sents = counter (concat (map tok sents)).
Proof.
  unfold count_words, counter. generalize (@nil (str * Z)). induction sents as [|s sents IH]; intros d; [reflexivity|]. cbn [fold_left map concat]. rewrite fold_left_app. apply IH.
Qed.
Definition wterms {S} (tok : S -> list str) (order : list str -> list str) (min_tf : Z) (sents : list S) : list str :=
  sort (fun x y => - word_freq tok sents x <=? - word_freq tok sents y) (order (filter (fun w => word_freq tok sents w >=? min_tf) (first_seen (concat (map tok sents))))).
Lemma sort_ext_le {A} (le le' : A -> A -> bool) l : (forall x y, le x y = le' x y) -> sort le l = sort le' l.
Proof. intros E. rewrite <- (map_id (sort le l)). rewrite (sort_map le le' (fun x => x)); [rewrite map_id; reflexivity|]. intros. symmetry. apply E. Qed.
Lemma scanning_eq {S} (tok : S -> list str) order min_tf sents : (forall l, Permutation (order l) l) ->
  NoDup (wterms tok order min_tf sents) /\
  scanning_vocabulary tok order min_tf sents = (vocabulary (set_vocabulary (wterms tok order min_tf sents)), wterms tok order min_tf sents).
Proof.
  intros P. assert (NoDup (wterms tok order min_tf sents)) as N.
  { apply sort_NoDup. eapply Permutation_NoDup; [apply Permutation_sym, P|]. apply NoDup_filter, (seen_NoDup (concat (map tok sents))). }
  split; [exact N|]. unfold scanning_vocabulary. cbv zeta. rewrite count_words_eq.
  assert (dkeys (dfilter (fun _ n => n >=? min_tf) (counter (concat (map tok sents)))) = filter (fun w => word_freq tok sents w >=? min_tf) (first_seen (concat (map tok sents)))) as ->.
  { rewrite counter_pairs, counter_seen. unfold dfilter, dkeys. rewrite filter_map_comm, map_map. cbn [fst snd]. rewrite map_id. reflexivity. }
  assert (sort (fun x y => - dgetd (counter (concat (map tok sents))) x 0 <=? - dgetd (counter (concat (map tok sents))) y 0)
     (order (filter (fun w => word_freq tok sents w >=? min_tf) (first_seen (concat (map tok sents))))) = wterms tok order min_tf sents) as ->.
  { unfold wterms. apply sort_ext_le. intros x y. rewrite !counter_getd. reflexivity. }
  change (dict_of (map (fun it : Z * str => (snd it, fst it)) (enumerate (wterms tok order min_tf sents)))) with (vocabulary (set_vocabulary (wterms tok order min_tf sents))).
  f_equal. rewrite (set_vocab_keys _ N). apply map_fst_sort_enum.
Qed.
Lemma wterms_In {S} (tok : S -> list str) order min_tf sents w : (forall l, Permutation (order l) l) ->
  (In w (wterms tok order min_tf sents) <-> (exists s, In s sents /\ In w (tok s)) /\ min_tf <= word_freq tok sents w).
Proof.
  intros P. unfold wterms.
  assert (forall l : list str, In w (sort (fun x y => - word_freq tok sents x <=? - word_freq tok sents y) (order l)) <-> In w l) as E.
  { intros l. assert (Permutation (sort (fun x y => - word_freq tok sents x <=? - word_freq tok sents y) (order l)) l) as Q.
    { eapply perm_trans; [|apply P]. first [apply sort_perm | apply Permutation_sym, sort_perm]. }
    split; apply Permutation_in; [exact Q|apply Permutation_sym, Q]. }
  rewrite E, filter_In. change (first_seen (concat (map tok sents))) with (seen (concat (map tok sents))). rewrite seen_In, in_concat. setoid_rewrite in_map_iff. rewrite Z.geb_leb, Z.leb_le.
  split; [intros [(x & (d & <- & I) & J) Q]; split; [exists d; auto|exact Q]|intros [(d & I & J) Q]; split; [|exact Q]; exists (tok d); split; [exists d; auto|exact J]].
Qed.
Lemma sorted_desc {A} (f : A -> Z) l : StronglySorted (fun x y => f y <= f x) (sort (fun x y => - f x <=? - f y) l).
Proof.
  eapply StronglySorted_impl; [|apply sort_sorted]. 2: intros x y; destruct (Z.leb_spec (- f x) (- f y)); [left; reflexivity|right; apply Z.leb_le; lia].
  - cbv beta. intros x y L. apply Z.leb_le in L. lia.
  - intros x y z L1 L2. apply Z.leb_le in L1, L2. apply Z.leb_le. lia.
Qed.

(** ** encoding *)
Section Encode.
Variable v : vocab.
Hypothesis C : coherent v.
Variable d : dict str (dict str Q).
Hypothesis Wd : cwf (dmem (vocabulary v)) d.
Definition idx (t : str) : Z := dgetd (vocabulary v) t 0.
Definition etrip (d : dict str (dict str Q)) : list (Z * Z * Q) := concat (map (fun wc => map (fun cq => (idx (fst wc), idx (fst cq), snd cq)) (snd wc)) d).
Lemma idx_get t : dmem (vocabulary v) t = true -> dget (vocabulary v) t = Some (idx t).
Proof. unfold dmem, idx, dgetd. destruct (dget (vocabulary v) t); [reflexivity|discriminate]. Qed.
Lemma encode_eq : encode_as_matrix d (vocabulary v) = match etrip d with [] => Err ValueError
  | l => Ok (mkMatrix (zmax (map (fun t => fst (fst t)) l) + 1) (zmax (map (fun t => snd (fst t)) l) + 1) l) end.
Proof.
  unfold encode_as_matrix. rewrite (UtilsProofs5.mapM_ok _ (fun wc => map (fun cq => (idx (fst wc), idx (fst cq), snd cq)) (snd wc))); [reflexivity|].
  intros [w x] I. destruct Wd as [_ F]. eapply Forall_forall in F; [|exact I]. cbn [fst snd] in *. destruct F as (Pw & _ & _ & F). rewrite (idx_get _ Pw).
  apply UtilsProofs5.mapM_ok. intros [c q] Ic. eapply Forall_forall in F; [|exact Ic]. cbn [fst snd] in *. rewrite (idx_get _ F). reflexivity.
Qed.
Lemma etrip_In i j q : In (i, j, q) (etrip d) <-> exists a b, dget (vocabulary v) a = Some i /\ dget (vocabulary v) b = Some j /\ qget d a b = Some q.
Proof.
  destruct Wd as [W F]. unfold etrip. rewrite in_concat. setoid_rewrite in_map_iff. split.
  - intros (x & ([a y] & <- & I) & Hx). cbn [fst snd] in Hx. apply in_map_iff in Hx as ([b q'] & E & Ib). cbn [fst snd] in E. injection E as <- <- <-.
    eapply Forall_forall in F; [|exact I]. cbn [fst snd] in F. destruct F as (Pa & Wy & _ & Fy). eapply Forall_forall in Fy as Pb; [|exact Ib]. cbn [fst] in Pb.
    exists a, b. split; [apply idx_get, Pa|]. split; [apply idx_get, Pb|]. unfold qget. rewrite (In_dget _ _ _ W I). apply In_dget; assumption.
  - intros (a & b & Ea & Eb & Q). unfold qget in Q. destruct (dget d a) as [y|] eqn:G; [|discriminate]. exists (map (fun cq => (idx a, idx (fst cq), snd cq)) y).
    split; [exists (a, y); split; [reflexivity|apply dget_In, G]|]. apply in_map_iff. exists (b, q). split; [|apply dget_In, Q]. cbn [fst snd]. unfold idx, dgetd. rewrite Ea, Eb. reflexivity.
Qed.
Lemma idx_inj a b : dmem (vocabulary v) a = true -> dmem (vocabulary v) b = true -> idx a = idx b -> a = b.
Proof. intros A B E. apply idx_get in A, B. rewrite E in A. eapply (coh_inj v C); eauto. Qed.
Lemma NoDup_map_in {A B} (f : A -> B) l : NoDup l -> (forall x y, In x l -> In y l -> f x = f y -> x = y) -> NoDup (map f l).
Proof.
  induction l as [|x l IH]; intros N I; [constructor|]. inversion N as [|? ? NI N']; subst. cbn. constructor.
  - intros J. apply in_map_iff in J as (y & E & J). apply NI. rewrite (I x y); [exact J|left; reflexivity|right; exact J|symmetry; exact E].
  - apply IH; [exact N'|]. intros y z Iy Iz. apply I; right; assumption.
Qed.
Lemma etrip_NoDup : NoDup (map fst (etrip d)).
Proof.
  destruct Wd as [W F]. unfold etrip. clear Wd. revert W F. induction d as [|[a y] d' IH]; intros W F; [constructor|]. cbn [map concat fst snd]. rewrite map_app.
  inversion W as [|? ? NI W']; subst. inversion F as [|? ? (Pa & Wy & _ & Fy) F']; subst. cbn [fst snd] in *.
  apply NoDup_app_intro.
  - rewrite map_map. cbn [fst]. rewrite <- (map_map fst (fun c => (idx a, idx c))). apply NoDup_map_in; [exact Wy|].
    intros c c' Ic Ic' E. injection E as E. apply in_map_iff in Ic as (x & <- & Ix), Ic' as (x' & <- & Ix'). apply idx_inj; [| |exact E]; eapply Forall_forall in Fy; eauto.
  - apply IH; assumption.
  - intros [i j] I I'. rewrite map_map in I. apply in_map_iff in I as (x & E & _). cbn [fst] in E. injection E as <- <-.
    rewrite concat_map, in_concat in I'. destruct I' as (t & I' & It). rewrite map_map in I'. apply in_map_iff in I' as ([a' y'] & <- & I'). cbn [fst snd] in It. rewrite map_map in It.
    apply in_map_iff in It as (x' & E & _). cbn [fst] in E. injection E as E _. eapply Forall_forall in F' as (Pa' & _); [|exact I']. cbn [fst] in Pa'.
    apply NI. apply idx_inj in E; [|exact Pa'|exact Pa]. subst. apply (in_map fst) in I'. exact I'.
Qed.
Lemma entryQ_unique m i j : NoDup (map fst (triplets m)) -> (entryQ m i j == match dget (triplets m) (i, j) with Some q => q | None => 0 end)%Q.
Proof.
  unfold entryQ. destruct m as [nr nc ts]. cbn [triplets]. induction ts as [|[[i' j'] q] ts IH]; intros N; [reflexivity|]. inversion N as [|? ? NI N']; subst.
  cbn [filter fst snd dget]. unfold eqb at 1. cbn [EqB_prod]. unfold prod_eqb. cbn [fst snd eqb EqB_Z]. destruct ((i' =? i) && (j' =? j)) eqn:E; [|apply IH, N'].
  apply andb_true_iff in E as [E1 E2]. apply Z.eqb_eq in E1, E2. subst. cbn [map snd].
  assert (filter (fun t : Z * Z * Q => (fst (fst t) =? i) && (snd (fst t) =? j)) ts = []) as ->.
  { assert (forall x, In x ts -> (fst (fst x) =? i) && (snd (fst x) =? j) = false) as F.
    { intros [[a b] x] I. cbn [fst snd]. destruct (Z.eqb_spec a i) as [->|]; [|reflexivity]. destruct (Z.eqb_spec b j) as [->|]; [|reflexivity].
      exfalso. apply NI. apply (in_map fst) in I. exact I. }
    clear -F. induction ts as [|x ts IH]; [reflexivity|]. cbn [filter]. rewrite (F x (or_introl eq_refl)). apply IH. intros y I. apply F. right. exact I. }
  rewrite Qsum_cons. change (Qsum (map snd [])) with 0%Q. ring.
Qed.
Lemma etrip_entry nr nc a b i j : dget (vocabulary v) a = Some i -> dget (vocabulary v) b = Some j -> (entryQ (mkMatrix nr nc (etrip d)) i j == qgetd d a b)%Q.
Proof.
  intros Ea Eb. rewrite entryQ_unique; [|apply etrip_NoDup]. cbn [triplets]. unfold qgetd. destruct (dget (etrip d) (i, j)) as [q|] eqn:G.
  - apply dget_In, etrip_In in G as (a' & b' & Ea' & Eb' & Q). rewrite (coh_inj v C _ _ _ Ea Ea'), (coh_inj v C _ _ _ Eb Eb'), Q. reflexivity.
  - destruct (qget d a b) as [q|] eqn:Q; [|reflexivity]. exfalso. apply dget_None in G. apply G.
    assert (In (i, j, q) (etrip d)) as I by (apply etrip_In; exists a, b; auto). apply (in_map fst) in I. exact I.
Qed.
End Encode.

(** ** presence of a pair *)
Lemma weights_pos windows dyn q : In q (weights windows dyn) -> (0 < q)%Q.
Proof.
  unfold weights. rewrite in_map_iff. intros (i & <- & I). apply in_seq in I. destruct dyn; [|reflexivity].
  apply Qlt_shift_div_l; [change 0%Q with (inject_Z 0); rewrite <- Zlt_Qlt; lia|]. rewrite Qmult_0_l. change 0%Q with (inject_Z 0). rewrite <- Zlt_Qlt. lia.
Qed.
Lemma events_pos {S} (tok : S -> list str) inv windows dyn sents : Forall (fun e : str * str * Q => (0 < snd e)%Q) (all_events tok inv (weights windows dyn) sents).
Proof.
  apply Forall_concat_map. intros s _. apply Forall_concat_map. intros i _. unfold events_at. destruct (nth_error (tok s) i) as [w|]; [|constructor].
  destruct (negb (inv w)); [constructor|]. cbv zeta. apply Forall_app. split; apply Forall_concat_map; intros [k q] I; apply in_combine_r in I; apply weights_pos in I; cbn [fst snd];
  unfold ev1; match goal with |- context [match ?p with _ => _ end] => destruct p end; try constructor; destruct (nth_error (tok s) n); try constructor;
  match goal with |- context [negb ?x] => destruct x end; cbn [negb]; repeat constructor; exact I.
Qed.
Lemma esum_pos a b evs : Forall (fun e : str * str * Q => (0 < snd e)%Q) evs -> ((0 < esum a b evs)%Q <-> exists e, In e evs /\ is_ev a b e = true).
Proof.
  intros F. unfold esum. split.
  - intros P. destruct (filter (is_ev a b) evs) as [|e l] eqn:E; [discriminate P|]. exists e. assert (In e (filter (is_ev a b) evs)) as I by (rewrite E; left; reflexivity). apply filter_In in I. exact I.
  - intros (e & I & E). assert (In e (filter (is_ev a b) evs)) as J by (apply filter_In; auto).
    assert (Forall (fun e : str * str * Q => (0 < snd e)%Q) (filter (is_ev a b) evs)) as F'.
    { apply Forall_forall. intros x Ix. apply filter_In in Ix as [Ix _]. eapply Forall_forall in F; [exact F|exact Ix]. }
    destruct (filter (is_ev a b) evs) as [|x l]; [destruct J|]. inversion F' as [|? ? Px Pl]; subst. cbn [map]. rewrite Qsum_cons.
    assert (0 <= Qsum (map snd l))%Q. { apply Qsum_nonneg. intros y Iy. eapply Forall_forall in Pl; [|exact Iy]. apply Qlt_le_weak. exact Pl. } lra.
Qed.
Lemma present {S} (tok : S -> list str) inv windows dyn sents a b : inv a = true -> inv b = true ->
  (qget (word_context tok inv (weights windows dyn) sents) a b <> None <-> (0 < cooc tok windows dyn sents a b)%Q).
Proof.
  intros Ia Ib. rewrite <- (corpus_sum tok inv windows dyn sents a b Ia Ib). rewrite word_context_events.
  destruct (qget_events (all_events tok inv (weights windows dyn) sents) [] a b) as [E1 E2]. rewrite E2. rewrite E1. change (qgetd [] a b) with 0%Q. rewrite Qplus_0_l.
  fold (esum a b (all_events tok inv (weights windows dyn) sents)). rewrite (esum_pos a b _ (events_pos tok inv windows dyn sents)).
  split; [intros [H|H]; [exfalso; apply H; reflexivity|exact H]|intros H; right; exact H].
Qed.
Lemma zmax_spec l : l <> [] -> (forall x, In x l -> 0 <= x) -> In (zmax l) l /\ forall x, In x l -> x <= zmax l.
Proof.
  induction l as [|x l IH]; intros NE P; [congruence|]. unfold zmax. cbn [fold_right]. fold (zmax l). destruct l as [|y l'].
  - cbn. split; [left; specialize (P x (or_introl eq_refl)); lia|]. intros z [<-|[]]. lia.
  - destruct IH as [I U]; [discriminate|intros z Iz; apply P; right; exact Iz|]. split.
    + destruct (Z.max_spec x (zmax (y :: l'))) as [[_ ->]|[_ ->]]; [right; exact I|left; reflexivity].
    + intros z [<-|Iz]; [lia|]. specialize (U z Iz). lia.
Qed.
