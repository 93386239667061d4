(** * Orders on strings, coverage over a history, counter files, the corpus reader, most_similar, sort_by_alphabet *)
From Coq Require Import QArith.
From Verif Require Import PyBase PyDict PySort PyText PyFile SortLemmas UtilsModel UtilsSpec UtilsProofs UtilsProofs2 UtilsProofs3 UtilsProofs4.
Open Scope Z_scope.

(** ** the order on strings *)
Lemma str_leb_refl a : str_leb a a = true.
Proof. induction a as [|x a IH]; [reflexivity|]. cbn [str_leb]. rewrite N.ltb_irrefl, N.eqb_refl. exact IH. Qed.
Lemma str_leb_total a : forall b, str_leb a b = true \/ str_leb b a = true.
Proof.
  induction a as [|x a IH]; intros [|y b]; cbn [str_leb]; auto.
  destruct (N.ltb_spec x y); auto. destruct (N.ltb_spec y x); auto.
  replace (N.eqb x y) with true by (symmetry; apply N.eqb_eq; lia). replace (N.eqb y x) with true by (symmetry; apply N.eqb_eq; lia). apply IH.
Qed.
Lemma str_leb_trans a : forall b c, str_leb a b = true -> str_leb b c = true -> str_leb a c = true.
Proof.
  induction a as [|x a IH]; intros [|y b] [|z c]; cbn [str_leb]; try congruence; auto.
  destruct (N.ltb_spec x y), (N.ltb_spec y z), (N.ltb_spec x z); try congruence; try lia.
  - destruct (N.eqb_spec y z); [lia|congruence].
  - destruct (N.eqb_spec x y); [lia|congruence].
  - destruct (N.eqb_spec x y); [subst|congruence]. destruct (N.eqb_spec y z); [subst|congruence]. apply IH.
Qed.
Lemma str_leb_antisym a : forall b, str_leb a b = true -> str_leb b a = true -> a = b.
Proof.
  induction a as [|x a IH]; intros [|y b]; cbn [str_leb]; try congruence; auto.
  destruct (N.ltb_spec x y), (N.ltb_spec y x); try lia.
  - destruct (N.eqb_spec y x); [lia|congruence].
  - destruct (N.eqb_spec x y); [lia|congruence].
  - destruct (N.eqb_spec x y) as [->|]; [|congruence]. rewrite N.eqb_refl. intros A B. f_equal. auto.
Qed.
Lemma sort_str_sorted (l : list str) : StronglySorted (fun x y => str_leb x y = true) (sort str_leb l).
Proof. apply (sort_sorted str_leb str_leb_total). intros x y z. apply str_leb_trans. Qed.

Lemma ec_le_spec x y : ec_le x y = true <-> snd y < snd x \/ (snd x = snd y /\ str_leb (fst x) (fst y) = true).
Proof.
  unfold ec_le. destruct (Z.ltb_spec (- snd x) (- snd y)); [intuition lia|].
  destruct (Z.eqb_spec (- snd x) (- snd y)); [split; intros; [right; split; [lia|assumption]|intuition lia]|]. split; [congruence|]. lia.
Qed.
Lemma sort_ec_sorted (d : dict str Z) : StronglySorted (fun x y => snd y < snd x \/ (snd x = snd y /\ str_leb (fst x) (fst y) = true)) (sort ec_le d).
Proof.
  apply StronglySorted_impl with (R1 := fun x y => ec_le x y = true); [intros x y; apply ec_le_spec|]. apply sort_sorted.
  - intros x y. rewrite !ec_le_spec. destruct (str_leb_total (fst x) (fst y)), (Z.lt_trichotomy (snd x) (snd y)) as [|[|]]; intuition lia.
  - intros x y z. rewrite !ec_le_spec. intros [A|[A A']] [B|[B B']]; try (left; lia). right. split; [lia|]. eapply str_leb_trans; eauto.
Qed.

(** ** coverage over a history of removals *)
Definition removals (c : ecounter) (ess : list (list str)) : ecounter := fold_left (fun c es => fst (remove_covered c es)) ess c.
Definition ECI (d : dict str Z) (removed : list str) (c : ecounter) : Prop :=
  ec_counter c = dfilter (fun k _ => negb (mem k removed)) d /\ ec_sum c = total d /\
  (ec_coverage c == 1 - inject_Z (total (ec_counter c)) / inject_Z (total d))%Q /\ (0 <= ec_coverage c <= 1)%Q.
Lemma ECI_start d : cnt_ok d -> 0 < total d -> ECI d [] (mkCounter d).
Proof.
  intros C T. unfold ECI, mkCounter. cbn [ec_counter ec_sum ec_coverage].
  split; [unfold dfilter; cbn; clear; induction d as [|x d IH]; cbn; [|rewrite <- IH]; reflexivity|].
  split; [reflexivity|]. split; [|split; discriminate].
  assert (~ inject_Z (total d) == 0)%Q.
  { change 0%Q with (inject_Z 0). rewrite inject_Z_injective. lia. }
  field. assumption.
Qed.
Lemma dfilter_dfilter {V} (f g : str -> V -> bool) (d : dict str V) : dfilter f (dfilter g d) = dfilter (fun k v => g k v && f k v) d.
Proof. unfold dfilter. apply filter_filter_comm. Qed.
Lemma ECI_step d rem c es : cnt_ok d -> 0 < total d -> ECI d rem c ->
  exists c', remove_covered c es = (c', None) /\ ECI d (rem ++ es) c' /\ (ec_coverage c <= ec_coverage c')%Q.
Proof.
  intros C T (A & B & D & E).
  assert (Z1 : 0 <= zsum (dvals (ec_counter c)) <= total d) by (rewrite A; apply zsum_filter_le, C).
  destruct (remove_covered_spec c es) as (c' & R & R1 & R2 & R3 & R4 & R5 & R6).
  { rewrite A. apply cnt_ok_filter, C. } { lia. } { lia. }
  exists c'. split; [exact R|]. unfold cov in R3. rewrite R2, B in R3. split.
  - unfold ECI. split; [|split; [congruence|split; assumption]].
    rewrite R1, A, dfilter_dfilter. unfold dfilter. apply filter_ext. intros [k v]. cbn [fst snd].
    rewrite <- negb_orb. f_equal. unfold mem. rewrite existsb_app. reflexivity.
  - rewrite D, R3. unfold Qminus. apply Qplus_le_compat; [apply Qle_refl|]. apply Qopp_le_compat. unfold Qdiv.
    apply Qmult_le_compat_r; [rewrite <- Zle_Qle; exact R6|]. apply Qinv_le_0_compat. change 0%Q with (inject_Z 0). rewrite <- Zle_Qle. lia.
Qed.
Lemma ECI_removals d ess : cnt_ok d -> 0 < total d -> ECI d (concat ess) (removals (mkCounter d) ess).
Proof.
  intros C T. induction ess as [|es ess IH] using rev_ind; [apply ECI_start; assumption|].
  unfold removals in *. rewrite fold_left_app, concat_app. cbn [fold_left concat]. rewrite app_nil_r.
  destruct (ECI_step d (concat ess) _ es C T IH) as (c' & R & I & _). rewrite R. exact I.
Qed.

(** ** counter file *)
Lemma ec_lines d : Forall (fun kv => word (fst kv)) d ->
  file_lines (concat (map (fun kv => fst kv ++ [SP] ++ format_int (snd kv) ++ [10%N]) d)) =
  map (fun kv : str * Z => (fst kv ++ [SP] ++ format_int (snd kv)) ++ [10%N]) d.
Proof.
  intros F. pose proof (file_lines_concat (map (fun kv : str * Z => fst kv ++ [SP] ++ format_int (snd kv)) d)) as E. rewrite !map_map in E.
  rewrite <- E.
  - f_equal. f_equal. apply map_ext. intros kv. rewrite <- !app_assoc. reflexivity.
  - apply Forall_forall. intros b I. apply in_map_iff in I as (kv & <- & I). rewrite Forall_forall in F. specialize (F _ I).
    apply Forall_app. split; [apply nospace_no_nl, F|]. apply Forall_app. split; [constructor; [split; discriminate|constructor]|].
    apply nospace_no_nl, format_int_word.
Qed.
Lemma split_ec k z : word k -> split ((k ++ [SP] ++ format_int z) ++ [10%N]) = [k; format_int z].
Proof.
  intros W. rewrite <- app_assoc. cbn [app]. rewrite split_word_sp by (assumption || reflexivity). f_equal.
  rewrite split_word_sp by (apply format_int_word || reflexivity). reflexivity.
Qed.
Lemma ec_load_lines d : Forall (fun kv => word (fst kv)) d -> forall acc, NoDup (map fst (acc ++ d)) ->
  ec_load_loop (map (fun kv : str * Z => (fst kv ++ [SP] ++ format_int (snd kv)) ++ [10%N]) d) acc = Ok (acc ++ d).
Proof.
  induction 1 as [|[k v] d W F IH]; intros acc ND; cbn [map ec_load_loop fst snd]; [rewrite app_nil_r; reflexivity|].
  rewrite split_ec by exact W. rewrite parse_format_int. cbn [bind].
  assert (N : ~ In k (map fst acc)).
  { rewrite map_app in ND. cbn [map fst] in ND. apply NoDup_remove_2 in ND. intros I. apply ND, in_or_app. auto. }
  rewrite dset_items_new by (apply dget_None; exact N). rewrite IH; rewrite <- app_assoc; [reflexivity|exact ND].
Qed.
Lemma ec_roundtrip c : is_dict (ec_counter c) -> Forall (fun kv => word (fst kv)) (ec_counter c) ->
  ec_load (ec_save c) = Ok (mkCounter (sort ec_le (ec_counter c))).
Proof.
  intros D F. unfold ec_load, ec_save. rewrite ec_lines by (apply Forall_sort; exact F). rewrite ec_load_lines.
  - reflexivity.
  - apply Forall_sort. exact F.
  - cbn [app]. eapply Permutation_NoDup; [apply Permutation_sym, Permutation_map, sort_perm|exact D].
Qed.
Lemma zsum_perm l1 l2 : Permutation l1 l2 -> zsum l1 = zsum l2.
Proof. unfold zsum. induction 1; cbn [fold_right] in *; lia. Qed.

(** ** DoublespaceLineCorpus *)
Definition nsents (ls : list str) : Z := Z.of_nat (length (concat (map doc_sents ls))).
Definition stop_at (num_doc num_sent : Z) (ls : list str) (i : nat) : Prop :=
  i = length ls \/ (0 < num_doc /\ num_doc <= Z.of_nat i) \/ (0 < num_sent /\ num_sent < nsents (firstn i ls)).
Lemma nsents_cons d ls : nsents (d :: ls) = Z.of_nat (length (doc_sents d)) + nsents ls.
Proof. unfold nsents. cbn [map concat]. rewrite app_length. lia. Qed.
Lemma nsents_app a b : nsents (a ++ b) = nsents a + nsents b.
Proof. unfold nsents. rewrite map_app, concat_app, app_length. lia. Qed.
Lemma nsents_nil : nsents [] = 0. Proof. reflexivity. Qed.
Lemma nsents_nonneg ls : 0 <= nsents ls. Proof. unfold nsents. lia. Qed.
Lemma nsents_firstn_le ls i : nsents (firstn i ls) <= nsents ls.
Proof. rewrite <- (firstn_skipn i ls) at 2. rewrite nsents_app. pose proof (nsents_nonneg (skipn i ls)). lia. Qed.
Lemma nsents_firstn_mono ls i j : (i <= j)%nat -> nsents (firstn i ls) <= nsents (firstn j ls).
Proof. intros L. replace (firstn i ls) with (firstn i (firstn j ls)) by (rewrite firstn_firstn; f_equal; lia). apply nsents_firstn_le. Qed.
Lemma check_loop_spec nd ns : forall ls done, 
  (forall i, (0 < i <= length done)%nat -> ~ stop_at nd ns (done ++ ls) i \/ (i = length done /\ ls = []) \/ (i = length done /\ 0 < nd <= Z.of_nat i)) ->
  (0 < ns -> nsents done <= ns) ->
  exists i, check_loop nd ns (Z.of_nat (length done)) (nsents done) ls = (Z.of_nat i, if 0 <? ns then Z.min ns (nsents (firstn i (done ++ ls))) else nsents (firstn i (done ++ ls))) /\
    (length done <= i <= length (done ++ ls))%nat /\ (i = 0%nat \/ stop_at nd ns (done ++ ls) i) /\ (ls <> [] -> done = [] -> (0 < i)%nat) /\ forall j, (0 < j < i)%nat -> ~ stop_at nd ns (done ++ ls) j.
Proof.
  induction ls as [|doc ls IH]; intros done P Q; cbn [check_loop].
  - exists (length done). rewrite app_nil_r. rewrite firstn_all. split.
    { destruct (Z.ltb_spec 0 ns); [rewrite Z.min_r by auto|]; reflexivity. }
    split; [lia|]. split; [right; left; reflexivity|]. split; [congruence|].
    intros j J. destruct (P j ltac:(lia)) as [X|[[X _]|[X _]]]; [rewrite app_nil_r in X; exact X|lia|lia].
  - match goal with |- context [if ?b then _ else _] => destruct b eqn:B end.
    + exists (length done). rewrite firstn_app, Nat.sub_diag, firstn_all. cbn [firstn]. rewrite app_nil_r. split.
      { destruct (Z.ltb_spec 0 ns); [rewrite Z.min_r by auto|]; reflexivity. }
      split; [rewrite app_length; lia|]. split; [right; right; left; lia|]. split; [intros _ ->; cbn in *; lia|].
      intros j J. destruct (P j ltac:(lia)) as [X|[[X _]|[X _]]]; [exact X|lia|lia].
    + assert (X : done ++ doc :: ls = (done ++ [doc]) ++ ls) by (rewrite <- app_assoc; reflexivity).
      assert (L : length (done ++ [doc]) = S (length done)) by (rewrite app_length; cbn; lia).
      assert (A : nsents done + Z.of_nat (length (doc_sents doc)) = nsents (done ++ [doc])) by (rewrite nsents_app, nsents_cons, nsents_nil; lia).
      rewrite A. assert (NP : forall j, (0 < j <= length done)%nat -> ~ stop_at nd ns (done ++ doc :: ls) j).
      { intros j J. destruct (P j J) as [Y|[[_ Y]|[-> Y]]]; [exact Y|congruence|]. lia. }
      assert (F : firstn (S (length done)) (done ++ doc :: ls) = done ++ [doc]).
      { rewrite X, <- L, firstn_app, Nat.sub_diag, firstn_all. cbn [firstn]. apply app_nil_r. }
      match goal with |- context [if ?b then _ else _] => destruct b eqn:C end.
      * exists (S (length done)). rewrite F. split; [f_equal; [lia|replace (0 <? ns) with true by lia; reflexivity]|].
        split; [rewrite app_length; cbn; lia|]. split; [right; right; right; rewrite F; lia|]. split; [lia|]. intros j J. apply NP. lia.
      * replace (Z.of_nat (length done) + 1) with (Z.of_nat (length (done ++ [doc]))) by lia.
        destruct (IH (done ++ [doc])) as (i & I1 & I2 & I3 & I4 & I5).
        { intros i I. rewrite <- X. destruct (Nat.eq_dec i (S (length done))) as [->|n].
          - destruct ls as [|y ls]; [right; left; split; [lia|reflexivity]|].
            destruct (Z.ltb_spec 0 nd) as [G|G].
            + destruct (Z.leb_spec nd (Z.of_nat (S (length done)))); [right; right; lia|]. left. unfold stop_at. rewrite F. intros [Y|[Y|Y]]; [rewrite app_length in Y; cbn in Y; lia|lia|lia].
            + left. unfold stop_at. rewrite F. intros [Y|[Y|Y]]; [rewrite app_length in Y; cbn in Y; lia|lia|lia].
          - left. apply NP. lia. }
        { lia. }
        exists i. rewrite X. split; [exact I1|]. split; [lia|]. split; [exact I3|]. split; [lia|exact I5].
Qed.
Lemma check_loop_start nd ns ls : ls <> [] -> exists i,
  check_loop nd ns 0 0 ls = (Z.of_nat i, if 0 <? ns then Z.min ns (nsents (firstn i ls)) else nsents (firstn i ls)) /\
  (0 < i <= length ls)%nat /\ stop_at nd ns ls i /\ forall j, (0 < j < i)%nat -> ~ stop_at nd ns ls j.
Proof.
  intros NE. destruct (check_loop_spec nd ns ls []) as (i & A & B & C & D & E).
  - cbn. lia.
  - rewrite nsents_nil. lia.
  - cbn [app] in *. exists i. specialize (D NE eq_refl). split; [exact A|]. split; [cbn in B; lia|]. split; [destruct C; [lia|assumption]|exact E].
Qed.
Lemma check_loop_free nd ns ls : nd <= 0 -> ns <= 0 -> check_loop nd ns 0 0 ls = (Z.of_nat (length ls), nsents ls).
Proof.
  intros A B. assert (forall ls i acc, check_loop nd ns i acc ls = (i + Z.of_nat (length ls), acc + nsents ls)) as K.
  - clear ls. induction ls as [|d ls IH]; intros i acc; cbn [check_loop length]; [f_equal; rewrite ?nsents_nil; lia|].
    replace (nd >? 0) with false by lia. replace (ns >? 0) with false by lia. cbn [andb]. rewrite IH, nsents_cons. f_equal; lia.
  - rewrite K. reflexivity.
Qed.
Lemma iter_docs_spec nd : forall ls i, 0 <= i -> iter_docs nd i ls = map strip (if nd >? 0 then firstn (Nat.max 1 (Z.to_nat (nd - i))) ls else ls).
Proof.
  induction ls as [|d ls IH]; intros i I; cbn [iter_docs]; [destruct (nd >? 0); [rewrite firstn_nil|]; reflexivity|].
  destruct (Z.gtb_spec nd 0) as [G|G]; cbn [andb].
  - destruct (i + 1 >=? nd) eqn:E.
    + replace (Nat.max 1 (Z.to_nat (nd - i))) with 1%nat by lia. reflexivity.
    + rewrite IH by lia. replace (Nat.max 1 (Z.to_nat (nd - i))) with (S (Nat.max 1 (Z.to_nat (nd - (i + 1))))) by lia. reflexivity.
  - rewrite IH by lia. reflexivity.
Qed.
Definition all_sents (ls : list str) : list str := map strip (concat (map doc_sents ls)).
Lemma iter_doc_sents_spec lim : forall ss n, 0 <= n -> (lim > 0 -> n <= lim) ->
  let out := map strip (filter (fun s => negb (length (strip s) =? 0)%nat) ss) in
  exists st, iter_doc_sents lim n ss = ((if lim >? 0 then firstn (Z.to_nat (lim - n)) out else out),
     n + Z.of_nat (length (if lim >? 0 then firstn (Z.to_nat (lim - n)) out else out)), st) /\
   (st = true -> lim > 0 /\ (Z.to_nat (lim - n) <= length out)%nat).
Proof.
  induction ss as [|s ss IH]; intros n N L; cbn [iter_doc_sents filter map].
  - exists false. split; [|congruence]. destruct (lim >? 0); cbn [map]; rewrite ?firstn_nil; cbn [length]; f_equal; f_equal; lia.
  - match goal with |- context [if ?b then _ else _] => destruct b eqn:B end.
    + exists true. assert (Z0 : Z.to_nat (lim - n) = 0%nat) by lia. rewrite Z0. replace (lim >? 0) with true by lia. cbn [firstn length]. split; [f_equal; f_equal; lia|]. intros _. lia.
    + destruct (strip s) as [|c t] eqn:T; cbn [length Nat.eqb negb map].
      * apply IH; assumption.
      * destruct (IH (n + 1) ltac:(lia) ltac:(lia)) as (st & E & F). rewrite E. exists st. cbn [map]. rewrite T. destruct (Z.gtb_spec lim 0) as [G|G].
        -- replace (Z.to_nat (lim - n)) with (S (Z.to_nat (lim - (n + 1)))) by lia. cbn [firstn length]. split; [f_equal; f_equal; lia|]. intros X. specialize (F X). lia.
        -- cbn [length]. split; [f_equal; f_equal; lia|]. intros X. specialize (F X). lia.
Qed.
Lemma iter_sents_spec lim : forall ls n, 0 <= n -> (lim > 0 -> n <= lim) ->
  iter_sents lim n ls = if lim >? 0 then firstn (Z.to_nat (lim - n)) (all_sents ls) else all_sents ls.
Proof.
  unfold all_sents. induction ls as [|d ls IH]; intros n N L; cbn [iter_sents map concat].
  - rewrite firstn_nil. destruct (lim >? 0); reflexivity.
  - destruct (iter_doc_sents_spec lim (split_dsp d) n N L) as (st & E & F). rewrite E. clear E. change (filter (fun s => negb (length (strip s) =? 0)%nat) (split_dsp d)) with (doc_sents d) in *.
    rewrite map_app. destruct st.
    + destruct (F eq_refl) as [G K]. replace (lim >? 0) with true by lia. rewrite app_nil_r, firstn_app.
      replace (Z.to_nat (lim - n) - length (map strip (doc_sents d)))%nat with 0%nat by lia. cbn [firstn]. rewrite app_nil_r. reflexivity.
    + destruct (Z.gtb_spec lim 0) as [G|G].
      * assert (LL := firstn_length (Z.to_nat (lim - n)) (map strip (doc_sents d))). rewrite IH by lia.
        rewrite firstn_app. f_equal. f_equal. lia.
      * rewrite IH by lia. reflexivity.
Qed.
Lemma all_sents_length ls : Z.of_nat (length (all_sents ls)) = nsents ls.
Proof. unfold all_sents, nsents. rewrite map_length. reflexivity. Qed.

(** ** strip *)
Lemma dropwhile_suffix p s : exists a, s = a ++ dropwhile p s /\ Forall (fun c => p c = true) a.
Proof.
  induction s as [|c s (a & A & F)]; cbn [dropwhile]; [exists []; split; [reflexivity|constructor]|]. destruct (p c) eqn:E.
  - exists (c :: a). split; [cbn [app]; f_equal; exact A|constructor; assumption].
  - exists []. split; [reflexivity|constructor].
Qed.
Lemma dropwhile_head p s : dropwhile p s = [] \/ exists c t, dropwhile p s = c :: t /\ p c = false.
Proof. induction s as [|c s IH]; cbn [dropwhile]; [left; reflexivity|]. destruct (p c) eqn:E; [exact IH|]. right. eauto. Qed.
Lemma dropwhile_id p c s : p c = false -> dropwhile p (c :: s) = c :: s.
Proof. intros E. cbn. rewrite E. reflexivity. Qed.
Definition stripped (m : str) : Prop := m = [] \/ (exists c t, m = c :: t /\ is_space c = false) /\ (exists t c, m = t ++ [c] /\ is_space c = false).
Definition spaces (s : str) : Prop := Forall (fun c => is_space c = true) s.
Lemma spaces_app_rstrip a b : spaces b -> rstrip (a ++ b) = rstrip a.
Proof. intros F. unfold rstrip. rewrite rev_app_distr, dropwhile_app_all; [reflexivity|]. apply Forall_rev. exact F. Qed.
Lemma rstrip_prefix s : exists b, s = rstrip s ++ b /\ spaces b.
Proof.
  unfold rstrip. destruct (dropwhile_suffix is_space (rev s)) as (a & A & F). exists (rev a). split; [|apply Forall_rev; exact F].
  rewrite <- rev_app_distr, <- A. symmetry. apply rev_involutive.
Qed.
Lemma rstrip_last s : rstrip s = [] \/ exists t c, rstrip s = t ++ [c] /\ is_space c = false.
Proof.
  unfold rstrip. destruct (dropwhile_head is_space (rev s)) as [E|(c & t & E & F)]; rewrite E; [left; reflexivity|]. right. exists (rev t), c. split; [reflexivity|exact F].
Qed.
Lemma strip_decomp s : exists a b, s = a ++ strip s ++ b /\ spaces a /\ spaces b /\ stripped (strip s).
Proof.
  unfold strip, lstrip. destruct (dropwhile_suffix is_space s) as (a & A & FA). set (m := dropwhile is_space s) in *.
  destruct (rstrip_prefix m) as (b & B & FB). exists a, b. split; [rewrite <- B; exact A|]. split; [exact FA|]. split; [exact FB|].
  destruct (rstrip_last m) as [E|(t & c & E & F)]; [left; exact E|]. right. split; [|eauto].
  destruct (dropwhile_head is_space s) as [M|(c' & t' & M & F')]; fold m in M.
  - rewrite M in E. cbn in E. destruct t; discriminate.
  - destruct (rstrip m) as [|x r] eqn:R; [destruct t; discriminate|]. exists x, r. split; [reflexivity|]. rewrite M in B. injection B as -> _. exact F'.
Qed.
Lemma stripped_strip a m b : stripped m -> spaces a -> spaces b -> strip (a ++ m ++ b) = m.
Proof.
  intros S FA FB. unfold strip. rewrite lstrip_sep by exact FA. destruct S as [->|[(c & t & -> & E) (t' & c' & M & E')]].
  - cbn [app]. unfold lstrip. rewrite <- (app_nil_r b). rewrite dropwhile_app_all by exact FB. reflexivity.
  - cbn [app]. unfold lstrip. rewrite dropwhile_id by exact E. change (c :: t ++ b) with ((c :: t) ++ b). rewrite spaces_app_rstrip by exact FB.
    rewrite M. apply rstrip_app_nonspace. exact E'.
Qed.
Lemma strip_stripped m : stripped m -> strip m = m.
Proof. intros S. rewrite <- (app_nil_r m) at 1. apply (stripped_strip [] m []); [exact S|constructor|constructor]. Qed.
Lemma all_sents_ok ls : Forall (fun s => s <> [] /\ stripped s) (all_sents ls).
Proof.
  unfold all_sents. apply Forall_forall. intros s I. apply in_map_iff in I as (t & <- & I). apply in_concat in I as (l & L & I).
  apply in_map_iff in L as (d & <- & _). unfold doc_sents in I. apply filter_In in I as [_ I]. split.
  - destruct (strip t); [discriminate|congruence].
  - destruct (strip_decomp t) as (a & b & _ & _ & _ & H). exact H.
Qed.

(** ** sort_by_alphabet *)
Lemma lines_of_no_nl s : Forall (fun l => exists b e, l = b ++ e /\ Forall (fun c => c <> 10%N) b /\ (e = [] \/ e = [10%N])) (lines_of s).
Proof.
  induction s as [|c s IH]; cbn [lines_of]; [constructor|]. destruct (N.eqb_spec c 10).
  - subst. constructor; [|exact IH]. exists [], [10%N]. split; [reflexivity|]. split; [constructor|auto].
  - destruct (lines_of s) as [|l ls]; [constructor; [|constructor]|].
    + exists [c], []. split; [reflexivity|]. split; [constructor; [assumption|constructor]|auto].
    + inversion IH as [|? ? (b & e & -> & B & E) F]; subst. constructor; [|exact F]. exists (c :: b), e. split; [reflexivity|]. split; [constructor; assumption|exact E].
Qed.
Lemma univ_nl_no_cr s : Forall (fun c => c <> 13%N) (univ_nl s).
Proof.
  remember (length s) as n eqn:L. assert (LE : (length s <= n)%nat) by lia. clear L. revert s LE. induction n as [|n IH]; intros [|c s] LE; cbn [univ_nl]; try constructor; try (cbn in LE; lia).
  cbn [length] in LE. destruct (N.eqb_spec c 13) as [->|H].
  - constructor; [discriminate|]. destruct s as [|d s]; [constructor|]. cbn [length] in LE. destruct (N.eqb d 10); apply IH; cbn [length]; lia.
  - constructor; [exact H|]. apply IH. lia.
Qed.
Lemma lines_of_concat s : concat (lines_of s) = s.
Proof.
  induction s as [|c s IH]; cbn [lines_of]; [reflexivity|]. destruct (N.eqb c 10); cbn [concat app]; [rewrite IH; reflexivity|].
  destruct (lines_of s) as [|l ls]; cbn [concat app] in *; rewrite <- IH; reflexivity.
Qed.
Lemma line_strip_no_nl content l : In l (file_lines content) -> no_nl (strip l).
Proof.
  intros I. unfold file_lines in I. pose proof (lines_of_no_nl (univ_nl content)) as F. rewrite Forall_forall in F. destruct (F _ I) as (b & e & E & B & X).
  assert (CR : Forall (fun c => c <> 13%N) l).
  { apply Forall_forall. intros c J. pose proof (univ_nl_no_cr content) as U. rewrite Forall_forall in U. apply U. rewrite <- lines_of_concat. apply in_concat. eauto. }
  destruct (strip_decomp l) as (p & q & D & FP & FQ & S). apply Forall_forall. intros c J. rewrite Forall_forall in CR. split; [|apply CR; rewrite D; apply in_or_app; right; apply in_or_app; auto].
  intros ->. destruct S as [Z0|[_ (t & y & T & Y)]]; [rewrite Z0 in J; exact J|].
  (* 10 occurs in [strip l]; it can only be the last character of l *)
  rewrite T in J. apply in_app_or in J as [J|[J|[]]]; [|subst y; discriminate].
  assert (K : l = (p ++ t) ++ y :: q) by (rewrite D, T, <- !app_assoc; reflexivity).
  assert (In 10%N b).
  { assert (PT : In 10%N (p ++ t)) by (apply in_or_app; auto). destruct X as [-> | ->]; [rewrite app_nil_r in E; rewrite <- E, K; apply in_or_app; auto|].
    destruct (@exists_last _ (y :: q) ltac:(discriminate)) as (r & z & R). rewrite R, app_assoc in K. rewrite K in E. apply app_inj_tail in E as [E _]. rewrite <- E. apply in_or_app. auto. }
  rewrite Forall_forall in B. exact (B _ H eq_refl).
Qed.
Definition clean_lines (content : str) : list str := filter (fun d => negb (length d =? 0)%nat) (map strip (file_lines content)).
Lemma clean_lines_ok content : Forall (fun d => d <> [] /\ stripped d /\ no_nl d) (clean_lines content).
Proof.
  apply Forall_forall. intros d I. apply filter_In in I as [I NE]. apply in_map_iff in I as (l & <- & I). split; [destruct (strip l); [discriminate|congruence]|].
  split; [destruct (strip_decomp l) as (? & ? & _ & _ & _ & H); exact H|eapply line_strip_no_nl; exact I].
Qed.
Lemma filter_all {A} (f : A -> bool) l : Forall (fun x => f x = true) l -> filter f l = l.
Proof. induction 1 as [|x l E F IH]; cbn; [reflexivity|]. rewrite E, IH. reflexivity. Qed.
Lemma clean_lines_written ds : Forall (fun d => d <> [] /\ stripped d /\ no_nl d) ds -> clean_lines (concat (map (fun d => d ++ [10%N]) ds)) = ds.
Proof.
  intros F. unfold clean_lines. rewrite file_lines_concat by (eapply Forall_impl; [|exact F]; intros d H; apply H). rewrite map_map.
  rewrite (map_ext_in _ (fun d => d)), map_id.
  - apply filter_all. eapply Forall_impl; [|exact F]. intros [|c d] [H _]; [congruence|reflexivity].
  - intros d I. rewrite Forall_forall in F. destruct (F _ I) as (_ & S & _). apply (stripped_strip [] d [10%N]); [exact S|constructor|constructor; [reflexivity|constructor]].
Qed.
Lemma sort_by_alphabet_reads content : clean_lines (sort_by_alphabet content) = sort str_leb (clean_lines content).
Proof. unfold sort_by_alphabet. apply clean_lines_written, Forall_sort, clean_lines_ok. Qed.
Lemma sort_by_alphabet_idem content : sort_by_alphabet (sort_by_alphabet content) = sort_by_alphabet content.
Proof.
  pose proof (sort_by_alphabet_reads content) as E. unfold sort_by_alphabet at 1. fold (clean_lines (sort_by_alphabet content)). rewrite E.
  rewrite sort_id; [reflexivity|apply str_leb_total| |apply sort_str_sorted] || (rewrite sort_id; [reflexivity|apply sort_str_sorted]).
Qed.

(** ** most_similar *)
Definition is_argsort (argsort : list Q -> list nat) : Prop := forall d,
  Permutation (argsort d) (seq 0 (length d)) /\ StronglySorted (fun i j => (nth i d 0 <= nth j d 0)%Q) (argsort d).
Lemma mapM_ok {A B} (f : A -> res B) (g : A -> B) l : (forall x, In x l -> f x = Ok (g x)) -> mapM f l = Ok (map g l).
Proof. induction l as [|x l IH]; intros H; cbn [mapM map]; [reflexivity|]. rewrite H by (left; reflexivity). cbn [bind]. rewrite IH by (intros; apply H; right; assumption). reflexivity. Qed.
Lemma most_similar_eq {Item} `{EqB Item} dist argsort (item_to_idx : dict Item nat) idx_to_item query topk q (x0 : Item) : is_argsort argsort ->
  dget item_to_idx query = Some q -> length (dist q) = length idx_to_item ->
  let kept := if topk >? 0 then firstn (Z.to_nat (topk + 1)) (argsort (dist q)) else argsort (dist q) in
  most_similar dist argsort item_to_idx idx_to_item query topk = Ok (map (fun i => (nth i idx_to_item x0, (1 - nth i (dist q) 0)%Q)) (filter (fun i => negb (i =? q)%nat) kept)).
Proof.
  intros AS E L. unfold most_similar. rewrite E. apply mapM_ok. intros i I. apply filter_In in I as [I _].
  assert (J : In i (argsort (dist q))).
  { destruct (topk >? 0); [|exact I]. rewrite <- (firstn_skipn (Z.to_nat (topk + 1))). apply in_or_app. auto. }
  eapply Permutation_in in J; [|apply AS]. apply in_seq in J.
  rewrite (nth_error_nth' idx_to_item x0) by lia. rewrite (nth_error_nth' (dist q) 0%Q) by lia. reflexivity.
Qed.
Lemma count_other (l : list nat) q : NoDup l -> length (filter (fun i => negb (i =? q)%nat) l) = (length l - if mem q l then 1 else 0)%nat.
Proof.
  induction 1 as [|x l N ND IH]; [reflexivity|]. cbn [filter length]. unfold mem in *. cbn [existsb]. change (eqb q x) with (q =? x)%nat.
  rewrite (Nat.eqb_sym q x). destruct (Nat.eqb_spec x q) as [->|n]; cbn [negb orb length].
  - rewrite IH. replace (existsb (eqb q) l) with false; [lia|]. symmetry. apply mem_In_false. exact N.
  - rewrite IH. destruct (existsb (eqb q) l) eqn:M; [|lia]. apply mem_In in M. destruct l; [destruct M|cbn; lia].
Qed.
