(** * C95: Dictionary objects that hold the same dict *)
From Coq Require Import Permutation Lia.
From Verif Require Import PyBase PyDict PySort PyText TaggerModel TaggerSpec TaggerProofs TaggerDictProofs TaggerProofs3 TagShareModel TagShareSpec TagShareProofs TagShareProofs2.
Open Scope nat_scope.

Lemma wstep_inv (W : dworld) o : winv W -> plain o -> winv (fst (wstep W o)) /\ (on_existing W o -> effect W (fst (wstep W o)) o (snd (wstep W o))).
Proof.
  intros H P. destruct o as [kvs|r|j tag a force|j tag a|j p|r tag word|r tag words|r tag].
  - destruct (step_dict W kvs H P) as [I1 E1]. split; [exact I1|intros _; exact E1].
  - pose proof (step_new W r H) as X. destruct (wstep W (WNew r)) as [W' e]. cbn [fst snd]. tauto.
  - destruct P as [s ->]. pose proof (step_add W j tag s force H) as X. destruct (Nat.ltb_spec j (length (w_objs W))) as [L|L].
    + destruct (wstep W _) as [W' e]. cbn [fst snd]. specialize (X L). tauto.
    + cbn [wstep on_existing]. rewrite (proj2 (Nat.ltb_ge _ _) L). split; [exact H|intros; lia].
  - pose proof (step_remove W j tag a H P) as X. destruct (Nat.ltb_spec j (length (w_objs W))) as [L|L].
    + destruct (wstep W _) as [W' e]. cbn [fst snd]. specialize (X L). tauto.
    + cbn [wstep on_existing]. rewrite (proj2 (Nat.ltb_ge _ _) L). split; [exact H|intros; lia].
  - pose proof (step_load W j p H P) as X. destruct (Nat.ltb_spec j (length (w_objs W))) as [L|L].
    + destruct (wstep W _) as [W' e]. cbn [fst snd]. specialize (X L). tauto.
    + cbn [wstep on_existing]. rewrite (proj2 (Nat.ltb_ge _ _) L). split; [exact H|intros; lia].
  - pose proof (step_cadd W r tag word H) as X. destruct (wstep W _) as [W' e]. cbn [fst snd]. tauto.
  - pose proof (step_cset W r tag words H) as X. destruct (Nat.ltb_spec r (length (w_dicts W))) as [L|L].
    + destruct (wstep W _) as [W' e]. cbn [fst snd]. specialize (X L). tauto.
    + cbn [wstep on_existing]. rewrite (proj2 (Nat.ltb_ge _ _) L). split; [exact H|intros; lia].
  - pose proof (step_cdel W r tag H) as X. destruct (wstep W _) as [W' e]. cbn [fst snd]. tauto.
Qed.
Lemma wrun_snoc ops o : wrun (ops ++ [o]) = fst (wstep (wrun ops) o). Proof. unfold wrun. rewrite fold_left_app. reflexivity. Qed.
Lemma wrun_inv ops : Forall plain ops -> winv (wrun ops).
Proof.
  induction ops as [|o ops IH] using rev_ind; intros F.
  - constructor; unfold wrun; cbn [fold_left]; unfold dict_at, ref_of; cbn [w_dicts w_objs]; intros; try destruct r1; try destruct r; try destruct i; cbn in *; try discriminate; try lia; constructor.
  - apply Forall_app in F as [F1 F2]. inversion F2; subst. rewrite wrun_snoc. apply wstep_inv; auto.
Qed.
Lemma pos_of_tags (W : dworld) i w : winv W -> pos_of W i w = filter (fun t => is_tag W i w t) (tags_of W i).
Proof.
  intros H. unfold pos_of, get_pos, is_tag, word_is_tag, tags_of, view. cbn [tags]. pose proof (inv_keys W H (ref_of W i)) as ND.
  set (d := dict_at W (ref_of W i)) in *. set (m := max_length_of W i). unfold deref. cbn [heap].
  assert (S0 : forall kr, In kr d -> dget d (fst kr) = Some (snd kr)) by (intros [t k] I0; apply dget_In_iff; assumption).
  enough (AUX : forall l : list (str * nat), (forall kr, In kr l -> dget d (fst kr) = Some (snd kr)) -> map fst (filter (fun kr : str * nat => mem w (elems (nth (snd kr) (w_sets W) (OSet [])))) l) =
    filter (fun t => match dget d t with Some r => mem w (elems (nth r (w_sets W) (OSet []))) | None => false end) (map fst l)) by (apply AUX, S0).
  clear S0. intros l S0. induction l as [|[t k] l IH]; [reflexivity|]. cbn [filter map fst snd].
  pose proof (S0 _ (or_introl eq_refl)) as Q. cbn [fst snd] in Q. rewrite Q.
  destruct (mem w (elems (nth k (w_sets W) (OSet [])))); cbn [map fst]; [f_equal|]; (apply IH; intros kr I0; apply S0; right; exact I0).
Qed.

(** every operation, after every history: what becomes of the tags, the words and the max_length of every Dictionary. A method call or a change made by the
    caller shows in exactly the Dictionary objects that hold the same dict; max_length moves only in the Dictionary that was called *)
Theorem C95_step : forall ops o, Forall plain ops -> plain o -> let W := wrun ops in on_existing W o -> let '(W', e) := wstep W o in
  forall i, i < length (w_objs W) ->
    (forall w t, is_tag W' i w t = tag_after W o e i w t (is_tag W i w t)) /\ tags_of W' i = tags_after W o e i (tags_of W i) /\
    max_length_of W' i = max_after o e i (max_length_of W i) /\ (forall w, pos_of W' i w = filter (fun t => is_tag W' i w t) (tags_of W' i)) /\
    ref_of W' i = match o with WLoad j _ => if i =? j then length (w_dicts W) else ref_of W i | _ => ref_of W i end.
Proof.
  intros ops o F P W X. destruct (wstep_inv W o (wrun_inv ops F) P) as [I1 E1]. specialize (E1 X). destruct (wstep W o) as [W' e]. cbn [fst snd] in *. intros i L.
  destruct (E1 i L) as (_ & R & M & T & G). split; [exact G|]. split; [exact T|]. split; [exact M|]. split; [|exact R]. intros w. apply pos_of_tags, I1.
Qed.
Print Assumptions C95_step.

(** the outcomes of the methods *)
Theorem C95_outcomes : forall ops, Forall plain ops -> let W := wrun ops in
  (forall j tag s force, j < length (w_objs W) -> let e := snd (wstep W (WAdd j tag (AStr s) force)) in
     (e = None \/ e = Some ValueError) /\ (e = Some ValueError <-> (force = false /\ ~ In tag (tags_of W j)) \/ split s = [])) /\
  (forall j tag a, j < length (w_objs W) -> let e := snd (wstep W (WRemove j tag (option_map AStr a))) in
     (e = None \/ e = Some ValueError) /\ (e = Some ValueError <-> ~ In tag (tags_of W j))).
Proof.
  intros ops F W. pose proof (wrun_inv ops F) as H. fold W in H. split.
  - intros j tag s force L e. pose proof (step_add W j tag s force H) as X. unfold e. destruct (wstep W _) as [W' e']. cbn [snd]. apply X, L.
  - intros j tag a L e. pose proof (step_remove W j tag (option_map AStr a) H) as X. unfold e. destruct (wstep W _) as [W' e']. cbn [snd]. apply X; [|exact L].
    intros x. destruct a; [intros [= <-]; eexists; reflexivity|discriminate].
Qed.
Print Assumptions C95_outcomes.

(** the construction: it fails iff the dict has no word at all; it keeps the dict, puts new sets in it (even when it fails), leaves the collections that were
    there unchanged (later changes no longer reach them), and gives the answers the dict gives *)
Theorem C95_new : forall ops r, Forall plain ops -> let W := wrun ops in r < length (w_dicts W) -> let '(W', e) := wstep W (WNew r) in
  (forall k, k < length (w_sets W) -> nth k (w_sets W') (OSet []) = nth k (w_sets W) (OSet [])) /\
  map fst (dict_at W' r) = map fst (dict_at W r) /\ (forall t k, In (t, k) (dict_at W' r) -> length (w_sets W) <= k < length (w_sets W')) /\ NoDup (map snd (dict_at W' r)) /\
  (forall r', r' <> r -> dict_at W' r' = dict_at W r') /\
  ((e = Some ValueError /\ (forall t ws, In (t, ws) (words_at W r) -> ws = []) /\ w_objs W' = w_objs W) \/
   (e = None /\ (exists t ws w, In (t, ws) (words_at W r) /\ In w ws) /\ let n := length (w_objs W) in
    length (w_objs W') = S n /\ ref_of W' n = r /\ (forall w t, is_tag W' n w t = true <-> exists ws, In (t, ws) (words_at W r) /\ In w ws) /\
    (forall w t, is_tag W' n w t = true -> length w <= max_length_of W' n) /\ (exists w t, is_tag W' n w t = true /\ length w = max_length_of W' n))).
Proof.
  intros ops r F W L. pose proof (wrun_inv ops F) as H. fold W in H. destruct (wstep_inv W (WNew r) H I) as [I1 _]. revert I1. cbn [wstep]. rewrite (proj2 (Nat.ltb_lt _ _) L). unfold wnew. cbv zeta.
  set (kvs := words_at W r). set (ds := upd (w_dicts W) r _). set (ss := w_sets W ++ _).
  assert (ND : NoDup (map fst kvs)) by (unfold kvs; rewrite words_at_keys; apply (inv_keys W H)).
  assert (GEN : forall os, let W' := mkDW ss ds os in
    (forall k, k < length (w_sets W) -> nth k (w_sets W') (OSet []) = nth k (w_sets W) (OSet [])) /\
    map fst (dict_at W' r) = map fst (dict_at W r) /\ (forall t k, In (t, k) (dict_at W' r) -> length (w_sets W) <= k < length (w_sets W')) /\ NoDup (map snd (dict_at W' r)) /\
    (forall r', r' <> r -> dict_at W' r' = dict_at W r') /\ dict_at W' r = number_from (length (w_sets W)) kvs).
  { intros os W'. pose proof (dict_at_upd W W' r (number_from (length (w_sets W)) kvs) L eq_refl) as DA. assert (DR : dict_at W' r = number_from (length (w_sets W)) kvs) by (rewrite DA, Nat.eqb_refl; reflexivity). rewrite DR.
    split; [intros k Lk; unfold W', ss; cbn [w_sets]; apply app_nth1, Lk|]. split; [rewrite number_fst; apply words_at_keys|]. split; [|split; [rewrite number_snd; apply seq_NoDup|split; [|reflexivity]]].
    - intros t k I0. apply number_In in I0 as [R _]. unfold W', ss. cbn [w_sets]. rewrite app_length, map_length. lia.
    - intros r' NE. rewrite DA, (proj2 (Nat.eqb_neq _ _) NE). reflexivity. }
  assert (IN : forall w, In w (concat (map snd kvs)) <-> exists t ws, In (t, ws) kvs /\ In w ws).
  { intros w. rewrite in_concat. split; [intros (ws & I0 & J); apply in_map_iff in I0 as ([t ws'] & <- & I0); exists t, ws'; auto|]. intros (t & ws & I0 & J). exists ws. split; [apply in_map_iff; exists (t, ws); auto|exact J]. }
  destruct (concat (map snd kvs)) as [|w0 wl] eqn:E; intros I1.
  - destruct (GEN (w_objs W)) as (G1 & G2 & G3 & G4 & G5 & _). split; [exact G1|]. split; [exact G2|]. split; [exact G3|]. split; [exact G4|]. split; [exact G5|]. left. split; [reflexivity|]. split; [|reflexivity].
    intros t ws I0. destruct ws as [|w ws]; [reflexivity|]. exfalso. apply (IN w). exists t, (w :: ws). split; [exact I0|left; reflexivity].
  - rewrite <- E in *. cbn [w_sets w_dicts w_objs]. set (m := max_of (map (@length N) (concat (map snd kvs)))). destruct (GEN (w_objs W ++ [(r, m)])) as (G1 & G2 & G3 & G4 & G5 & DR).
    set (W' := mkDW ss ds (w_objs W ++ [(r, m)])) in *. split; [exact G1|]. split; [exact G2|]. split; [exact G3|]. split; [exact G4|]. split; [exact G5|]. right. split; [reflexivity|].
    assert (RN : ref_of W' (length (w_objs W)) = r) by (unfold ref_of, W'; cbn [w_objs]; rewrite app_nth2, Nat.sub_diag by lia; reflexivity).
    assert (MN : max_length_of W' (length (w_objs W)) = m) by (unfold max_length_of, W'; cbn [w_objs]; rewrite app_nth2, Nat.sub_diag by lia; reflexivity).
    assert (WT : forall w t, is_tag W' (length (w_objs W)) w t = true <-> exists ws, In (t, ws) kvs /\ In w ws).
    { intros w t. rewrite is_tag_content, RN. unfold content. rewrite DR. destruct (dget (number_from (length (w_sets W)) kvs) t) as [k|] eqn:G.
      - destruct (number_content kvs (fun l => OSet (set_of l)) _ _ _ G) as (v & D & Q). pose proof (number_range _ _ _ _ G) as (R & _). unfold set_at, W', ss. cbn [w_sets]. rewrite app_nth2 by lia. rewrite Q. cbn [elems]. rewrite mem_In, set_of_In.
        split; [intros J; exists v; split; [apply dget_In, D|exact J]|]. intros (ws & I0 & J). apply (dget_In_iff _ _ _ ND) in I0. congruence.
      - apply number_dget in G. split; [discriminate|]. intros (ws & I0 & J). apply (dget_In_iff _ _ _ ND) in I0. congruence. }
    split; [destruct (proj1 (IN w0)) as (t & ws & I0 & J); [rewrite E; left; reflexivity|]; exists t, ws, w0; auto|]. cbv zeta.
    split; [unfold W'; cbn [w_objs]; rewrite app_length; cbn [length]; lia|]. split; [exact RN|]. split; [exact WT|]. rewrite MN. split.
    + intros w t B. apply WT in B as (ws & I0 & J). apply max_of_ge, in_map, IN. exists t, ws. auto.
    + assert (In m (map (@length N) (concat (map snd kvs)))) as IM by (apply max_of_in; rewrite E; discriminate). apply in_map_iff in IM as (w' & Q & I'). apply IN in I' as (t' & ws' & I' & J').
      exists w', t'. split; [apply WT; exists ws'; auto|exact Q].
Qed.
Print Assumptions C95_new.

Lemma step_exists ops o i : Forall plain ops -> plain o -> on_existing (wrun ops) o -> i < length (w_objs (wrun ops)) -> i < length (w_objs (wrun (ops ++ [o]))).
Proof. intros F P X L. rewrite wrun_snoc. destruct (wstep_inv (wrun ops) o (wrun_inv ops F) P) as [_ E1]. apply (E1 X), L. Qed.

(** operations on other dict objects leave everything a Dictionary answers as it was *)
Theorem C95_frame : forall i ops before, Forall plain (before ++ ops) -> all_on_existing before ops -> none_concerns i before ops -> i < length (w_objs (wrun before)) ->
  let W := wrun before in let W' := wrun (before ++ ops) in
  (forall w t, is_tag W' i w t = is_tag W i w t) /\ tags_of W' i = tags_of W i /\ (forall w, pos_of W' i w = pos_of W i w) /\ max_length_of W' i = max_length_of W i.
Proof.
  intros i. induction ops as [|o ops IH]; intros before F X C L W W'.
  - unfold W'. rewrite app_nil_r. unfold W. repeat split; reflexivity.
  - cbn [all_on_existing none_concerns] in X, C. destruct X as [X1 X2], C as [C1 C2]. assert (Q : before ++ o :: ops = (before ++ [o]) ++ ops) by (rewrite <- app_assoc; reflexivity).
    rewrite Q in F. unfold W'. rewrite Q. pose proof F as F0. apply Forall_app in F0 as [F0 _]. pose proof F0 as F3. apply Forall_app in F3 as [F1 F2]. inversion F2 as [|? ? P _]; subst.
    destruct (IH (before ++ [o]) F X2 C2 (step_exists _ _ _ F1 P X1 L)) as (A1 & A2 & A3 & A4).
    pose proof (C95_step before o F1 P X1) as S0. fold W in S0. rewrite wrun_snoc in A1, A2, A3, A4. fold W in A1, A2, A3, A4, C1. destruct (wstep W o) as [W1 e]. cbn [fst] in *. destruct (S0 i L) as (B1 & B2 & B3 & B4 & _).
    assert (T1 : forall w t old, tag_after W o e i w t old = old).
    { intros w t old. destruct o as [kvs|r|j tag a force|j tag a|j p|r tag word|r tag words|r tag]; cbn [concerns tag_after] in *; try reflexivity; try (rewrite C1; reflexivity).
      - destruct P as [s ->]. rewrite C1. reflexivity.
      - cbn [plain] in P. destruct a as [x|]; [destruct (P x eq_refl) as [s ->]|]; rewrite C1; reflexivity. }
    assert (T2 : forall old, tags_after W o e i old = old).
    { intros old. destruct o as [kvs|r|j tag a force|j tag a|j p|r tag word|r tag words|r tag]; cbn [concerns tags_after] in *; try reflexivity; try (rewrite C1; reflexivity). destruct a; [reflexivity|]. rewrite C1. reflexivity. }
    assert (T3 : forall old, max_after o e i old = old).
    { intros old. destruct o as [kvs|r|j tag a force|j tag a|j p|r tag word|r tag words|r tag]; cbn [concerns max_after] in *; try reflexivity; try (rewrite C1; reflexivity).
      destruct P as [s ->]. destruct (Nat.eqb_spec i j) as [->|]; [|reflexivity]. rewrite Nat.eqb_refl in C1. discriminate. }
    rewrite A2, A4, B2, B3, T2, T3. split; [intros w t; rewrite A1, B1, T1; reflexivity|]. split; [reflexivity|]. split; [|reflexivity].
    intros w. rewrite A3, B4, B2, T2. pose proof (pos_of_tags W i w (wrun_inv before F1)) as ->. apply filter_ext. intros t. rewrite B1, T1. reflexivity.
Qed.
Print Assumptions C95_frame.

(** Dictionary objects that hold the same dict give the same answers for ever (max_length aside), unless one of them loads a file *)
Theorem C95_agree : forall i j ops before, Forall plain (before ++ ops) -> all_on_existing before ops -> i < length (w_objs (wrun before)) -> j < length (w_objs (wrun before)) ->
  ref_of (wrun before) i = ref_of (wrun before) j -> (forall p, ~ In (WLoad i p) ops /\ ~ In (WLoad j p) ops) ->
  let W' := wrun (before ++ ops) in (forall w t, is_tag W' i w t = is_tag W' j w t) /\ tags_of W' i = tags_of W' j /\ forall w, pos_of W' i w = pos_of W' j w.
Proof.
  intros i j. induction ops as [|o ops IH]; intros before F X Li Lj E NL W'.
  - unfold W'. rewrite app_nil_r. unfold is_tag, tags_of, pos_of, get_pos, word_is_tag, deref, view. cbn [tags heap]. rewrite E. repeat split; reflexivity.
  - cbn [all_on_existing] in X. destruct X as [X1 X2]. assert (Q : before ++ o :: ops = (before ++ [o]) ++ ops) by (rewrite <- app_assoc; reflexivity).
    rewrite Q in F. unfold W'. rewrite Q. pose proof F as F0. apply Forall_app in F0 as [F0 _]. pose proof F0 as F3. apply Forall_app in F3 as [F1 F2]. inversion F2 as [|? ? P _]; subst.
    apply (IH (before ++ [o]) F X2 (step_exists _ _ _ F1 P X1 Li) (step_exists _ _ _ F1 P X1 Lj)).
    + pose proof (C95_step before o F1 P X1) as S0. cbv zeta in S0. rewrite wrun_snoc. destruct (wstep (wrun before) o) as [W1 e]. cbn [fst]. pose proof (S0 i Li) as (_ & _ & _ & _ & R1). pose proof (S0 j Lj) as (_ & _ & _ & _ & R2). rewrite R1, R2.
      destruct o as [kvs|r|k tag a force|k tag a|k p|r tag word|r tag words|r tag]; try exact E.
      destruct (Nat.eqb_spec i k) as [->|]; [exfalso; apply (proj1 (NL p)); left; reflexivity|]. destruct (Nat.eqb_spec j k) as [->|]; [exfalso; apply (proj2 (NL p)); left; reflexivity|]. exact E.
    + intros p. destruct (NL p) as [N1 N2]. split; intros H; [apply N1|apply N2]; right; exact H.
Qed.
Print Assumptions C95_agree.

(** max_length is the longest word this very Dictionary was asked to add (successfully), had when it was made, or the number it loaded last *)
Theorem C95_max_length : forall i ops before, Forall plain (before ++ ops) -> all_on_existing before ops -> i < length (w_objs (wrun before)) ->
  max_length_of (wrun (before ++ ops)) i = max_history i before ops (max_length_of (wrun before) i).
Proof.
  intros i. induction ops as [|o ops IH]; intros before F X L.
  - rewrite app_nil_r. reflexivity.
  - cbn [all_on_existing max_history] in *. destruct X as [X1 X2]. assert (Q : before ++ o :: ops = (before ++ [o]) ++ ops) by (rewrite <- app_assoc; reflexivity).
    rewrite Q in *. pose proof F as F0. apply Forall_app in F0 as [F0 _]. pose proof F0 as F3. apply Forall_app in F3 as [F1 F2]. inversion F2 as [|? ? P _]; subst.
    rewrite (IH (before ++ [o]) F X2 (step_exists _ _ _ F1 P X1 L)). f_equal.
    pose proof (C95_step before o F1 P X1) as S0. cbv zeta in S0. rewrite wrun_snoc. destruct (wstep (wrun before) o) as [W1 e]. cbn [fst snd]. apply (S0 i L).
Qed.
Print Assumptions C95_max_length.

(** so max_length need not bound the words of a Dictionary whose dict is shared: a word added through another Dictionary (or by the caller) is known, but the
    L-R matcher of the first Dictionary, which looks at no more than max_length characters, does not find it *)
Definition ex_ops : list wop := [WDict [(u "Noun", OList [u "책"; u "노래"]); (u "Josa", OSet [u "를"])]; WNew 0; WNew 0; WAdd 1 (u "Noun") (AStr (u "노래방기계 방")) false].
Theorem C95_max_length_refuted : let W := wrun ex_ops in
  is_tag W 0 (u "노래방기계") (u "Noun") = true /\ max_length_of W 0 = 2 /\ length (u "노래방기계") = 5 /\
  (let found i := existsb (fun c => eqb (l_of c) (u "노래방기계")) (lr_generate (new_lr_matcher (view W i) [] [] (fun l => l)) (u "노래방기계를")) in found 0 = false /\ found 1 = true).
Proof. vm_compute. repeat split; reflexivity. Qed.
Print Assumptions C95_max_length_refuted.
(** a set handed to two Dictionary objects under a new tag is stored, not copied: what is added through one shows in the other, although their dicts differ *)
Theorem C95_same_set_refuted : exists ops, let W := wrun ops in ref_of W 0 <> ref_of W 1 /\ is_tag W 1 (u "매우") (u "Adverb") = false /\
  is_tag (fst (wstep W (WAdd 0 (u "Adverb") (AStr (u "매우")) false))) 1 (u "매우") (u "Adverb") = true.
Proof.
  exists [WDict [(u "Noun", OList [u "책"])]; WDict [(u "Noun", OList [u "책"])]; WDict [(u "x", OSet [u "아주"])]; WNew 0; WNew 1; WAdd 0 (u "Adverb") (AObj 2) true; WAdd 1 (u "Adverb") (AObj 2) true].
  vm_compute. repeat split; try reflexivity. discriminate.
Qed.
Print Assumptions C95_same_set_refuted.

(** the hypotheses are met: histories with two Dictionary objects on one dict and one on another, method calls, a caller's change and a load *)
Definition ex_before : list wop := [WDict [(u "Noun", OList [u "책"; u "노래"]); (u "Josa", OSet [u "를"])]; WDict [(u "Verb", OSet [u "하다"])]; WNew 0; WNew 0; WNew 1].
Definition ex_after : list wop := [WAdd 1 (u "Noun") (AStr (u "노래방기계 방")) false; WAdd 2 (u "Noun") (AStr (u "아이")) true; WRemove 0 (u "Josa") None; WCAdd 0 (u "Noun") (u "밤"); WCSet 0 (u "Adverb") [u "매우"]; WLoad 2 (7, [(u "Noun", [u "달"])]); WCDel 0 (u "Adverb"); WRemove 1 (u "Noun") (Some (AStr (u "책")))].
Example C95_example : Forall plain (ex_before ++ ex_after) /\ all_on_existing ex_before ex_after /\
  (let W := wrun (ex_before ++ ex_after) in length (w_objs W) = 3 /\ ref_of W 0 = ref_of W 1 /\ ref_of W 2 = 2 /\ tags_of W 0 = [u "Noun"] /\ is_tag W 0 (u "노래방기계") (u "Noun") = true /\ is_tag W 0 (u "책") (u "Noun") = false /\
     map (max_length_of W) [0; 1; 2] = [2; 5; 7] /\ pos_of W 2 (u "달") = [u "Noun"]) /\
  none_concerns 2 ex_before [WAdd 1 (u "Noun") (AStr (u "노래방기계 방")) false; WCAdd 0 (u "Noun") (u "밤"); WLoad 0 (1, [])] /\
  snd (wstep (wrun [WDict [(u "Noun", OList [])]]) (WNew 0)) = Some ValueError.
Proof.
  split; [|split; [|split; [|split]]].
  - unfold ex_before, ex_after. cbn [app]. repeat (apply Forall_cons || apply Forall_nil); cbn [plain]; try exact Logic.I; try (eexists; reflexivity);
      try (intros x [= <-]; eexists; reflexivity); try discriminate; vm_compute; repeat constructor; intros X; repeat (destruct X as [X|X]; try discriminate X); try destruct X.
  - unfold ex_before, ex_after. cbn [all_on_existing app on_existing]. repeat split; vm_compute; lia.
  - vm_compute. repeat split; reflexivity.
  - unfold ex_before. cbn [none_concerns app concerns]. repeat split; vm_compute; reflexivity.
  - vm_compute. reflexivity.
Qed.
