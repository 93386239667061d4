(** * Properties C47-C50, C63: soynlp.postagger *)
From Coq Require Import QArith Lqa.
From Verif Require Import PyBase PyDict PySort PyText SortLemmas TaggerModel TaggerDictProofs TaggerSpec TaggerProofs TaggerProofs2 TaggerProofs3.
Open Scope nat_scope.

(** ** C47: Dictionary *)
Theorem C47_new : forall pd, NoDup (map fst pd) ->
  ((forall t ws, In (t, ws) pd -> ws = []) -> tdict_new pd = Err ValueError) /\
  ((exists t ws w, In (t, ws) pd /\ In w ws) -> exists d, tdict_new pd = Ok d /\
     (forall w t, word_is_tag d w t = true <-> exists ws, In (t, ws) pd /\ In w ws) /\
     (forall w t, word_is_tag d w t = true -> length w <= maxlen d) /\ (exists w t, word_is_tag d w t = true /\ length w = maxlen d)).
Proof.
  intros pd ND. unfold tdict_new. cbv zeta.
  assert (IN : forall w, In w (concat (map snd pd)) <-> exists t ws, In (t, ws) pd /\ In w ws).
  { intros w. rewrite in_concat. split; [intros (ws & I & J); apply in_map_iff in I as ([t ws'] & <- & I); exists t, ws'; auto|]. intros (t & ws & I & J). exists ws. split; [apply in_map_iff; exists (t, ws); auto|exact J]. }
  split.
  - intros H. destruct (concat (map snd pd)) as [|w l]; [reflexivity|]. destruct (proj1 (IN w) (or_introl eq_refl)) as (t & ws & I & J). rewrite (H t ws I) in J. destruct J.
  - intros (t & ws & w & I & J). assert (In w (concat (map snd pd))) as IW by (apply IN; exists t, ws; auto). destruct (concat (map snd pd)) as [|w0 l] eqn:E; [destruct IW|]. rewrite <- E in *.
    eexists. split; [reflexivity|]. set (m := max_of _).
    assert (WT : forall w t, word_is_tag (mkT (map (fun kv => OSet (set_of (snd kv))) pd) (number_from 0 pd) m) w t = true <-> exists ws, In (t, ws) pd /\ In w ws).
    { intros w' t'. rewrite fresh_word_is_tag. split.
      - destruct (dget pd t') as [ws'|] eqn:G; [|discriminate]. intros M. exists ws'. split; [apply dget_In, G|apply mem_In, M].
      - intros (ws' & I' & J'). rewrite (proj2 (dget_In_iff pd t' ws' ND) I'). apply mem_In, J'. }
    split; [exact WT|]. cbn [maxlen]. split.
    + intros w' t' H. apply WT in H as (ws' & I' & J'). apply max_of_ge, in_map, IN. exists t', ws'. auto.
    + assert (In m (map (@length N) (concat (map snd pd)))) as IM by (apply max_of_in; rewrite E; discriminate). apply in_map_iff in IM as (w' & L & I'). apply IN in I' as (t' & ws' & I' & J').
      exists w', t'. split; [apply WT; exists ws'; auto|exact L].
Qed.
Print Assumptions C47_new.
Lemma new_good pd d : NoDup (map fst pd) -> tdict_new pd = Ok d -> good d.
Proof.
  intros ND. unfold tdict_new. cbv zeta. destruct (concat (map snd pd)) as [|w0 l] eqn:E; [discriminate|]. rewrite <- E. intros H. injection H as <-. split; [apply fresh_unshared, ND|]. split.
  - apply fresh_bounded. intros [t ws] w I J. cbn [snd] in *. apply max_of_ge, in_map, in_concat. exists ws. split; [apply in_map_iff; exists (t, ws); auto|exact J].
  - apply Forall_forall. intros o I. apply in_map_iff in I as (kv & <- & _). eexists. reflexivity.
Qed.
(** a word has a tag iff it was added to it and not removed from it since *)
Theorem C47_history : forall pd d ops w t, NoDup (map fst pd) -> tdict_new pd = Ok d ->
  (word_is_tag (dhistory d ops) w t = true <->
   (exists ops1 o ops2, ops = ops1 ++ o :: ops2 /\ adds (dhistory d ops1) t w o /\ Forall (fun o => ~ removes t w o) ops2) \/
   ((exists ws, In (t, ws) pd /\ In w ws) /\ Forall (fun o => ~ removes t w o) ops)).
Proof.
  intros pd d ops w t ND E. rewrite (dhistory_words d ops w t (new_good pd d ND E)).
  assert (word_is_tag d w t = true <-> exists ws, In (t, ws) pd /\ In w ws) as ->; [|reflexivity].
  unfold tdict_new in E. cbv zeta in E. destruct (concat (map snd pd)); [discriminate|]. injection E as <-. rewrite fresh_word_is_tag. split.
  - destruct (dget pd t) as [ws'|] eqn:G; [|discriminate]. intros M. exists ws'. split; [apply dget_In, G|apply mem_In, M].
  - intros (ws' & I' & J'). rewrite (proj2 (dget_In_iff pd t ws' ND) I'). apply mem_In, J'.
Qed.
Print Assumptions C47_history.
(** get_pos lists the tags of a word, each once; max_length bounds every word and never decreases *)
Theorem C47_get_pos_and_max_length : forall pd d ops w t, NoDup (map fst pd) -> tdict_new pd = Ok d -> let d' := dhistory d ops in
  (In t (get_pos d' w) <-> word_is_tag d' w t = true) /\ NoDup (get_pos d' w) /\ (word_is_tag d' w t = true -> length w <= maxlen d') /\
  forall o, maxlen d' <= maxlen (dstep d' o).
Proof.
  intros pd d ops w t ND E d'. destruct (dhistory_good d ops (new_good pd d ND E)) as [G _]. fold d' in G. pose proof G as ((N1 & _) & B & _).
  split; [apply get_pos_spec, N1|]. split; [apply get_pos_NoDup, N1|]. split; [apply bounded_len, B|]. intros o. apply (dstep_good d' o G).
Qed.
Print Assumptions C47_get_pos_and_max_length.
(** the errors, none of which changes the dictionary; max_length follows the longest added word *)
Theorem C47_errors : forall pd d ops tag, NoDup (map fst pd) -> tdict_new pd = Ok d -> let d' := dhistory d ops in
  let unknown := dget (tags d') tag = None in
  (forall ws force, unknown /\ force = false \/ split ws = [] -> add_words d' tag (AStr ws) force = (d', Some ValueError)) /\
  (forall ws force, ~ (unknown /\ force = false) -> split ws <> [] -> exists d2, add_words d' tag (AStr ws) force = (d2, None) /\
     forall m, maxlen d2 <= m <-> maxlen d' <= m /\ forall w, In w (split ws) -> length w <= m) /\
  (forall a, unknown -> remove_words d' tag (option_map AStr a) = (d', Some ValueError)) /\
  (forall a, ~ unknown -> exists d2, remove_words d' tag (option_map AStr a) = (d2, None) /\ maxlen d2 = maxlen d').
Proof.
  intros pd d ops tag ND E d' unknown. destruct (dhistory_good d ops (new_good pd d ND E)) as [G _]. fold d' in G. pose proof G as (U & B & _).
  assert (KN : known d' tag = false <-> unknown) by (unfold known, dmem, unknown; destruct (dget (tags d') tag); split; congruence).
  assert (A : forall ws force, _) by (intros ws force; exact (add_words_spec d' tag (AStr ws) force U ltac:(discriminate) (fun r l => good_tag d' tag r l G))).
  cbv zeta in A. cbn [arg_obj elems] in A. split; [|split; [|split]].
  - intros ws force H. specialize (A ws force). replace ((negb force && negb (known d' tag)) || (length (set_of (split ws)) =? 0)) with true in A; [exact A|].
    symmetry. apply orb_true_iff. destruct H as [[H ->]|H]; [left; apply KN in H; rewrite H; reflexivity|right; rewrite H; reflexivity].
  - intros ws force H NE. specialize (A ws force). destruct ((negb force && negb (known d' tag)) || (length (set_of (split ws)) =? 0)) eqn:C.
    + exfalso. apply orb_true_iff in C as [C|C].
      * apply andb_true_iff in C as [C1 C2]. apply H. apply negb_true_iff in C1, C2. split; [apply KN, C2|exact C1].
      * apply Nat.eqb_eq in C. apply NE, set_of_nil. destruct (set_of (split ws)); [reflexivity|discriminate].
    + destruct A as (d2 & A & _ & _ & M & _). exists d2. split; [exact A|]. intros m. rewrite M, Nat.max_lub_iff.
      assert ((forall w, In w (split ws) -> length w <= m) <-> max_of (map (@length N) (set_of (split ws))) <= m) as ->; [|reflexivity].
      split.
      * intros L. assert (set_of (split ws) <> []) as NS by (intros X; apply NE, set_of_nil, X). assert (map (@length N) (set_of (split ws)) <> []) as NM by (destruct (set_of (split ws)); [congruence|discriminate]).
        apply max_of_in in NM. apply in_map_iff in NM as (w & <- & I). apply L, set_of_In, I.
      * intros L w I. etransitivity; [|exact L]. apply max_of_ge, in_map, set_of_In, I.
  - intros a H. pose proof (remove_words_spec d' tag (option_map AStr a) U) as R. apply KN in H. destruct a; cbn [option_map] in *; rewrite H in R; exact R.
  - intros a H. pose proof (remove_words_spec d' tag (option_map AStr a) U) as R. destruct (known d' tag) eqn:K; [|exfalso; apply H, KN; reflexivity].
    destruct a; cbn [option_map] in *; [destruct R as (d2 & R & M & _); [intros; eapply good_tag; eauto|discriminate|]|destruct R as (d2 & R & M & _)]; exists d2; auto.
Qed.
Print Assumptions C47_errors.
(** writing the dictionary and reading it back keeps every tag, word and the maximal length *)
Theorem C47_save_load : forall pd d ops ord, NoDup (map fst pd) -> tdict_new pd = Ok d -> (forall l, Permutation (ord l) l) -> let d' := dhistory d ops in
  (forall w t, word_is_tag (load (save ord d')) w t = word_is_tag d' w t) /\ (forall t, dmem (tags (load (save ord d'))) t = dmem (tags d') t) /\ maxlen (load (save ord d')) = maxlen d'.
Proof.
  intros pd d ops ord ND E P d'. destruct (dhistory_good d ops (new_good pd d ND E)) as [G _]. fold d' in G. split; [|split].
  - intros w t. unfold load. rewrite fresh_word_is_tag. unfold save, word_is_tag. cbn [snd fst].
    assert (forall l, dget (map (fun kr : str * nat => (fst kr, match deref d' (snd kr) with OSet s => ord s | OList l => l end)) l) t =
      match dget l t with Some r => Some (match deref d' r with OSet s => ord s | OList l => l end) | None => None end) as ->.
    { induction l as [|[k r] l IH]; [reflexivity|]. cbn [map dget fst snd]. destruct (eqb k t); [reflexivity|exact IH]. }
    destruct (dget (tags d') t) as [r|] eqn:D; [|reflexivity]. destruct (deref d' r) as [s|l] eqn:R; [|exfalso; eapply good_tag; eauto]. cbn [elems].
    apply eq_true_iff_eq. rewrite !mem_In. split; apply Permutation_in; [apply P|apply Permutation_sym, P].
  - intros t. unfold load, save. cbn [snd fst tags]. unfold dmem. 
    assert (forall i l, (match dget (number_from i (map (fun kr : str * nat => (fst kr, match deref d' (snd kr) with OSet s => ord s | OList l => l end)) l)) t with Some _ => true | None => false end) =
      match dget l t with Some _ => true | None => false end) as H; [|apply H].
    intros i l. revert i. induction l as [|[k r] l IH]; intros i; [reflexivity|]. cbn [map number_from dget fst snd]. destruct (eqb k t); [reflexivity|apply IH].
  - reflexivity.
Qed.
Print Assumptions C47_save_load.
(** a set object handed to add_words under two new tags is shared: adding a word to one tag adds it to the other *)
Theorem C47_shared_set_refuted : exists d, tdict_new [(u "Noun", [u "책"])] = Ok d /\
  let d0 := mkT (heap d ++ [OSet [u "아주"]]) (tags d) (maxlen d) in
  let d1 := fst (add_words d0 (u "Adverb") (AObj 1) true) in
  let d2 := fst (add_words d1 (u "Exclamation") (AObj 1) true) in
  let d3 := fst (add_words d2 (u "Adverb") (AStr (u "매우")) false) in
  word_is_tag d2 (u "매우") (u "Exclamation") = false /\ word_is_tag d3 (u "매우") (u "Exclamation") = true.
Proof. eexists. split; [vm_compute; reflexivity|]. vm_compute. split; reflexivity. Qed.
Print Assumptions C47_shared_set_refuted.
Definition ex_pd : dict str (list str) := [(u "Noun", [u "아이"; u "노래"; u "노래방"; u "방"; u "책"]); (u "Josa", [u "의"; u "는"; u "은"]); (u "Verb", [u "하다"]); (u "Adverb", [u "빨리"])].
Definition ex_d : tdict := match tdict_new ex_pd with Ok d => d | Err _ => mkT [] [] 0 end.
Example C47_ex : tdict_new ex_pd = Ok ex_d /\
  let d' := dhistory ex_d [Add (u "Noun") (u "이것 저것들") false; Remove (u "Noun") (Some (u "이것 책")); Add (u "Number") (u "하나") true; Add (u "Nope") (u "둘") false; Remove (u "Verb") None] in
  get_pos d' (u "저것들") = [u "Noun"] /\ get_pos d' (u "책") = [] /\ get_pos d' (u "이것") = [] /\ get_pos d' (u "하나") = [u "Number"] /\ get_pos d' (u "둘") = [] /\ get_pos d' (u "하다") = [] /\ maxlen d' = 3.
Proof. vm_compute. repeat split. Qed.

(** ** C48: the candidates of LRTemplateMatcher are exactly the known L and L + R segments *)
Definition ex_ord (l : list str) : list str := l.
Theorem C48_candidates : forall pd d ops lt tm ord t c, NoDup (map fst pd) -> tdict_new pd = Ok d -> (forall l, Permutation (ord l) l) ->
  let g := new_lr_matcher (dhistory d ops) lt tm ord in let known w tag := word_is_tag (dhistory d ops) w tag = true in
  (In c (lr_generate g t) <-> exists lt, l_tag c = Some lt /\ b_of c + 2 <= m_of c /\ m_of c <= e_of c <= length t /\
     l_of c = slice (b_of c) (m_of c) t /\ r_of c = slice (m_of c) (e_of c) t /\ In lt (ltags g) /\ known (l_of c) lt /\
     match r_tag c with
     | None => e_of c = m_of c
     | Some rt => m_of c < e_of c /\ In rt (dgetd (templates g) lt []) /\ known (r_of c) rt
     end).
Proof.
  intros pd d ops lt tm ord t c ND E P g kn. destruct (dhistory_good d ops (new_good pd d ND E)) as [((N1 & _) & B & _) _]. exact (lr_generate_In g t c P N1 B).
Qed.
Print Assumptions C48_candidates.
Theorem C48_order : forall g t, StronglySorted (fun x y => b_of x <= b_of y) (lr_generate g t).
Proof. exact lr_generate_sorted. Qed.
Print Assumptions C48_order.
(** a one-character L is never proposed, even if it is in the dictionary *)
Theorem C48_one_syllable_refuted : exists t, word_is_tag ex_d t (u "Noun") = true /\ lr_generate (new_lr_matcher ex_d [] [] ex_ord) t = [].
Proof. exists (u "책"). vm_compute. split; reflexivity. Qed.
Print Assumptions C48_one_syllable_refuted.
Example C48_ex : map (fun c => (l_of c, r_of c)) (lr_generate (new_lr_matcher ex_d [] [] ex_ord) (u "아이의노래방은")) =
  [(u "아이", []); (u "아이", u "의"); (u "노래", []); (u "노래방", []); (u "노래방", u "은")].
Proof. vm_compute. reflexivity. Qed.

(** ** C49: LREvaluator.select_best *)
(** a candidate is chosen iff no chosen candidate ranked before it overlaps it; ranked by score, then by position in the list *)
Theorem C49_greedy : forall ev cs c, NoDup cs -> let best := lr_select_best ev cs in
  (In c best <-> In c cs /\ forall x, In x best -> (ev c < ev x)%Q \/ ((ev x == ev c)%Q /\ before cs x c) -> ~ overlap x c).
Proof.
  intros ev cs c ND best. unfold best. rewrite lr_select_eq. set (s := map fst _). set (bl := sort_index2 _).
  assert (HB : forall x, In x bl <-> In x (greedy (length cs) s)) by (intros x; apply index2_In). clearbody bl. clear best.
  assert (P : Permutation s cs) by (apply s_fst_perm). assert (NDs : NoDup s) by (eapply Permutation_NoDup; [apply Permutation_sym, P|exact ND]).
  assert (L : length s <= length cs) by (rewrite (Permutation_length P); apply Nat.le_refl).
  assert (IN : forall x, In x s <-> In x cs) by (intros x; split; apply Permutation_in; [exact P|apply Permutation_sym, P]).
  rewrite HB. rewrite (greedy_exact (length cs) s L NDs c), IN. split; intros [I H]; (split; [exact I|]).
  - intros x Ix R. apply HB in Ix. apply (H x Ix). apply (rank_before ev cs ND).
    + intros ->. destruct R as [R|[_ R]]; [apply (Qlt_irrefl _ R)|exact (before_irrefl cs _ ND R)].
    + split; [apply IN; eapply greedy_sub, Ix|]. auto.
  - intros x Ix B. apply (H x (proj2 (HB _) Ix)). apply (rank_before ev cs ND) in B as (_ & _ & B); [exact B|]. intros ->. eapply before_irrefl; eauto.
Qed.
Print Assumptions C49_greedy.
Theorem C49_disjoint : forall ev cs, NoDup cs -> let best := lr_select_best ev cs in
  NoDup best /\ (forall x y, In x best -> In y best -> x <> y -> ~ overlap x y) /\
  forall c, In c cs -> In c best \/ exists x, In x best /\ overlap x c /\ (ev c <= ev x)%Q.
Proof.
  intros ev cs ND best. unfold best. rewrite lr_select_eq. set (s := map fst _).
  assert (P : Permutation s cs) by (apply s_fst_perm). assert (NDs : NoDup s) by (eapply Permutation_NoDup; [apply Permutation_sym, P|exact ND]).
  assert (L : length s <= length cs) by (rewrite (Permutation_length P); apply Nat.le_refl).
  split; [eapply Permutation_NoDup; [apply Permutation_sym, sort_perm|apply greedy_NoDup, NDs]|]. split.
  - intros x y Ix Iy N. apply (proj1 (index2_In _ _)) in Ix, Iy. exact (greedy_disjoint _ s NDs x y Ix Iy N).
  - intros c I. pose proof (C49_greedy ev cs c ND) as G. cbv zeta in G. rewrite lr_select_eq in G. fold s in G.
    set (bl := sort_index2 (greedy (length cs) s)) in *.
    set (bad := filter (fun x => ovb x c && Qle_bool (ev c) (ev x)) bl). assert (bad = [] \/ exists x l, bad = x :: l) as [E|(x & l & E)] by (destruct bad as [|x l]; [left; reflexivity|right; exists x, l; reflexivity]).
    + left. apply G. split; [exact I|]. intros x Ix R O. assert (In x bad) as J; [|rewrite E in J; destruct J]. apply filter_In. split; [exact Ix|]. apply andb_true_iff. split; [apply ovb_spec, O|].
      apply Qle_bool_iff. destruct R as [R|[R _]]; [apply Qlt_le_weak, R|rewrite R; apply Qle_refl].
    + right. exists x. assert (In x bad) as J by (rewrite E; left; reflexivity). apply filter_In in J as [J1 J2]. apply andb_true_iff in J2 as [J2 J3]. split; [exact J1|]. split; [apply ovb_spec, J2|apply Qle_bool_iff, J3].
Qed.
Print Assumptions C49_disjoint.
(** the chosen words come in the order of their R strings, not in text order *)
Theorem C49_order : forall ev cs, StronglySorted (fun x y => str_leb (r_of x) (r_of y) = true) (lr_select_best ev cs).
Proof. intros ev cs. unfold lr_select_best. apply sort_sorted; intros; [apply str_leb_total'|eapply str_leb_trans'; eauto]. Qed.
Print Assumptions C49_order.
Theorem C49_text_order_refuted : exists t, map (fun c => (l_of c, r_of c, b_of c)) (lr_select_best (lr_evaluate lr_weights []) (lr_generate (new_lr_matcher ex_d [] [] ex_ord) t)) =
  [(u "노래방", u "는", 3); (u "아이", u "의", 0)].
Proof. exists (u "아이의노래방는"). vm_compute. reflexivity. Qed.
Print Assumptions C49_text_order_refuted.
(** the scores with the default weights *)
Lemma opt_str_eqb_spec a b : opt_str_eqb a b = true <-> a = b.
Proof. destruct a, b; cbn [opt_str_eqb]; try (split; congruence). rewrite eqb_eq. split; congruence. Qed.
Lemma pref_get_spec p tag w : NoDup (map fst p) -> preferred p tag w (pref_get p tag w).
Proof.
  intros N. unfold pref_get, preferred. induction p as [|[k d] p IH]; cbn [find]; [right; split; [intros d []|reflexivity]|]. cbn [map fst] in N. inversion N as [|? ? NI N']; subst.
  destruct (opt_str_eqb (fst (k, d)) tag) eqn:EQ.
  - apply opt_str_eqb_spec in EQ. cbn [fst] in EQ. subst k. left. exists d. split; [left; reflexivity|]. cbn [snd]. unfold dgetd. destruct (dget d w); auto.
  - assert (NE : k <> tag) by (intros X; apply (proj2 (opt_str_eqb_spec _ _)) in X; cbn [fst] in EQ; congruence).
    destruct (IH N') as [(d' & I & X)|(F & X)]; [left; exists d'; split; [right; exact I|exact X]|right; split; [|exact X]]. intros d' [E|I]; [congruence|exact (F d' I)].
Qed.
Theorem C49_default_score : forall p c, (b_of c <= m_of c <= e_of c)%nat -> NoDup (map fst p) ->
  exists qt qk ql qr, tag_bonus (l_tag c) qt /\ known_bonus (l_tag c) (r_tag c) qk /\ preferred p (l_tag c) (l_of c) ql /\ preferred p (r_tag c) (r_of c) qr /\
  (lr_evaluate lr_weights p c == qt + qk + (1 # 10) * inject_Z (Z.of_nat (e_of c - b_of c)) - (if (m_of c - b_of c =? 1)%nat then 2 # 10 else 0) + ql + qr)%Q.
Proof.
  intros p c H N.
  set (qt := if opt_str_eqb (l_tag c) (Some (u "Noun")) then 3 # 10 else if opt_str_eqb (l_tag c) (Some (u "Adverb")) then 2 # 10 else if opt_str_eqb (l_tag c) (Some (u "Adjective")) then 1 # 10 else 0%Q).
  exists qt, (if negb (opt_str_eqb (l_tag c) None) && negb (opt_str_eqb (r_tag c) None) then 15 # 100 else 0%Q), (pref_get p (l_tag c) (l_of c)), (pref_get p (r_tag c) (r_of c)).
  split; [|split; [|split; [apply pref_get_spec, N|split; [apply pref_get_spec, N|]]]].
  - unfold qt, tag_bonus. destruct (opt_str_eqb (l_tag c) (Some (u "Noun"))) eqn:E1; [apply opt_str_eqb_spec in E1; auto|].
    assert (N1 : l_tag c <> Some (u "Noun")) by (intros X; apply opt_str_eqb_spec in X; congruence). destruct (opt_str_eqb (l_tag c) (Some (u "Adverb"))) eqn:E2; [apply opt_str_eqb_spec in E2; auto|].
    assert (N2 : l_tag c <> Some (u "Adverb")) by (intros X; apply opt_str_eqb_spec in X; congruence). destruct (opt_str_eqb (l_tag c) (Some (u "Adjective"))) eqn:E3; [apply opt_str_eqb_spec in E3; auto|].
    assert (N3 : l_tag c <> Some (u "Adjective")) by (intros X; apply opt_str_eqb_spec in X; congruence). right; right; right. auto.
  - unfold known_bonus. destruct (l_tag c) as [x|], (r_tag c) as [y|]; cbn [opt_str_eqb negb andb]; [left; split; [discriminate|split; [discriminate|reflexivity]]|right; auto|right; auto|right; auto].
  - unfold lr_evaluate, lr_weights. cbn [nth]. rewrite <- !Nat2Z.inj_sub by lia.
    replace (Z.of_nat (m_of c - b_of c) =? 1)%Z with (m_of c - b_of c =? 1)%nat by (destruct (Nat.eqb_spec (m_of c - b_of c) 1), (Z.eqb_spec (Z.of_nat (m_of c - b_of c)) 1); try reflexivity; lia).
    assert (L : (inject_Z (Z.of_nat (e_of c - b_of c)) == inject_Z (Z.of_nat (m_of c - b_of c)) + inject_Z (Z.of_nat (e_of c - m_of c)))%Q) by (rewrite <- inject_Z_plus; replace (Z.of_nat (e_of c - b_of c)) with (Z.of_nat (m_of c - b_of c) + Z.of_nat (e_of c - m_of c))%Z by lia; reflexivity).
    rewrite L. unfold qt.
    assert (D : forall s s', s <> s' -> opt_str_eqb (l_tag c) (Some s) = true -> opt_str_eqb (l_tag c) (Some s') = false).
    { intros s s' NE X. apply opt_str_eqb_spec in X. rewrite X. cbn [opt_str_eqb]. apply eqb_neq, NE. }
    destruct (opt_str_eqb (l_tag c) (Some (u "Noun"))) eqn:E1; [rewrite (D (u "Noun") (u "Adverb") ltac:(vm_compute; discriminate) E1), (D (u "Noun") (u "Adjective") ltac:(vm_compute; discriminate) E1)|destruct (opt_str_eqb (l_tag c) (Some (u "Adverb"))) eqn:E2; [rewrite (D (u "Adverb") (u "Adjective") ltac:(vm_compute; discriminate) E2)|destruct (opt_str_eqb (l_tag c) (Some (u "Adjective")))]];
      destruct (negb (opt_str_eqb (l_tag c) None) && negb (opt_str_eqb (r_tag c) None)), (m_of c - b_of c =? 1)%nat; cbn [q_of_bool]; ring.
Qed.
Print Assumptions C49_default_score.
Example C49_default_score_ex : (lr_evaluate lr_weights [(Some (u "Noun"), [(u "아이", 1%Q)])] (mkLR (u "아이") (Some (u "Noun")) (u "는") (Some (u "Josa")) 2 4 5) == 175 # 100)%Q.
Proof. vm_compute. reflexivity. Qed.
(** the weight called is_verb is given to adverbs, and a verb is not affected by it *)
Theorem C49_is_verb_refuted : forall w w' p c, (forall i, i <> 2 -> w i = w' i) ->
  (l_tag c <> Some (u "Adverb") -> (lr_evaluate w p c == lr_evaluate w' p c)%Q) /\
  (l_tag c = Some (u "Adverb") -> (lr_evaluate w p c - lr_evaluate w' p c == w 2%nat - w' 2%nat)%Q).
Proof.
  intros w w' p c H. unfold lr_evaluate. rewrite (H 0), (H 1), (H 3), (H 4), (H 5), (H 6) by lia. split.
  - intros N. assert (opt_str_eqb (l_tag c) (Some (u "Adverb")) = false) as E.
    { destruct (l_tag c) as [x|]; [|reflexivity]. cbn [opt_str_eqb]. apply eqb_neq. congruence. }
    rewrite E. cbn [q_of_bool]. ring.
  - intros E. rewrite E. change (opt_str_eqb (Some (u "Adverb")) (Some (u "Adverb"))) with true. cbn [q_of_bool]. ring.
Qed.
Print Assumptions C49_is_verb_refuted.
Example C49_ex : NoDup (lr_generate (new_lr_matcher ex_d [] [] ex_ord) (u "아이의노래방은")) /\
  map (fun c => (l_of c, r_of c)) (lr_select_best (lr_evaluate lr_weights []) (lr_generate (new_lr_matcher ex_d [] [] ex_ord) (u "아이의노래방은"))) = [(u "노래방", u "은"); (u "아이", u "의")].
Proof. split; [|vm_compute; reflexivity]. vm_compute. repeat (constructor; [cbn; intros H; decompose [or] H; try discriminate; contradiction|]). constructor. Qed.

(** ** C50: eojeol tagging *)
Theorem C50_candidates : forall g t c, In c (eojeol_generate g t) <->
  let d := em_dict g in let n := length t in
  (exists tag, In tag (get_pos d t) /\ In tag (single_tags g) /\ c = [mkLR t (Some tag) [] None 0 n n]) \/
  ((forall tag, In tag (get_pos d t) -> ~ In tag (single_tags g)) /\ c = [mkLR t None [] None 0 n n]) \/
  (exists b lt rt, 0 < b < n /\ In (lt, rt) (lr_templates g) /\ word_is_tag d (firstn b t) lt = true /\ word_is_tag d (skipn b t) rt = true /\
     c = [mkLR (firstn b t) (Some lt) (skipn b t) (Some rt) 0 b n]) \/
  (exists tag, (tag = u "Noun" \/ tag = u "Adverb") /\ greedy_cut d tag t 0 c /\ 2 <= length c).
Proof. exact eojeol_In. Qed.
Print Assumptions C50_candidates.
Theorem C50_candidates_tile : forall g t c, t <> [] -> In c (eojeol_generate g t) -> covers t 0 c.
Proof. exact eojeol_covers. Qed.
Print Assumptions C50_candidates_tile.
(** the evaluator picks the first candidate with the best score *)
Theorem C50_best : forall {C} (ev : C -> Q) cs c, select_best ev cs = Some c <->
  exists pre post, cs = pre ++ c :: post /\ Forall (fun x => (ev x < ev c)%Q) pre /\ Forall (fun x => (ev x <= ev c)%Q) post.
Proof. intros C ev cs c. apply select_best_first. Qed.
Print Assumptions C50_best.
(** tagging never fails and preserves the text of every eojeol, with or without the postprocessor *)
Theorem C50_text_preserved : forall g w post s, post = None \/ post = Some unknown_lr_postprocess ->
  exists outs, tag_simple g w post s = Ok outs /\ Forall2 (fun eojeol out => text_of out = eojeol) (split s) outs.
Proof.
  intros g w post s HP. unfold tag_simple, tag_sentence. pose proof (split_words s) as F. induction F as [|e es [NE _] F IH]; [exists []; split; [reflexivity|constructor]|].
  destruct IH as (outs & E & F2). cbn [mapM]. unfold tag_eojeol at 1.
  destruct (select_best (eojeol_evaluate w) (eojeol_generate g e)) as [c|] eqn:S; [|apply select_best_none in S; destruct (eojeol_nonempty g e S)].
  cbn [bind]. rewrite E. cbn [bind]. eexists. split; [reflexivity|]. constructor; [|exact F2].
  assert (In c (eojeol_generate g e)) as I by (apply select_best_first in S as (pre & po & -> & _); apply in_or_app; right; left; reflexivity).
  pose proof (eojeol_covers g e c NE I) as C. destruct HP as [-> | ->]; [|rewrite (covers_postprocess e c NE C)]; rewrite (covers_text e 0 c C); apply slice_all.
Qed.
Print Assumptions C50_text_preserved.
(** every tag given is a dictionary tag of the word *)
Theorem C50_tags_known : forall g w s outs out word tag, NoDup (map fst (tags (em_dict g))) -> tag_simple g w None s = Ok outs -> In out outs -> In (word, Some tag) out -> word_is_tag (em_dict g) word tag = true.
Proof.
  intros g w s outs out word tag ND. unfold tag_simple, tag_sentence. generalize (split s). intros es. revert outs. induction es as [|e es IH]; intros outs E I J.
  - injection E as <-. destruct I.
  - cbn [mapM] in E. unfold tag_eojeol at 1 in E. destruct (select_best (eojeol_evaluate w) (eojeol_generate g e)) as [c|] eqn:S; [|discriminate]. cbn [bind] in E.
    destruct (mapM _ es) as [outs'|] eqn:E'; [|discriminate]. cbn [bind] in E. injection E as <-. destruct I as [<-|I]; [|apply (IH outs' eq_refl I J)].
    assert (In c (eojeol_generate g e)) as IC by (apply select_best_first in S as (pre & po & -> & _); apply in_or_app; right; left; reflexivity).
    unfold flatten_lr in J. apply in_concat_map in J as (x & Ix & J).
    assert (forall lt, l_tag x = Some lt -> word_is_tag (em_dict g) (l_of x) lt = true) as HL.
    { apply eojeol_In in IC. cbv zeta in IC. destruct IC as [(t & I1 & I2 & ->)|[(_ & ->)|[(b & lt & rt & R & _ & W1 & W2 & ->)|(t & _ & C & _)]]].
      - destruct Ix as [<-|[]]. cbn [l_tag l_of]. intros lt E. injection E as <-. apply get_pos_spec; assumption.
      - destruct Ix as [<-|[]]. discriminate.
      - destruct Ix as [<-|[]]. cbn [l_tag l_of]. intros lt' E. injection E as <-. exact W1.
      - clear S J IH. induction C as [|b i ws R W H C IHC]; [destruct Ix|]. destruct Ix as [<-|Ix]; [|apply IHC, Ix]. cbn [l_tag l_of]. intros lt E. injection E as <-. exact W. }
    assert (forall rt, r_of x <> [] -> r_tag x = Some rt -> word_is_tag (em_dict g) (r_of x) rt = true) as HR.
    { apply eojeol_In in IC. cbv zeta in IC. destruct IC as [(t & I1 & I2 & ->)|[(_ & ->)|[(b & lt & rt & R & _ & W1 & W2 & ->)|(t & _ & C & _)]]].
      - destruct Ix as [<-|[]]. discriminate.
      - destruct Ix as [<-|[]]. discriminate.
      - destruct Ix as [<-|[]]. cbn [r_tag r_of]. intros rt' _ E. injection E as <-. exact W2.
      - clear S J IH. induction C as [|b i ws R W H C IHC]; [destruct Ix|]. destruct Ix as [<-|Ix]; [|apply IHC, Ix]. discriminate. }
    apply in_app_or in J as [J|J].
    + destruct (l_of x) as [|y l'] eqn:EL; [destruct J|]. destruct J as [J|[]]. injection J as <- J. rewrite <- EL. rewrite EL. apply HL, J.
    + destruct (r_of x) as [|y l'] eqn:EL; [destruct J|]. destruct J as [J|[]]. injection J as <- J. apply HR; [discriminate|exact J].
Qed.
Print Assumptions C50_tags_known.
(** scores with the default weights, by shape: a known noun wins over everything, then noun + josa, then noun + another word,
    then another single known word *)
Theorem C50_default_scores : forall t l r lt rt n b,
  let ev := eojeol_evaluate eojeol_weights in let one w tag := [mkLR w tag [] None 0 n n] in let two := [mkLR l (Some lt) r (Some rt) 0 b n] in
  (ev (one t (Some (u "Noun"))) == 15 # 100)%Q /\
  (lt = u "Noun" -> rt = u "Josa" -> r <> [] -> (ev two == 5 # 100)%Q) /\
  (lt = u "Noun" -> rt <> u "Josa" -> r <> [] -> (ev two == - 5 # 100)%Q) /\
  (lt <> u "Noun" -> (ev (one t (Some lt)) == - 15 # 100)%Q) /\
  (ev (one t None) == - 45 # 100)%Q.
Proof.
  intros t l r lt rt n b ev one two. split; [|split; [|split; [|split]]].
  - reflexivity.
  - intros -> -> NE. unfold ev, two, eojeol_evaluate. cbn [filter l_tag r_tag r_of length opt_str_eqb]. change (eqb (u "Noun") (u "Noun")) with true. change (eqb (u "Noun") (u "Adverb")) with false. change (eqb (u "Josa") (u "Josa")) with true.
    destruct r; [congruence|]. reflexivity.
  - intros -> NJ NE. unfold ev, two, eojeol_evaluate. cbn [filter l_tag r_tag r_of length opt_str_eqb]. change (eqb (u "Noun") (u "Noun")) with true. change (eqb (u "Noun") (u "Adverb")) with false.
    assert (eqb rt (u "Josa") = false) as -> by (apply eqb_neq; exact NJ). destruct r; [congruence|]. reflexivity.
  - intros N. unfold ev, one, eojeol_evaluate. cbn [filter l_tag r_tag r_of length opt_str_eqb]. assert (eqb lt (u "Noun") = false) as -> by (apply eqb_neq; exact N).
    destruct (eqb lt (u "Adverb")); reflexivity.
  - reflexivity.
Qed.
Print Assumptions C50_default_scores.
(** scores of compounds fall with the number of words *)
Theorem C50_compound_scores : forall d tag t b ws k, greedy_cut d tag t b ws -> length ws = k -> 2 <= k ->
  let ev := eojeol_evaluate eojeol_weights in
  (tag = u "Noun" -> (ev ws == (15 # 100) - (25 # 100) * inject_Z (Z.of_nat k))%Q) /\ (tag = u "Adverb" -> (ev ws == (1 # 10) - (15 # 100) * inject_Z (Z.of_nat k))%Q).
Proof.
  intros d tag t b ws k C L K ev.
  assert (forall f, (forall x, l_tag x = Some tag -> f x = true) -> filter f ws = ws) as FA.
  { intros f H. clear L K. induction C as [|b i ws R W HH C IH]; [reflexivity|]. cbn [filter]. rewrite H by reflexivity. rewrite IH. reflexivity. }
  assert (forall f, (forall x, l_tag x = Some tag -> f x = false) -> filter f ws = []) as FN.
  { intros f H. clear L K. induction C as [|b i ws R W HH C IH]; [reflexivity|]. cbn [filter]. rewrite H by reflexivity. rewrite IH; [reflexivity|]. intros f' H'. specialize (FA f' H'). cbn [filter] in FA. rewrite H' in FA by reflexivity. congruence. }
  assert (forall B (f : lr -> B) (z : B), match ws with [x] => f x | _ => z end = z) as M by (intros B f z; destruct ws as [|x [|y ws']]; [reflexivity|cbn in L; lia|reflexivity]).
  unfold ev, eojeol_evaluate. cbv zeta. rewrite !M. split; intros ->.
  - rewrite !(FA (fun x => opt_str_eqb (l_tag x) (Some (u "Noun")))) by (intros x ->; reflexivity). rewrite (FN (fun x => opt_str_eqb (l_tag x) None)) by (intros x ->; reflexivity). rewrite (FN (fun x => opt_str_eqb (l_tag x) (Some (u "Adverb")))) by (intros x ->; reflexivity).
    rewrite L. rewrite Nat.eqb_refl. replace (0 <? k) with true by (symmetry; apply Nat.ltb_lt; lia). replace (1 <? k) with true by (symmetry; apply Nat.ltb_lt; lia). cbn [length andb]. replace (k =? 0) with false by (symmetry; apply Nat.eqb_neq; lia).
    unfold q_of_nat, eojeol_weights. cbn [nth q_of_bool Z.of_nat]. change (inject_Z 0) with 0%Q. ring.
  - rewrite !(FA (fun x => opt_str_eqb (l_tag x) (Some (u "Adverb")))) by (intros x ->; reflexivity). rewrite (FN (fun x => opt_str_eqb (l_tag x) None)) by (intros x ->; reflexivity). rewrite !(FN (fun x => opt_str_eqb (l_tag x) (Some (u "Noun")))) by (intros x ->; reflexivity).
    rewrite L. rewrite Nat.eqb_refl. replace (1 <? k) with true by (symmetry; apply Nat.ltb_lt; lia). cbn [length andb]. replace (k =? 0) with false by (symmetry; apply Nat.eqb_neq; lia).
    unfold q_of_nat, eojeol_weights. cbn [nth q_of_bool Z.of_nat Nat.ltb Nat.leb]. change (inject_Z 0) with 0%Q. ring.
Qed.
Print Assumptions C50_compound_scores.
(** a known noun is always tagged as one noun *)
Theorem C50_known_noun : forall g t, In (u "Noun") (single_tags g) -> NoDup (map fst (tags (em_dict g))) -> word_is_tag (em_dict g) t (u "Noun") = true -> t <> [] ->
  Forall (fun lt => fst lt = u "Noun") (lr_templates g) ->
  select_best (eojeol_evaluate eojeol_weights) (eojeol_generate g t) = Some [mkLR t (Some (u "Noun")) [] None 0 (length t) (length t)].
Proof.
  intros g t IS ND W NE FT. set (c0 := [mkLR t (Some (u "Noun")) [] None 0 (length t) (length t)]).
  assert (IN0 : In c0 (eojeol_generate g t)) by (apply eojeol_In; cbv zeta; left; exists (u "Noun"); split; [apply get_pos_spec; assumption|split; [exact IS|reflexivity]]).
  assert (LT : forall c, In c (eojeol_generate g t) -> c <> c0 -> (eojeol_evaluate eojeol_weights c < eojeol_evaluate eojeol_weights c0)%Q).
  { assert (E0 : (eojeol_evaluate eojeol_weights c0 == 15 # 100)%Q) by reflexivity. intros c I N. rewrite E0. apply eojeol_In in I. cbv zeta in I. destruct I as [(tag & I1 & I2 & ->)|[(H & ->)|[(b & lt & rt & R & IT & W1 & W2 & ->)|(tag & HT & C & L2)]]].
    - destruct (C50_default_scores t [] [] tag [] (length t) 0) as (_ & _ & _ & S & _). rewrite S; [reflexivity|]. intros ->. apply N. reflexivity.
    - exfalso. apply (H (u "Noun")); [apply get_pos_spec; assumption|exact IS].
    - eapply Forall_forall in FT; [|exact IT]. cbn [fst] in FT. destruct (C50_default_scores t (firstn b t) (skipn b t) lt rt (length t) b) as (_ & S1 & S2 & _).
      assert (skipn b t <> []) as NS. { intros E. apply (f_equal (@length _)) in E. rewrite skipn_length in E. cbn in E. lia. }
      destruct (eq_dec_of rt (u "Josa")) as [EJ|EJ]; [rewrite (S1 FT EJ NS)|rewrite (S2 FT EJ NS)]; reflexivity.
    - destruct (C50_compound_scores _ tag t 0 c (length c) C eq_refl L2) as [S1 S2]. assert (2 <= inject_Z (Z.of_nat (length c)))%Q as LQ. { change 2%Q with (inject_Z 2). rewrite <- Zle_Qle. lia. }
      destruct HT as [HT|HT]; [rewrite (S1 HT)|rewrite (S2 HT)]; lra. }
  apply select_best_first. destruct (in_split _ _ IN0) as (pre & post & E).
  assert (exists pre post, eojeol_generate g t = pre ++ c0 :: post /\ ~ In c0 pre) as (pre' & post' & E' & NI).
  { clear - IN0. assert (forall x y : list lr, {x = y} + {x <> y}) as dec. { repeat decide equality. } revert IN0. generalize (eojeol_generate g t). intros l. induction l as [|x l IH]; intros I; [destruct I|].
    destruct (dec x c0) as [->|N]; [exists [], l; split; [reflexivity|intros []]|]. destruct I as [->|I]; [congruence|]. destruct (IH I) as (a & b & -> & H). exists (x :: a), b. split; [reflexivity|]. intros [->|J]; [congruence|exact (H J)]. }
  exists pre', post'. split; [exact E'|]. split; apply Forall_forall.
  - intros x I. apply LT; [rewrite E'; apply in_or_app; left; exact I|]. intros ->. exact (NI I).
  - intros x I. assert (forall x y : list lr, {x = y} + {x <> y}) as dec by (repeat decide equality). destruct (dec x c0) as [->|N]; [apply Qle_refl|]. apply Qlt_le_weak, LT; [rewrite E'; apply in_or_app; right; right; exact I|exact N].
Qed.
Print Assumptions C50_known_noun.
(** a compound of three known nouns loses against the unknown reading *)
Theorem C50_three_nouns_refuted : exists d t outs, tdict_new [(u "Noun", [u "서울"; u "대학"; u "병원"])] = Ok d /\ t = u "서울대학병원" /\
  tag_simple (new_eojeol_matcher d [] []) eojeol_weights None t = Ok outs /\ outs = [[(t, None)]] /\
  tag_simple (new_eojeol_matcher d [] []) eojeol_weights None (u "서울대학") = Ok [[(u "서울", Some (u "Noun")); (u "대학", Some (u "Noun"))]].
Proof. eexists. eexists. eexists. split; [vm_compute; reflexivity|]. split; [reflexivity|]. split; [vm_compute; reflexivity|]. split; vm_compute; reflexivity. Qed.
Print Assumptions C50_three_nouns_refuted.
Example C50_ex : tag_simple (new_eojeol_matcher ex_d [] []) eojeol_weights None (u "아이의  노래방책 ㅋㅋ책") =
  Ok [[(u "아이", Some (u "Noun")); (u "의", Some (u "Josa"))]; [(u "노래방책", None)]; [(u "ㅋㅋ책", None)]].
Proof. vm_compute. reflexivity. Qed.
Example C50_known_noun_ex : select_best (eojeol_evaluate eojeol_weights) (eojeol_generate (new_eojeol_matcher ex_d [] []) (u "노래방")) = Some [mkLR (u "노래방") (Some (u "Noun")) [] None 0 3 3].
Proof.
  apply C50_known_noun; [vm_compute; left; reflexivity| |vm_compute; reflexivity|discriminate|repeat constructor].
  destruct (dhistory_good ex_d [] (new_good ex_pd ex_d ltac:(vm_compute; repeat (constructor; [cbn; intros H; decompose [or] H; try discriminate; contradiction|]); constructor) ltac:(vm_compute; reflexivity))) as [((N & _) & _) _]. exact N.
Qed.

(** ** C63: tagging with LRTemplateMatcher, LREvaluator and UnknowLRPostprocessor *)
(** words in text order and without overlap are completed to a tiling of the token; the words are kept, and what is added is unknown *)
Theorem C63_postprocess_tiles : forall t ws, ws <> [] -> in_order t 0 ws ->
  covers t 0 (unknown_lr_postprocess t ws) /\ text_of (flatten_lr (unknown_lr_postprocess t ws)) = t /\
  (forall x, In x ws -> In x (unknown_lr_postprocess t ws)) /\ (forall x, In x (unknown_lr_postprocess t ws) -> In x ws \/ l_tag x = None /\ r_of x = []).
Proof.
  intros t ws NE O. rewrite (postprocess_fill t ws NE O). pose proof (fill_covers t 0 ws O) as C. split; [exact C|]. split; [rewrite (covers_text t 0 _ C); apply slice_all|].
  clear NE O C. generalize 0. induction ws as [|y ws IH]; intros p; cbn [fill].
  - split; [intros x []|]. destruct (p <? length t); [intros x [<-|[]]; right; split; reflexivity|intros x []].
  - destruct (IH (e_of y)) as [I1 I2]. split.
    + intros x [<-|I]; apply in_or_app; right; [left; reflexivity|right; apply I1, I].
    + intros x I. apply in_app_or in I as [I|[<-|I]]; [destruct (p <? b_of y); [destruct I as [<-|[]]; right; split; reflexivity|destruct I]|left; left; reflexivity|].
      destruct (I2 x I) as [J|J]; [left; right; exact J|right; exact J].
Qed.
Print Assumptions C63_postprocess_tiles.
(** without a chosen word the eojeol disappears, also with the postprocessor *)
Theorem C63_eojeol_dropped : forall g w p t post, post = None \/ post = Some unknown_lr_postprocess -> lr_generate g t = [] ->
  tag_eojeol (fun e => Some (lr_select_best (lr_evaluate w p) (lr_generate g e))) post t = Ok [].
Proof. intros g w p t post H E. unfold tag_eojeol. rewrite E. destruct H as [-> | ->]; reflexivity. Qed.
Print Assumptions C63_eojeol_dropped.
(** otherwise, if the chosen words stand in text order, the text is preserved *)
Theorem C63_text_preserved : forall g w p t, let best := lr_select_best (lr_evaluate w p) (lr_generate g t) in
  permutes (tag_order g) -> NoDup (map fst (tags (lm_dict g))) -> bounded (lm_dict g) -> NoDup (lr_generate g t) -> lr_generate g t <> [] -> StronglySorted (fun x y => b_of x <= b_of y) best ->
  exists out, tag_eojeol (fun e => Some (lr_select_best (lr_evaluate w p) (lr_generate g e))) (Some unknown_lr_postprocess) t = Ok out /\ text_of out = t.
Proof.
  intros g w p t best P N B NDg NE S. unfold tag_eojeol. fold best. eexists. split; [reflexivity|].
  destruct (C49_disjoint (lr_evaluate w p) (lr_generate g t) NDg) as (NB & DJ & CM). fold best in NB, DJ, CM.
  apply C63_postprocess_tiles.
  - intros E. rewrite E in CM. destruct (lr_generate g t) as [|c l]; [congruence|]. destruct (CM c (or_introl eq_refl)) as [[]|(x & [] & _)].
  - assert (Forall (located t) best) as L. { apply Forall_forall. intros x I. apply (lr_generate_located g t x P N B). pose proof (proj1 (C49_greedy (lr_evaluate w p) (lr_generate g t) x NDg) I) as H. exact (proj1 H). }
    assert (forall q, q <= length t -> Forall (fun x => q <= b_of x) best -> in_order t q best) as K; [|apply K; [lia|apply Forall_forall; intros; lia]].
    clear CM NE. clearbody best. induction S as [|x l S IH F]; intros q Hq FQ; [constructor; exact Hq|]. inversion L as [|? ? Lx L']; subst. inversion NB as [|? ? NI NB']; subst. inversion FQ as [|? ? Qx FQ']; subst.
    constructor; [exact Qx|exact Lx|]. apply IH; [exact NB'|intros a b Ia Ib; apply DJ; right; assumption|exact L'|destruct Lx as (_ & _ & _ & H & _); exact H|].
    apply Forall_forall. intros y I. assert (x <> y) as Nxy by (intros ->; contradiction). assert (~ overlap x y) as NO by (apply DJ; [left; reflexivity|right; exact I|exact Nxy]). eapply Forall_forall in F; [|exact I].
    eapply Forall_forall in L'; [|exact I]. destruct Lx as (_ & _ & X & _), L' as (_ & _ & Y & _). unfold overlap in NO. lia.
Qed.
Print Assumptions C63_text_preserved.
(** but not in general: the chosen words are ordered by their R *)
Theorem C63_text_preserved_refuted : exists t out, tag_lr (new_lr_matcher ex_d [] [] ex_ord) lr_weights [] (Some unknown_lr_postprocess) t = Ok [out] /\ t = u "아이의노래방는" /\ text_of out = u "아이의아이의노래방는노래방는".
Proof. exists (u "아이의노래방는"). eexists. split; [vm_compute; reflexivity|]. split; vm_compute; reflexivity. Qed.
Print Assumptions C63_text_preserved_refuted.
Example C63_ex : tag_lr (new_lr_matcher ex_d [] [] ex_ord) lr_weights [] (Some unknown_lr_postprocess) (u "내아이의 책 그노래방의!") =
  Ok [[(u "내", None); (u "아이", Some (u "Noun")); (u "의", Some (u "Josa"))]; []; [(u "그", None); (u "노래방", Some (u "Noun")); (u "의", Some (u "Josa")); (u "!", None)]].
Proof. vm_compute. reflexivity. Qed.
