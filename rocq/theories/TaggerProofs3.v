(** * LRTemplateMatcher and dictionary histories: proofs *)
From Coq Require Import QArith.
From Verif Require Import PyBase PyDict PySort PyText SortLemmas TaggerModel TaggerDictProofs TaggerSpec TaggerProofs TaggerProofs2.
Open Scope nat_scope.

Lemma in_concat_map {A B} (f : A -> list B) l y : In y (concat (map f l)) <-> exists x, In x l /\ In y (f x).
Proof.
  rewrite in_concat. split.
  - intros (z & I & J). apply in_map_iff in I as (x & <- & I). exists x. auto.
  - intros (x & I & J). exists (f x). split; [apply in_map, I|exact J].
Qed.
Lemma bounded_len d w t : bounded d -> word_is_tag d w t = true -> length w <= maxlen d.
Proof.
  intros B. unfold word_is_tag. destruct (dget (tags d) t) as [r|] eqn:G; [|discriminate]. intros M. apply mem_In in M. apply dget_ref in G.
  eapply Forall_forall in B; [|exact G]. cbn [snd] in B. eapply Forall_forall in B; [|exact M]. exact B.
Qed.
Definition permutes (ord : list str -> list str) : Prop := forall l, Permutation (ord l) l.
Lemma pos_L_In g w tag : permutes (tag_order g) -> NoDup (map fst (tags (lm_dict g))) -> (In tag (pos_L g w) <-> In tag (ltags g) /\ word_is_tag (lm_dict g) w tag = true).
Proof.
  intros P N. unfold pos_L. assert (forall x l, In x (tag_order g l) <-> In x l) as E by (intros x l; split; apply Permutation_in; [apply P|apply Permutation_sym, P]).
  rewrite E, filter_In, mem_In, get_pos_spec by exact N. tauto.
Qed.
Lemma initialize_L_In g t l tag b e : permutes (tag_order g) -> NoDup (map fst (tags (lm_dict g))) -> bounded (lm_dict g) ->
  (In (l, tag, b, e) (initialize_L g t) <-> b + 2 <= e <= length t /\ l = slice b e t /\ In tag (ltags g) /\ word_is_tag (lm_dict g) l tag = true).
Proof.
  intros P N B. unfold initialize_L. cbv zeta. rewrite sort_In, in_concat_map. split.
  - intros (b' & I & J). apply in_seq in I. apply in_concat_map in J as (e' & J & K). apply in_seq in J. apply in_map_iff in K as (tag' & E & K). injection E as <- <- <- <-.
    apply (pos_L_In g _ tag' P N) in K as [K1 K2]. split; [lia|]. auto.
  - intros (R & -> & I & W). exists b. split; [apply in_seq; lia|]. apply in_concat_map. exists e. pose proof (bounded_len _ _ _ B W) as L. rewrite slice_length in L by lia.
    split; [apply in_seq; lia|]. apply in_map_iff. exists tag. split; [reflexivity|]. apply (pos_L_In g _ tag P N). auto.
Qed.
Lemma lr_generate_In g t c : permutes (tag_order g) -> NoDup (map fst (tags (lm_dict g))) -> bounded (lm_dict g) ->
  (In c (lr_generate g t) <-> exists lt, l_tag c = Some lt /\ b_of c + 2 <= m_of c /\ m_of c <= e_of c <= length t /\
     l_of c = slice (b_of c) (m_of c) t /\ r_of c = slice (m_of c) (e_of c) t /\ In lt (ltags g) /\ word_is_tag (lm_dict g) (l_of c) lt = true /\
     match r_tag c with
     | None => e_of c = m_of c
     | Some rt => m_of c < e_of c /\ In rt (dgetd (templates g) lt []) /\ word_is_tag (lm_dict g) (r_of c) rt = true
     end).
Proof.
  intros P N B. unfold lr_generate, expand_R. cbv zeta. rewrite sort_In, in_concat_map. split.
  - intros ([[[l lt] b] e1] & I & J). apply (initialize_L_In g t l lt b e1 P N B) in I as (R & -> & IL & W). apply in_concat_map in J as (e2 & J & K). apply in_seq in J.
    exists lt. destruct (slice e1 e2 t) as [|x r'] eqn:ER.
    + destruct K as [<-|[]]. cbn [l_of l_tag r_of r_tag b_of m_of e_of]. assert (e1 = e2) as <-. { assert (length (slice e1 e2 t) = 0) as L by (rewrite ER; reflexivity). rewrite slice_length in L by lia. lia. }
      rewrite ER. repeat split; auto; lia.
    + rewrite <- ER in *. apply in_map_iff in K as (rt & <- & K). apply filter_In in K as [K1 K2]. cbn [l_of l_tag r_of r_tag b_of m_of e_of].
      assert (e1 < e2). { assert (length (slice e1 e2 t) <> 0) as L by (rewrite ER; discriminate). rewrite slice_length in L by lia. lia. }
      repeat split; auto; lia.
  - intros (lt & E1 & R1 & R2 & E2 & E3 & IL & W & H). destruct c as [l ltg r rtg b m e]. cbn [l_of l_tag r_of r_tag b_of m_of e_of] in *. subst ltg l r.
    exists (slice b m t, lt, b, m). split; [apply (initialize_L_In g t); auto; repeat split; auto; lia|]. apply in_concat_map. exists e. destruct rtg as [rt|].
    + destruct H as (R3 & I & WR). pose proof (bounded_len _ _ _ B WR) as L. rewrite slice_length in L by lia. split; [apply in_seq; lia|].
      destruct (slice m e t) as [|x r'] eqn:ER; [assert (length (slice m e t) = 0) as L0 by (rewrite ER; reflexivity); rewrite slice_length in L0 by lia; lia|]. rewrite <- ER in *.
      apply in_map_iff. exists rt. split; [reflexivity|]. apply filter_In. auto.
    + subst e. split; [apply in_seq; lia|]. rewrite slice_nil. left. reflexivity.
Qed.
Lemma lr_generate_sorted g t : StronglySorted (fun x y => b_of x <= b_of y) (lr_generate g t).
Proof.
  unfold lr_generate, expand_R. cbv zeta. eapply StronglySorted_impl; [|apply (sort_sorted (le_key b_of)); [apply le_key_total|apply le_key_trans]]. intros x y H. apply Nat.leb_le, H.
Qed.
Lemma lr_generate_located g t c : permutes (tag_order g) -> NoDup (map fst (tags (lm_dict g))) -> bounded (lm_dict g) -> In c (lr_generate g t) -> located t c.
Proof.
  intros P N B I. apply (lr_generate_In g t c P N B) in I as (lt & E1 & R1 & R2 & E2 & E3 & _). unfold located. repeat split; auto; lia.
Qed.

(** ** histories *)
Definition good (d : tdict) : Prop := unshared d /\ bounded d /\ Forall (fun o => exists l, o = OSet l) (heap d).
Lemma good_deref d r l : good d -> r < length (heap d) -> deref d r <> OList l.
Proof. intros (_ & _ & F) L E. unfold deref in E. pose proof (nth_In (heap d) (OSet []) L) as I. eapply Forall_forall in F; [|exact I]. destruct F as [l' F]. congruence. Qed.
Lemma good_tag d t r l : good d -> dget (tags d) t = Some r -> deref d r <> OList l.
Proof. intros G E. apply good_deref; [exact G|]. destruct G as ((_ & _ & V) & _). apply dget_ref in E. eapply Forall_forall in V; [|exact E]. exact V. Qed.
Lemma Forall_upd {A} (P : A -> Prop) l i x : Forall P l -> P x -> Forall P (upd l i x).
Proof.
  intros F H. unfold upd. apply Forall_app. split; [apply Forall_forall; intros y I; apply (Forall_forall P l); [exact F|]; rewrite <- (firstn_skipn i l); apply in_or_app; left; exact I|].
  destruct (skipn i l) as [|y t] eqn:E; [constructor|]. constructor; [exact H|]. apply Forall_forall. intros z I. apply (Forall_forall P l); [exact F|]. rewrite <- (firstn_skipn i l), E. apply in_or_app. right. right. exact I.
Qed.
Lemma add_sets d tag ws force : Forall (fun o => exists l, o = OSet l) (heap d) -> Forall (fun o => exists l, o = OSet l) (heap (fst (add_words d tag (AStr ws) force))).
Proof.
  intros F. unfold add_words. destruct (_ && _); [exact F|]. destruct (elems _) as [|w0 w1]; [exact F|]. cbv zeta. set (d1 := if _ <? _ then _ else _).
  assert (heap d1 = heap d) as E by (unfold d1; destruct (_ <? _); reflexivity). destruct (dget (tags d1) tag) as [r|].
  - destruct (deref d1 r); cbn [fst heap]; rewrite ?E; [|exact F]. apply Forall_upd; [exact F|eexists; reflexivity].
  - cbn [fst heap]. rewrite E. apply Forall_app. split; [exact F|]. constructor; [eexists; reflexivity|constructor].
Qed.
Lemma remove_sets d tag a : Forall (fun o => exists l, o = OSet l) (heap d) -> Forall (fun o => exists l, o = OSet l) (heap (fst (remove_words d tag a))).
Proof.
  intros F. unfold remove_words. destruct (dget (tags d) tag) as [r|]; [|exact F]. destruct a as [a|]; [|exact F]. destruct (deref d r); [|exact F]. destruct (arg_obj d a); [|exact F].
  cbn [fst heap]. apply Forall_upd; [exact F|eexists; reflexivity].
Qed.
Lemma dstep_good d o : good d -> good (dstep d o) /\ maxlen d <= maxlen (dstep d o) /\
  forall w t, word_is_tag (dstep d o) w t = true <-> adds d t w o \/ (word_is_tag d w t = true /\ ~ removes t w o).
Proof.
  intros G. pose proof G as (U & B & F). destruct o as [tag ws force|tag a]; cbn [dstep].
  - pose proof (add_words_spec d tag (AStr ws) force U ltac:(discriminate) (fun r l => good_tag d tag r l G)) as H. cbv zeta in H. cbn [arg_obj elems] in H.
    assert (NN : forall w, In w (set_of (split ws)) <-> In w (split ws)) by (intros; apply set_of_In).
    destruct ((negb force && negb (known d tag)) || (length (set_of (split ws)) =? 0)) eqn:E.
    + rewrite H. cbn [fst]. split; [exact G|]. split; [lia|]. intros w t. cbn [adds removes]. split; [intros W; right; split; [exact W|intros []]|].
      intros [(-> & I & K)|[W _]]; [|exact W]. exfalso. apply orb_true_iff in E as [E|E].
      * apply andb_true_iff in E as [E1 E2]. apply negb_true_iff in E1, E2. destruct K as [K|[r K]]; [congruence|]. unfold known, dmem in E2. rewrite K in E2. discriminate.
      * apply Nat.eqb_eq in E. apply NN in I. destruct (set_of (split ws)); [destruct I|discriminate].
    + destruct H as (d' & E' & W & K & M & BB & UU). pose proof (add_sets d tag ws force F) as F'. rewrite E' in *. cbn [fst] in *. apply orb_false_iff in E as [E1 E2].
      split; [split; [apply UU; right; left; eexists; reflexivity|split; [apply BB, B|exact F']]|]. split; [lia|]. intros w t. rewrite W. cbn [adds removes]. destruct (eqb_spec tag t) as [<-|NT].
      * rewrite orb_true_iff, mem_In, NN. split; [intros [H|H]; [right; split; [exact H|intros []]|left; split; [reflexivity|split; [exact H|]]]|].
        -- unfold known, dmem in E1. destruct force; [left; reflexivity|right]. destruct (dget (tags d) tag) as [r|]; [exists r; reflexivity|discriminate].
        -- intros [(_ & H & _)|[H _]]; auto.
      * split; [intros H; right; split; [exact H|intros []]|]. intros [(H & _)|[H _]]; [congruence|exact H].
  - pose proof (remove_sets d tag (option_map AStr a) F) as F'. pose proof (remove_words_spec d tag (option_map AStr a) U) as H. destruct a as [s|]; cbn [option_map] in *.
    + destruct (known d tag) eqn:KN.
      * destruct H as (d' & E' & M & BB & UU & W & K); [intros; eapply good_tag; eauto|discriminate|]. rewrite E' in *. cbn [fst] in *.
        split; [split; [exact UU|split; [apply BB, B|exact F']]|]. split; [lia|]. intros w t. rewrite W. cbn [adds removes arg_obj elems]. rewrite andb_true_iff, negb_true_iff, andb_false_iff, mem_In_false, set_of_In.
        destruct (eqb_spec tag t) as [<-|NT]; [|intuition congruence]. split; [intros [H1 [H2|H2]]; [discriminate|right; tauto]|]. intros [[]|[H1 H2]]. split; [exact H1|right; tauto].
      * rewrite H. cbn [fst]. split; [exact G|]. split; [lia|]. intros w t. cbn [adds removes]. split; [|intros [[]|[W _]]; exact W]. intros W. right. split; [exact W|]. intros [<- _].
        unfold known, dmem in KN. unfold word_is_tag in W. destruct (dget (tags d) tag); discriminate.
    + destruct (known d tag) eqn:KN.
      * destruct H as (d' & E' & M & BB & UU & W & K). rewrite E' in *. cbn [fst] in *.
        split; [split; [exact UU|split; [apply BB, B|exact F']]|]. split; [lia|]. intros w t. rewrite W. cbn [adds removes].
        destruct (eqb_spec tag t) as [<-|NT]; [|intuition congruence]. split; [discriminate|]. intros [[]|[H1 H2]]. tauto.
      * rewrite H. cbn [fst]. split; [exact G|]. split; [lia|]. intros w t. cbn [adds removes]. split; [|intros [[]|[W _]]; exact W]. intros W. right. split; [exact W|]. intros [<- _].
        unfold known, dmem in KN. unfold word_is_tag in W. destruct (dget (tags d) tag); discriminate.
Qed.
Lemma dhistory_good d ops : good d -> good (dhistory d ops) /\ maxlen d <= maxlen (dhistory d ops).
Proof.
  revert d. induction ops as [|o ops IH]; intros d G; [split; [exact G|apply Nat.le_refl]|]. destruct (dstep_good d o G) as (G' & M & _). destruct (IH _ G') as [G2 M2].
  unfold dhistory in *. cbn [fold_left]. split; [exact G2|lia].
Qed.
Lemma dhistory_words d ops w t : good d -> (word_is_tag (dhistory d ops) w t = true <->
  (exists ops1 o ops2, ops = ops1 ++ o :: ops2 /\ adds (dhistory d ops1) t w o /\ Forall (fun o => ~ removes t w o) ops2) \/
  (word_is_tag d w t = true /\ Forall (fun o => ~ removes t w o) ops)).
Proof.
  intros G. induction ops as [|o ops IH] using rev_ind.
  - cbn. split; [intros H; right; split; [exact H|constructor]|]. intros [([|? ?] & ? & ? & E & _)|[H _]]; [discriminate|discriminate|exact H].
  - unfold dhistory. rewrite fold_left_app. cbn [fold_left]. fold (dhistory d ops). destruct (dhistory_good d ops G) as [Gh _]. destruct (dstep_good _ o Gh) as (_ & _ & ->). rewrite IH. split.
    + intros [A|[[(o1 & x & o2 & -> & A & F)|[W F]] NR]].
      * left. exists ops, o, []. split; [reflexivity|]. split; [exact A|constructor].
      * left. exists o1, x, (o2 ++ [o]). split; [rewrite <- app_assoc; reflexivity|]. split; [exact A|]. apply Forall_app. split; [exact F|]. constructor; [exact NR|constructor].
      * right. split; [exact W|]. apply Forall_app. split; [exact F|]. constructor; [exact NR|constructor].
    + intros [(o1 & x & o2 & E & A & F)|[W F]].
      * destruct o2 as [|y o2 _] using rev_ind.
        -- apply app_inj_tail in E as [-> ->]. left. exact A.
        -- rewrite app_comm_cons, app_assoc in E. apply app_inj_tail in E as [-> ->]. apply Forall_app in F as [F NR]. inversion NR; subst. right. split; [left; exists o1, x, o2; auto|assumption].
      * apply Forall_app in F as [F NR]. inversion NR; subst. right. split; [right; auto|assumption].
Qed.
