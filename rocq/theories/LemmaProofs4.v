(** * Proofs about lemma_candidate: the proposals *)
From Verif Require Import PyBase HangleModel HangleSpec HangleProofs LemmaModel LemmaSpec LemmaProofs LemmaProofs2.
Open Scope N_scope.
Local Opaque syl.

Section Undo.
  Variables (p : str) (a b f : N) (r : str) (s0 s1 s2 sf : N).
  Hypothesis JL : jamo a b f.
  Hypothesis HR : r = [] /\ s0 = 0 /\ s1 = 0 /\ s2 = 0 /\ sf = " "%ch \/ exists t, r = syl s0 s1 s2 :: t /\ jamo s0 s1 s2 /\ sf = syl s0 s1 " "%ch.
  Let lf := syl a b " "%ch.
  Let x := mkLctx (p ++ [syl a b f]) r a b f s0 s1 s2 sf lf.

  Lemma uf d : In d finals -> compose a b d = Ok (syl a b d).
  Proof. intros I. destruct JL as (A & B & _). apply compose_syl. split; [exact A|split; [exact B|exact I]]. Qed.
  Lemma uv w d : In w vowels -> In d finals -> compose a w d = Ok (syl a w d).
  Proof. intros I I'. destruct JL as (A & _ & _). apply compose_syl. split; [exact A|split; [exact I|exact I']]. Qed.
  Lemma ui w d : In w vowels -> In d finals -> compose "ㅇ"%ch w d = Ok (syl "ㅇ"%ch w d).
  Proof. intros I I'. apply compose_syl. split; [lit|split; [exact I|exact I']]. Qed.
  Lemma f_final : In f finals. Proof. exact (proj2 (proj2 JL)). Qed.
  Lemma b_vowel : In b vowels. Proof. exact (proj1 (proj2 JL)). Qed.
  Lemma r_cons : s0 = "ㅇ"%ch -> exists t, r = syl s0 s1 s2 :: t /\ jamo s0 s1 s2 /\ sf = syl s0 s1 " "%ch.
  Proof. intros O. destruct HR as [(_ & Z & _)|H]; [rewrite O in Z; discriminate Z|exact H]. Qed.
  Lemma sf_lit o' v' c : syl o' v' " "%ch = c -> jamo o' v' " "%ch -> c <> " "%ch -> (sf = c <-> s0 = o' /\ s1 = v' /\ exists t, r = syl s0 s1 s2 :: t /\ jamo s0 s1 s2).
  Proof.
    intros <- J NB. destruct HR as [(R & S0 & S1 & S2 & SF)|(t & R & J' & SF)].
    - split; [intros X; congruence|]. intros (_ & _ & t & R' & _). rewrite R in R'. discriminate R'.
    - rewrite SF. assert (J'' : jamo s0 s1 " "%ch) by (destruct J' as (X & Y & _); split; [exact X|split; [exact Y|lit]]). split.
      + intros X. destruct (syl_inj _ _ _ _ _ _ J'' J X) as (E1 & E2 & _). split; [exact E1|]. split; [exact E2|]. exists t. split; [exact R|exact J'].
      + intros (-> & -> & _). reflexivity.
  Qed.
  Lemma r_unique o v g t : jamo o v g -> r = syl o v g :: t -> s0 = o /\ s1 = v /\ s2 = g /\ tl r = t.
  Proof.
    intros J R. destruct HR as [(R' & _)|(t' & R' & J' & _)]; [rewrite R in R'; discriminate R'|]. rewrite R in R'. injection R' as E1 E2. destruct (syl_inj _ _ _ _ _ _ J J' E1) as (-> & -> & ->). rewrite R. cbn [tl]. auto.
  Qed.
  Lemma r_form : r <> [] -> exists t, r = syl s0 s1 s2 :: t /\ jamo s0 s1 s2 /\ tl r = t.
  Proof. intros N. destruct HR as [(R & _)|(t & R & J & _)]; [contradiction|]. exists t. split; [exact R|]. split; [exact J|]. rewrite R. reflexivity. Qed.

  Ltac prep := unfold x; cbn [q_l q_r m0 m1 m2 LemmaModel.s0 LemmaModel.s1 LemmaModel.s2 LemmaModel.sf lf_]; rewrite ?removelast_last, ?last_app.
  Notation prop := (proposal p a b f r).
  Definition sound (R : res (list (str * str))) : Prop := exists l, R = Ok l /\ forall se, In se l -> prop (fst se) (snd se).
  Definition gives (R : res (list (str * str))) (s e : str) : Prop := exists l, R = Ok l /\ In (s, e) l.
  Lemma sound_nil : sound (Ok []). Proof. exists []. split; [reflexivity|]. intros se []. Qed.
  Lemma sound_one s e : prop s e -> sound (Ok [(s, e)]). Proof. intros H. exists [(s, e)]. split; [reflexivity|]. intros se [<-|[]]. exact H. Qed.
  Lemma gives_one s e : gives (Ok [(s, e)]) s e. Proof. exists [(s, e)]. split; [reflexivity|]. left. reflexivity. Qed.

  Lemma d_sound : sound (undo_d x).
  Proof.
    unfold undo_d. prep. destruct (N.eqb_spec f ("ㄹ"%ch)) as [F|F]; cbn [andb]; [|apply sound_nil]. destruct (N.eqb_spec s0 ("ㅇ"%ch)) as [O|O]; [|apply sound_nil].
    rewrite uf by lit. cbn [bind]. apply sound_one. destruct (r_cons O) as (t & R & J & _). rewrite O in R, J. exact (P_d p a b f r s1 s2 t F J R).
  Qed.
  Lemma d_gives v g t : f = "ㄹ"%ch -> jamo "ㅇ"%ch v g -> r = syl "ㅇ"%ch v g :: t -> gives (undo_d x) (p ++ [syl a b "ㄷ"%ch]) r.
  Proof.
    intros F J R. destruct (r_unique _ _ _ _ J R) as (O & _). unfold undo_d. prep. rewrite O, F. change ("ㄹ"%ch =? "ㄹ"%ch) with true. change ("ㅇ"%ch =? "ㅇ"%ch) with true. cbn [andb].
    rewrite uf by lit. cbn [bind]. apply gives_one.
  Qed.
  Lemma reu_sound : sound (undo_reu x).
  Proof.
    unfold undo_reu. prep. destruct (N.eqb_spec f ("ㄹ"%ch)) as [F|F]; cbn [andb]; [|apply sound_nil].
    destruct ((sf =? "러"%ch) || (sf =? "라"%ch)) eqn:SF; [|apply sound_nil].
    assert (K : s0 = "ㄹ"%ch /\ a_or_eo s1 /\ exists t, r = syl s0 s1 s2 :: t /\ jamo s0 s1 s2).
    { apply orb_true_iff in SF as [S|S]; apply N.eqb_eq in S.
      - apply (sf_lit "ㄹ"%ch "ㅓ"%ch) in S as (O & V & T); [|vm_compute; reflexivity|split; [lit|split; lit]|discriminate]. split; [exact O|]. split; [right; exact V|exact T].
      - apply (sf_lit "ㄹ"%ch "ㅏ"%ch) in S as (O & V & T); [|vm_compute; reflexivity|split; [lit|split; lit]|discriminate]. split; [exact O|]. split; [left; exact V|exact T]. }
    destruct K as (O & V & t & R & J). pose proof J as (_ & J1 & J2). rewrite uf by lit. rewrite ui by assumption. cbn [bind]. apply sound_one. rewrite R. cbn [tl app].
    rewrite O. exact (P_reu p a b f _ s1 s2 t F V J2 eq_refl).
  Qed.
  Lemma a_eo_vowel v : a_or_eo v -> In v vowels. Proof. intros [-> | ->]; lit. Qed.
  Lemma reu_gives v g t : f = "ㄹ"%ch -> a_or_eo v -> In g finals -> r = syl "ㄹ"%ch v g :: t -> gives (undo_reu x) (p ++ [syl a b " "%ch; "르"%ch]) (syl "ㅇ"%ch v g :: t).
  Proof.
    intros F V IG R. assert (J : jamo "ㄹ"%ch v g) by (split; [lit|split; [apply a_eo_vowel, V|exact IG]]). destruct (r_unique _ _ _ _ J R) as (O & EV & EG & ET).
    unfold undo_reu. prep. rewrite F. change ("ㄹ"%ch =? "ㄹ"%ch) with true. cbn [andb].
    assert (T : exists t, r = syl s0 s1 s2 :: t /\ jamo s0 s1 s2) by (exists t; rewrite O, EV, EG; auto).
    replace ((sf =? "러"%ch) || (sf =? "라"%ch)) with true.
    2:{ symmetry. apply orb_true_iff. destruct V as [V|V]; [right|left]; apply N.eqb_eq.
        - apply (sf_lit "ㄹ"%ch "ㅏ"%ch); [vm_compute; reflexivity|split; [lit|split; lit]|discriminate|]. split; [exact O|]. split; [congruence|exact T].
        - apply (sf_lit "ㄹ"%ch "ㅓ"%ch); [vm_compute; reflexivity|split; [lit|split; lit]|discriminate|]. split; [exact O|]. split; [congruence|exact T]. }
    rewrite uf by lit. rewrite ui; [|rewrite EV; exact (proj1 (proj2 J))|rewrite EG; exact IG]. cbn [bind]. rewrite EV, EG, ET. cbn [app]. apply gives_one.
  Qed.
  Lemma sf_wo : sf = "워"%ch <-> s0 = "ㅇ"%ch /\ s1 = "ㅝ"%ch /\ exists t, r = syl s0 s1 s2 :: t /\ jamo s0 s1 s2.
  Proof. apply sf_lit; [vm_compute; reflexivity|split; [lit|split; lit]|discriminate]. Qed.
  Lemma sf_wa : sf = "와"%ch <-> s0 = "ㅇ"%ch /\ s1 = "ㅘ"%ch /\ exists t, r = syl s0 s1 s2 :: t /\ jamo s0 s1 s2.
  Proof. apply sf_lit; [vm_compute; reflexivity|split; [lit|split; lit]|discriminate]. Qed.
  Lemma final_nz g : In g finals -> (g =? 0) = false.
  Proof. intros I. apply N.eqb_neq. intros ->. apply mem_In in I. vm_compute in I. discriminate I. Qed.
  Lemma b_sound : sound (undo_b x).
  Proof.
    pose proof sf_wo as WO. pose proof sf_wa as WA. unfold undo_b. prep. destruct (N.eqb_spec f (" "%ch)) as [F|F]; [|apply sound_nil]. rewrite uf by lit. cbn [bind].
    destruct (N.eqb_spec sf ("워"%ch)) as [S|S]; cbn [orb].
    - apply WO in S as (O & V & t & R & J). pose proof J as (_ & _ & J2). replace (sf =? "와"%ch) with false.
      2:{ symmetry. apply N.eqb_neq. intros X. apply WA in X as (_ & X & _). rewrite V in X. discriminate X. }
      rewrite (final_nz _ J2). rewrite ui by (lit || exact J2). cbn [bind]. replace (tl r) with t by (rewrite R; reflexivity). cbn [app]. apply sound_one. rewrite O, V in R. exact (P_b_eo p a b f r s2 t F J2 R).
    - destruct (N.eqb_spec sf ("와"%ch)) as [S'|S']; cbn [orb].
      + apply WA in S' as (O & V & t & R & J). pose proof J as (_ & _ & J2). rewrite (final_nz _ J2). rewrite ui by (lit || exact J2). cbn [bind]. replace (tl r) with t by (rewrite R; reflexivity). cbn [app]. apply sound_one. rewrite O, V in R. exact (P_b_a p a b f r s2 t F J2 R).
      + assert (NR : forall g t, In g finals -> r <> syl "ㅇ"%ch "ㅝ"%ch g :: t /\ r <> syl "ㅇ"%ch "ㅘ"%ch g :: t).
        { intros g t IG. split; intros R.
          - assert (J : jamo "ㅇ"%ch "ㅝ"%ch g) by (split; [lit|split; [lit|exact IG]]). destruct (r_unique _ _ _ _ J R) as (O & V & G & _). apply S, WO. split; [exact O|]. split; [exact V|]. exists t. rewrite O, V, G. split; [exact R|exact J].
          - assert (J : jamo "ㅇ"%ch "ㅘ"%ch g) by (split; [lit|split; [lit|exact IG]]). destruct (r_unique _ _ _ _ J R) as (O & V & G & _). apply S', WA. split; [exact O|]. split; [exact V|]. exists t. rewrite O, V, G. split; [exact R|exact J]. }
        destruct (tl r) as [|c0 t0] eqn:T; cbn [bind].
        * apply sound_one. apply P_b; [exact F|exact NR|]. intros c t R. rewrite R in T. discriminate T.
        * destruct (N.eqb_spec c0 ("려"%ch)) as [C|C].
          -- destruct (r_form) as (t & R & J & ET); [intros X; rewrite X in T; discriminate T|]. pose proof J as (_ & _ & J2). rewrite (final_nz _ J2). rewrite ui by (lit || exact J2). cbn [bind app].
             apply sound_one. rewrite C. rewrite T, C in ET. rewrite <- ET in R. apply (P_b_u p a b f r s0 s1 s2 t0 F J); [|exact R].
             intros (O & [V|V]); [apply S, WO|apply S', WA]; (split; [exact O|split; [exact V|]]); exists (c0 :: t0); rewrite C; split; [exact R|exact J|exact R|exact J].
          -- cbn [bind]. apply sound_one. apply P_b; [exact F|exact NR|]. intros c t R. rewrite R in T. cbn [tl] in T. injection T as T _. congruence.
  Qed.
  Lemma b_eo_gives g t : f = " "%ch -> In g finals -> r = syl "ㅇ"%ch "ㅝ"%ch g :: t -> gives (undo_b x) (p ++ [syl a b "ㅂ"%ch]) (syl "ㅇ"%ch "ㅓ"%ch g :: t).
  Proof.
    intros F IG R. assert (J : jamo "ㅇ"%ch "ㅝ"%ch g) by (split; [lit|split; [lit|exact IG]]). destruct (r_unique _ _ _ _ J R) as (O & V & G & ET).
    pose proof sf_wo as WO. pose proof sf_wa as WA. unfold undo_b. prep. rewrite F. change (" "%ch =? " "%ch) with true. cbv iota. rewrite uf by lit. cbn [bind].
    assert (S : sf = "워"%ch) by (apply WO; split; [exact O|split; [exact V|exists t; rewrite O, V, G; split; [exact R|exact J]]]). rewrite S. change ("워"%ch =? "워"%ch) with true. change ("워"%ch =? "와"%ch) with false. cbn [orb].
    rewrite G, (final_nz _ IG). rewrite ui by (lit || exact IG). cbn [bind app]. rewrite ET. apply gives_one.
  Qed.
  Lemma b_a_gives g t : f = " "%ch -> In g finals -> r = syl "ㅇ"%ch "ㅘ"%ch g :: t -> gives (undo_b x) (p ++ [syl a b "ㅂ"%ch]) (syl "ㅇ"%ch "ㅏ"%ch g :: t).
  Proof.
    intros F IG R. assert (J : jamo "ㅇ"%ch "ㅘ"%ch g) by (split; [lit|split; [lit|exact IG]]). destruct (r_unique _ _ _ _ J R) as (O & V & G & ET).
    pose proof sf_wo as WO. pose proof sf_wa as WA. unfold undo_b. prep. rewrite F. change (" "%ch =? " "%ch) with true. cbv iota. rewrite uf by lit. cbn [bind].
    assert (S : sf = "와"%ch) by (apply WA; split; [exact O|split; [exact V|exists t; rewrite O, V, G; split; [exact R|exact J]]]). rewrite S. change ("와"%ch =? "워"%ch) with false. change ("와"%ch =? "와"%ch) with true. cbn [orb].
    rewrite G, (final_nz _ IG). rewrite ui by (lit || exact IG). cbn [bind app]. rewrite ET. apply gives_one.
  Qed.
  Lemma b_no (N : forall g t, In g finals -> r <> syl "ㅇ"%ch "ㅝ"%ch g :: t /\ r <> syl "ㅇ"%ch "ㅘ"%ch g :: t) : (sf =? "워"%ch) || (sf =? "와"%ch) = false.
  Proof.
    pose proof sf_wo as WO. pose proof sf_wa as WA. apply orb_false_iff. split; apply N.eqb_neq; intros S.
    - apply WO in S as (O & V & t & R & J). rewrite O, V in R. exact (proj1 (N s2 t (proj2 (proj2 J))) R).
    - apply WA in S as (O & V & t & R & J). rewrite O, V in R. exact (proj2 (N s2 t (proj2 (proj2 J))) R).
  Qed.
  Lemma b_u_gives o v g t : f = " "%ch -> jamo o v g -> ~ (o = "ㅇ"%ch /\ (v = "ㅝ"%ch \/ v = "ㅘ"%ch)) -> r = syl o v g :: "려"%ch :: t ->
    gives (undo_b x) (p ++ [syl a b "ㅂ"%ch]) (syl "ㅇ"%ch "ㅜ"%ch g :: "려"%ch :: t).
  Proof.
    intros F J N R. destruct (r_unique _ _ _ _ J R) as (O & V & G & ET). pose proof J as (_ & _ & IG).
    assert (B : (sf =? "워"%ch) || (sf =? "와"%ch) = false).
    { apply b_no. intros g' t' IG'. split; intros R'.
      - assert (J' : jamo "ㅇ"%ch "ㅝ"%ch g') by (split; [lit|split; [lit|exact IG']]). destruct (r_unique _ _ _ _ J' R') as (O' & V' & _ & _). apply N. split; [congruence|left; congruence].
      - assert (J' : jamo "ㅇ"%ch "ㅘ"%ch g') by (split; [lit|split; [lit|exact IG']]). destruct (r_unique _ _ _ _ J' R') as (O' & V' & _ & _). apply N. split; [congruence|right; congruence]. }
    unfold undo_b. prep. rewrite F. change (" "%ch =? " "%ch) with true. cbv iota. rewrite uf by lit. cbn [bind]. rewrite B, ET. change ("려"%ch =? "려"%ch) with true. cbv iota.
    rewrite G, (final_nz _ IG). rewrite ui by (lit || exact IG). cbn [bind app]. apply gives_one.
  Qed.
  Lemma b_gives : f = " "%ch -> (forall g t, In g finals -> r <> syl "ㅇ"%ch "ㅝ"%ch g :: t /\ r <> syl "ㅇ"%ch "ㅘ"%ch g :: t) -> (forall c t, r <> c :: "려"%ch :: t) ->
    gives (undo_b x) (p ++ [syl a b "ㅂ"%ch]) r.
  Proof.
    intros F N N'. unfold undo_b. prep. rewrite F. change (" "%ch =? " "%ch) with true. cbv iota. rewrite uf by lit. cbn [bind]. rewrite (b_no N).
    destruct (tl r) as [|c0 t0] eqn:T; cbn [bind]; [apply gives_one|]. destruct (N.eqb_spec c0 ("려"%ch)) as [C|C]; [|cbn [bind]; apply gives_one].
    exfalso. destruct r as [|c t]; [discriminate T|]. cbn [tl] in T. apply (N' c t0). rewrite T, C. reflexivity.
  Qed.
  Lemma five_dec (c : N) : {c = "ㄴ"%ch \/ c = "ㄹ"%ch \/ c = "ㅁ"%ch \/ c = "ㅂ"%ch \/ c = "ㅆ"%ch} + {~ (c = "ㄴ"%ch \/ c = "ㄹ"%ch \/ c = "ㅁ"%ch \/ c = "ㅂ"%ch \/ c = "ㅆ"%ch)}.
  Proof. destruct (N.eq_dec c ("ㄴ"%ch)); [left; tauto|]. destruct (N.eq_dec c ("ㄹ"%ch)); [left; tauto|]. destruct (N.eq_dec c ("ㅁ"%ch)); [left; tauto|]. destruct (N.eq_dec c ("ㅂ"%ch)); [left; tauto|]. destruct (N.eq_dec c ("ㅆ"%ch)); [left; tauto|right; tauto]. Qed.
  Lemma five_bool (c : N) : (c =? "ㄴ"%ch) || (c =? "ㄹ"%ch) || (c =? "ㅁ"%ch) || (c =? "ㅂ"%ch) || (c =? "ㅆ"%ch) = true <-> (c = "ㄴ"%ch \/ c = "ㄹ"%ch \/ c = "ㅁ"%ch \/ c = "ㅂ"%ch \/ c = "ㅆ"%ch).
  Proof. rewrite !orb_true_iff, !N.eqb_eq. tauto. Qed.
  Lemma mapM_finals (g : N -> str * str) h l : (forall j, In j l -> h j = Ok (g j)) -> mapM h l = Ok (map g l).
  Proof. induction l as [|j l IH]; intros H; [reflexivity|]. cbn [mapM map]. rewrite (H j (or_introl eq_refl)). cbn [bind]. rewrite IH by (intros k I; apply H; right; exact I). reflexivity. Qed.
  Lemma final_list : mapM (fun j => do c <- compose a b j; Ok (p ++ [c], [f] ++ r)) (filter (fun j => negb (f =? j)) [" "%ch; "ㄹ"%ch; "ㅂ"%ch; "ㅎ"%ch]) =
    Ok (map (fun j => (p ++ [syl a b j], f :: r)) (filter (fun j => negb (f =? j)) [" "%ch; "ㄹ"%ch; "ㅂ"%ch; "ㅎ"%ch])).
  Proof.
    apply (mapM_finals (fun j => (p ++ [syl a b j], f :: r))). intros j I. apply filter_In in I as [I _]. rewrite uf; [reflexivity|]. cbn [In] in I. destruct I as [<-|[<-|[<-|[<-|[]]]]]; lit.
  Qed.
  Lemma final_sound : sound (undo_final x).
  Proof.
    unfold undo_final. prep. destruct ((f =? "ㄴ"%ch) || (f =? "ㄹ"%ch) || (f =? "ㅁ"%ch) || (f =? "ㅂ"%ch) || (f =? "ㅆ"%ch)) eqn:H; [|apply sound_nil]. apply five_bool in H. rewrite final_list.
    eexists. split; [reflexivity|]. intros se I. apply in_map_iff in I as (j & <- & I). apply filter_In in I as [I N]. apply negb_true_iff, N.eqb_neq in N. cbn [fst snd]. apply P_final; [exact H| |congruence].
    cbn [In] in I. destruct I as [<-|[<-|[<-|[<-|[]]]]]; auto.
  Qed.
  Lemma final_gives j : (f = "ㄴ"%ch \/ f = "ㄹ"%ch \/ f = "ㅁ"%ch \/ f = "ㅂ"%ch \/ f = "ㅆ"%ch) -> (j = " "%ch \/ j = "ㄹ"%ch \/ j = "ㅂ"%ch \/ j = "ㅎ"%ch) -> j <> f ->
    gives (undo_final x) (p ++ [syl a b j]) (f :: r).
  Proof.
    intros H I N. apply five_bool in H. unfold undo_final. prep. rewrite H, final_list. eexists. split; [reflexivity|]. apply in_map_iff. exists j. split; [reflexivity|]. apply filter_In. split.
    - cbn [In]. destruct I as [-> |[-> |[-> | ->]]]; auto.
    - apply negb_true_iff, N.eqb_neq. congruence.
  Qed.
  Lemma not_beot : f = " "%ch -> (syl a b f =? "벗"%ch) = false.
  Proof.
    intros F. apply N.eqb_neq. intros X. apply (lit_syl a b f "ㅂ"%ch "ㅓ"%ch "ㅅ"%ch) in X; [|exact JL|vm_compute; reflexivity|split; [lit|split; lit]]. destruct X as (_ & _ & X). rewrite F in X. discriminate X.
  Qed.
  Lemma s_sound : sound (undo_s x).
  Proof.
    unfold undo_s. prep. destruct (N.eqb_spec f (" "%ch)) as [F|F]; cbn [andb]; [|apply sound_nil]. rewrite (not_beot F). cbn [negb andb]. destruct (N.eqb_spec s0 ("ㅇ"%ch)) as [O|O]; [|apply sound_nil].
    rewrite uf by lit. cbn [bind]. apply sound_one. destruct (r_cons O) as (t & R & J & _). rewrite O in R, J. exact (P_s p a b f r s1 s2 t F J R).
  Qed.
  Lemma s_gives v g t : f = " "%ch -> jamo "ㅇ"%ch v g -> r = syl "ㅇ"%ch v g :: t -> gives (undo_s x) (p ++ [syl a b "ㅅ"%ch]) r.
  Proof.
    intros F J R. destruct (r_unique _ _ _ _ J R) as (O & _). unfold undo_s. prep. rewrite (not_beot F), O, F. change (" "%ch =? " "%ch) with true. change ("ㅇ"%ch =? "ㅇ"%ch) with true. cbn [andb negb].
    rewrite uf by lit. cbn [bind]. apply gives_one.
  Qed.
  Lemma lf_peo : lf = "퍼"%ch <-> a = "ㅍ"%ch /\ b = "ㅓ"%ch.
  Proof.
    unfold lf. rewrite (lit_syl a b " "%ch "ㅍ"%ch "ㅓ"%ch " "%ch ("퍼"%ch)); [tauto| |vm_compute; reflexivity|split; [lit|split; lit]]. destruct JL as (A & B & _). split; [exact A|split; [exact B|lit]].
  Qed.
  Lemma pu_sound : sound (undo_pu x).
  Proof.
    pose proof lf_peo as LF. unfold undo_pu. prep. fold lf. destruct (N.eqb_spec lf ("퍼"%ch)) as [L|L]; [|apply sound_nil]. apply LF in L as [A B]. rewrite (ui b f b_vowel f_final). cbn [bind app].
    apply sound_one. replace (syl "ㅇ"%ch b f) with (syl "ㅇ"%ch "ㅓ"%ch f) by (rewrite B; reflexivity). exact (P_pu p a b f r A B).
  Qed.
  Lemma pu_gives : a = "ㅍ"%ch -> b = "ㅓ"%ch -> gives (undo_pu x) (p ++ ["푸"%ch]) (syl "ㅇ"%ch "ㅓ"%ch f :: r).
  Proof.
    intros A B. pose proof (proj2 lf_peo (conj A B)) as L. unfold undo_pu. prep. fold lf. rewrite L. change ("퍼"%ch =? "퍼"%ch) with true. cbv iota. rewrite (ui b f b_vowel f_final). cbn [bind app]. rewrite B. apply gives_one.
  Qed.
  Lemma u_sound : sound (undo_u x).
  Proof.
    unfold undo_u. prep. destruct (N.eqb_spec b ("ㅝ"%ch)) as [B|B]; [|apply sound_nil]. rewrite uv by lit. rewrite ui by (lit || exact f_final). cbn [bind app]. apply sound_one. exact (P_u p a b f r B).
  Qed.
  Lemma u_gives : b = "ㅝ"%ch -> gives (undo_u x) (p ++ [syl a "ㅜ"%ch " "%ch]) (syl "ㅇ"%ch "ㅓ"%ch f :: r).
  Proof. intros B. unfold undo_u. prep. rewrite (proj2 (N.eqb_eq _ _) B). rewrite uv by lit. rewrite ui by (lit || exact f_final). cbn [bind app]. apply gives_one. Qed.
  Lemma o_sound : sound (undo_o x).
  Proof.
    unfold undo_o. prep. destruct (N.eqb_spec b ("ㅘ"%ch)) as [B|B]; [|apply sound_nil]. rewrite uv by lit. rewrite ui by (lit || exact f_final). cbn [bind app]. apply sound_one. exact (P_o p a b f r B).
  Qed.
  Lemma o_gives : b = "ㅘ"%ch -> gives (undo_o x) (p ++ [syl a "ㅗ"%ch " "%ch]) (syl "ㅇ"%ch "ㅏ"%ch f :: r).
  Proof. intros B. unfold undo_o. prep. rewrite (proj2 (N.eqb_eq _ _) B). rewrite uv by lit. rewrite ui by (lit || exact f_final). cbn [bind app]. apply gives_one. Qed.
  Lemma ae_bool v : (v =? "ㅓ"%ch) || (v =? "ㅏ"%ch) = true <-> a_or_eo v.
  Proof. unfold a_or_eo. rewrite orb_true_iff, !N.eqb_eq. tauto. Qed.
  Lemma ae_bool' v : (v =? "ㅏ"%ch) || (v =? "ㅓ"%ch) = true <-> a_or_eo v.
  Proof. unfold a_or_eo. rewrite orb_true_iff, !N.eqb_eq. tauto. Qed.
  Lemma eu_sound : sound (undo_eu x).
  Proof.
    unfold undo_eu. prep. destruct ((b =? "ㅓ"%ch) || (b =? "ㅏ"%ch)) eqn:B; [|apply sound_nil]. apply ae_bool in B. rewrite uv by lit. rewrite (ui b f b_vowel f_final). cbn [bind app]. apply sound_one. exact (P_eu p a b f r B).
  Qed.
  Lemma eu_gives : a_or_eo b -> gives (undo_eu x) (p ++ [syl a "ㅡ"%ch " "%ch]) (syl "ㅇ"%ch b f :: r).
  Proof. intros B. apply ae_bool in B. unfold undo_eu. prep. rewrite B. rewrite uv by lit. rewrite (ui b f b_vowel f_final). cbn [bind app]. apply gives_one. Qed.
  Lemma eu2_sound : sound (undo_eu2 x).
  Proof.
    unfold undo_eu2. prep. destruct (N.eqb_spec f (" "%ch)) as [F|F]; cbn [andb]; [|apply sound_nil]. destruct (N.eqb_spec s0 ("ㅇ"%ch)) as [O|O]; cbn [andb]; [|apply sound_nil].
    destruct ((s1 =? "ㅏ"%ch) || (s1 =? "ㅓ"%ch)) eqn:V; [|apply sound_nil]. apply ae_bool' in V. destruct (r_cons O) as (t & R & J & _). rewrite O in R, J. apply sound_one. rewrite <- app_assoc. cbn [app].
    exact (P_eu_drop p a b f r s1 s2 t F V (proj2 (proj2 J)) R).
  Qed.
  Lemma eu2_gives v g t : f = " "%ch -> a_or_eo v -> In g finals -> r = syl "ㅇ"%ch v g :: t -> gives (undo_eu2 x) (p ++ [syl a b f; "으"%ch]) r.
  Proof.
    intros F V IG R. assert (J : jamo "ㅇ"%ch v g) by (split; [lit|split; [apply a_eo_vowel, V|exact IG]]). destruct (r_unique _ _ _ _ J R) as (O & EV & _). unfold undo_eu2. prep.
    rewrite (proj2 (N.eqb_eq _ _) F), (proj2 (N.eqb_eq _ _) O), EV. apply ae_bool' in V. rewrite V. cbn [andb]. rewrite <- app_assoc. cbn [app]. apply gives_one.
  Qed.
  Lemma ha_sound : sound (undo_ha x).
  Proof.
    unfold undo_ha. prep. destruct (N.eqb_spec a ("ㅎ"%ch)) as [A|A]; cbn [andb]; [|apply sound_nil]. destruct (N.eqb_spec b ("ㅐ"%ch)) as [B|B]; [|apply sound_nil]. rewrite ui by (lit || exact f_final). cbn [bind app].
    apply sound_one. exact (P_ha p a b f r A B).
  Qed.
  Lemma ha_gives : a = "ㅎ"%ch -> b = "ㅐ"%ch -> gives (undo_ha x) (p ++ ["하"%ch]) (syl "ㅇ"%ch "ㅏ"%ch f :: r).
  Proof. intros A B. unfold undo_ha. prep. rewrite (proj2 (N.eqb_eq _ _) A), (proj2 (N.eqb_eq _ _) B). cbn [andb]. rewrite ui by (lit || exact f_final). cbn [bind app]. apply gives_one. Qed.
  Lemma hf_bool : h_final x = true <-> (f = " "%ch \/ f = "ㄴ"%ch \/ f = "ㄹ"%ch \/ f = "ㅂ"%ch \/ f = "ㅆ"%ch).
  Proof. unfold h_final, x. cbn [m2]. rewrite !orb_true_iff, !N.eqb_eq. tauto. Qed.
  Lemma h_drop_sound : sound (undo_h_drop x).
  Proof.
    pose proof hf_bool as HB. unfold undo_h_drop. destruct (h_final x); cbn [andb]; [|apply sound_nil]. pose proof (proj1 HB eq_refl) as H. clear HB. prep.
    destruct ((b =? "ㅏ"%ch) || (b =? "ㅓ"%ch)) eqn:B; [|apply sound_nil]. apply ae_bool' in B. rewrite uf by lit. cbn [bind app]. apply sound_one. destruct (N.eqb_spec f (" "%ch)) as [F|F].
    - exact (P_h_open p a b f r F B).
    - apply P_h_final; [|exact B]. destruct H as [H|H]; [contradiction|exact H].
  Qed.
  Lemma h_open_gives : f = " "%ch -> a_or_eo b -> gives (undo_h_drop x) (p ++ [syl a b "ㅎ"%ch]) r.
  Proof.
    intros F B. unfold undo_h_drop. rewrite (proj2 hf_bool (or_introl F)). prep. apply ae_bool' in B. rewrite B. cbn [andb]. rewrite uf by lit. cbn [bind]. rewrite (proj2 (N.eqb_eq _ _) F). apply gives_one.
  Qed.
  Lemma h_final_gives : (f = "ㄴ"%ch \/ f = "ㄹ"%ch \/ f = "ㅂ"%ch \/ f = "ㅆ"%ch) -> a_or_eo b -> gives (undo_h_drop x) (p ++ [syl a b "ㅎ"%ch]) (f :: r).
  Proof.
    intros F B. unfold undo_h_drop. rewrite (proj2 hf_bool (or_intror F)). prep. apply ae_bool' in B. rewrite B. cbn [andb]. rewrite uf by lit. cbn [bind].
    replace (f =? " "%ch) with false by (destruct F as [-> |[-> |[-> | ->]]]; reflexivity). cbn [app]. apply gives_one.
  Qed.
  Lemma geu_test : (match rev (p ++ [syl a b f]) with _ :: c :: _ => (c =? "그"%ch) && (a =? "ㄹ"%ch) | _ => false end) = true <-> a = "ㄹ"%ch /\ exists q, p = q ++ ["그"%ch].
  Proof.
    rewrite rev_app_distr. cbn [rev app]. destruct (snoc_case p) as [-> |(q & c & ->)].
    - cbn [rev]. split; [discriminate|]. intros (_ & q & X). destruct q; discriminate X.
    - rewrite rev_app_distr. cbn [rev app]. rewrite andb_true_iff, !N.eqb_eq. split; [intros (-> & ->); eauto|]. intros (A & q' & X). apply app_inj_tail in X as [_ ->]. auto.
  Qed.
  Lemma h_contract_eq w : (f = " "%ch \/ f = "ㄴ"%ch \/ f = "ㄹ"%ch \/ f = "ㅂ"%ch \/ f = "ㅆ"%ch) -> (b = "ㅐ"%ch /\ w = "ㅏ"%ch \/ b = "ㅔ"%ch /\ w = "ㅓ"%ch) ->
    exists st, undo_h_contract x = Ok [(st, syl "ㅇ"%ch w f :: r)] /\
    (a = "ㄹ"%ch /\ (exists q, p = q ++ ["그"%ch]) /\ st = p ++ ["렇"%ch] \/ ~ (a = "ㄹ"%ch /\ exists q, p = q ++ ["그"%ch]) /\ st = p ++ [syl a w "ㅎ"%ch]).
  Proof.
    intros H B. unfold undo_h_contract. rewrite (proj2 hf_bool H). prep. cbn [andb].
    replace ((b =? "ㅐ"%ch) || (b =? "ㅔ"%ch)) with true by (destruct B as [[-> _]|[-> _]]; reflexivity).
    replace (if b =? "ㅔ"%ch then "ㅓ"%ch else "ㅏ"%ch) with w by (destruct B as [[-> ->]|[-> ->]]; reflexivity). assert (IW : In w vowels) by (destruct B as [[_ ->]|[_ ->]]; lit).
    pose proof geu_test as GT. destruct (match rev (p ++ [syl a b f]) with _ :: c :: _ => (c =? "그"%ch) && (a =? "ㄹ"%ch) | _ => false end).
    - cbn [bind]. rewrite (ui w f IW f_final). cbn [bind app]. eexists. split; [reflexivity|]. left. pose proof (proj1 GT eq_refl) as (G1 & G2). auto.
    - rewrite (uv w "ㅎ"%ch IW) by lit. cbn [bind]. rewrite (ui w f IW f_final). cbn [bind app]. eexists. split; [reflexivity|]. right. split; [|reflexivity]. intros X. apply GT in X. discriminate X.
  Qed.
  Lemma h_contract_sound : sound (undo_h_contract x).
  Proof.
    pose proof hf_bool as HB. destruct (h_final x) eqn:HF; [|unfold undo_h_contract; rewrite HF; apply sound_nil]. pose proof (proj1 HB eq_refl) as H.
    destruct (N.eq_dec b ("ㅐ"%ch)) as [B|B]; [|destruct (N.eq_dec b ("ㅔ"%ch)) as [B'|B']].
    3:{ unfold undo_h_contract. rewrite HF. prep. apply N.eqb_neq in B, B'. rewrite B, B'. apply sound_nil. }
    - destruct (h_contract_eq ("ㅏ"%ch) H (or_introl (conj B eq_refl))) as (st & E & [(A & (q & Q) & ->)|(N & ->)]); rewrite E; apply sound_one.
      + exact (P_geureo p a b f r q ("ㅏ"%ch) H (or_introl (conj B eq_refl)) A Q).
      + exact (P_h_contract p a b f r ("ㅏ"%ch) H (or_introl (conj B eq_refl)) N).
    - destruct (h_contract_eq ("ㅓ"%ch) H (or_intror (conj B' eq_refl))) as (st & E & [(A & (q & Q) & ->)|(N & ->)]); rewrite E; apply sound_one.
      + exact (P_geureo p a b f r q ("ㅓ"%ch) H (or_intror (conj B' eq_refl)) A Q).
      + exact (P_h_contract p a b f r ("ㅓ"%ch) H (or_intror (conj B' eq_refl)) N).
  Qed.
  Lemma h_contract_gives w : (f = " "%ch \/ f = "ㄴ"%ch \/ f = "ㄹ"%ch \/ f = "ㅂ"%ch \/ f = "ㅆ"%ch) -> (b = "ㅐ"%ch /\ w = "ㅏ"%ch \/ b = "ㅔ"%ch /\ w = "ㅓ"%ch) ->
    ~ (a = "ㄹ"%ch /\ exists q, p = q ++ ["그"%ch]) -> gives (undo_h_contract x) (p ++ [syl a w "ㅎ"%ch]) (syl "ㅇ"%ch w f :: r).
  Proof. intros H B N. destruct (h_contract_eq w H B) as (st & E & [(A & Q & ->)|(_ & ->)]); [exfalso; auto|]. rewrite E. apply gives_one. Qed.
  Lemma geureo_gives q w : (f = " "%ch \/ f = "ㄴ"%ch \/ f = "ㄹ"%ch \/ f = "ㅂ"%ch \/ f = "ㅆ"%ch) -> (b = "ㅐ"%ch /\ w = "ㅏ"%ch \/ b = "ㅔ"%ch /\ w = "ㅓ"%ch) ->
    a = "ㄹ"%ch -> p = q ++ ["그"%ch] -> gives (undo_h_contract x) (p ++ ["렇"%ch]) (syl "ㅇ"%ch w f :: r).
  Proof. intros H B A Q. destruct (h_contract_eq w H B) as (st & E & [(_ & _ & ->)|(N & ->)]); [|exfalso; apply N; split; [exact A|exists q; exact Q]]. rewrite E. apply gives_one. Qed.
  Lemma i_sound : sound (undo_i x).
  Proof.
    unfold undo_i. prep. destruct ((f =? "ㅆ"%ch) || (f =? "ㅅ"%ch) || (f =? " "%ch)) eqn:F; cbn [andb]; [|apply sound_nil]. destruct (N.eqb_spec b ("ㅕ"%ch)) as [B|B]; [|apply sound_nil].
    rewrite uv by lit. rewrite ui by (lit || exact f_final). cbn [bind app]. apply sound_one. apply P_i; [|exact B]. rewrite !orb_true_iff, !N.eqb_eq in F. clear - F. tauto.
  Qed.
  Lemma i_gives : (f = "ㅆ"%ch \/ f = "ㅅ"%ch \/ f = " "%ch) -> b = "ㅕ"%ch -> gives (undo_i x) (p ++ [syl a "ㅣ"%ch " "%ch]) (syl "ㅇ"%ch "ㅓ"%ch f :: r).
  Proof.
    intros F B. unfold undo_i. prep. replace ((f =? "ㅆ"%ch) || (f =? "ㅅ"%ch) || (f =? " "%ch)) with true by (destruct F as [-> |[-> | ->]]; reflexivity). rewrite (proj2 (N.eqb_eq _ _) B). cbn [andb].
    rewrite uv by lit. rewrite ui by (lit || exact f_final). cbn [bind app]. apply gives_one.
  Qed.
  Lemma undo_exact : exists cs, run_rules [(p ++ [syl a b f], r)] (undo_rules x) = Ok cs /\ forall s e, In (s, e) cs <-> prop s e.
  Proof.
    assert (SA : Forall sound (undo_rules x)).
    { unfold undo_rules. repeat apply Forall_cons; [exact d_sound|exact reu_sound|exact b_sound|exact final_sound|exact s_sound|exact pu_sound|exact u_sound|exact o_sound|exact eu_sound|exact eu2_sound|exact ha_sound|exact h_drop_sound|exact h_contract_sound|exact i_sound|apply Forall_nil]. }
    rewrite Forall_forall in SA. destruct (run_rules_ok (undo_rules x) [(p ++ [syl a b f], r)]) as (cs & R & S).
    { apply Forall_forall. intros R0 I. destruct (SA _ I) as (l & E & _). exists l. exact E. }
    exists cs. split; [exact R|]. intros s e. rewrite S. split.
    - intros [[X|[]]|(l & I & J)]; [injection X as <- <-; apply P_same|].
      destruct (SA _ I) as (l' & E & H). injection E as <-. exact (H (s, e) J).
    - assert (G : forall R0, In R0 (undo_rules x) -> gives R0 s e -> In (s, e) [(p ++ [syl a b f], r)] \/ exists l, In (Ok l) (undo_rules x) /\ In (s, e) l).
      { intros R0 I (l & E & J). right. exists l. rewrite <- E. auto. }
      intros P. destruct P.
      1: left; left; reflexivity.
      all: match goal with |- In (?s, ?e) _ \/ _ => idtac end.
      + apply (G (undo_d x)); [unfold undo_rules; cbn [In]; auto 20|eapply d_gives; eassumption].
      + apply (G (undo_reu x)); [unfold undo_rules; cbn [In]; auto 20|eapply reu_gives; eassumption].
      + apply (G (undo_b x)); [unfold undo_rules; cbn [In]; auto 20|eapply b_eo_gives; eassumption].
      + apply (G (undo_b x)); [unfold undo_rules; cbn [In]; auto 20|eapply b_a_gives; eassumption].
      + apply (G (undo_b x)); [unfold undo_rules; cbn [In]; auto 20|eapply b_u_gives; eassumption].
      + apply (G (undo_b x)); [unfold undo_rules; cbn [In]; auto 20|eapply b_gives; eassumption].
      + apply (G (undo_final x)); [unfold undo_rules; cbn [In]; auto 20|eapply final_gives; eassumption].
      + apply (G (undo_s x)); [unfold undo_rules; cbn [In]; auto 20|eapply s_gives; eassumption].
      + apply (G (undo_pu x)); [unfold undo_rules; cbn [In]; auto 20|eapply pu_gives; eassumption].
      + apply (G (undo_u x)); [unfold undo_rules; cbn [In]; auto 20|eapply u_gives; eassumption].
      + apply (G (undo_o x)); [unfold undo_rules; cbn [In]; auto 20|eapply o_gives; eassumption].
      + apply (G (undo_eu x)); [unfold undo_rules; cbn [In]; auto 20|eapply eu_gives; eassumption].
      + apply (G (undo_eu2 x)); [unfold undo_rules; cbn [In]; auto 20|eapply eu2_gives; eassumption].
      + apply (G (undo_ha x)); [unfold undo_rules; cbn [In]; auto 20|eapply ha_gives; eassumption].
      + apply (G (undo_h_drop x)); [unfold undo_rules; cbn [In]; auto 20|eapply h_open_gives; eassumption].
      + apply (G (undo_h_drop x)); [unfold undo_rules; cbn [In]; auto 20|eapply h_final_gives; eassumption].
      + apply (G (undo_h_contract x)); [unfold undo_rules; cbn [In]; auto 20|eapply h_contract_gives; eassumption].
      + apply (G (undo_h_contract x)); [unfold undo_rules; cbn [In]; auto 20|eapply geureo_gives; eassumption].
      + apply (G (undo_i x)); [unfold undo_rules; cbn [In]; auto 20|eapply i_gives; eassumption].
  Qed.
End Undo.
