(** * Proofs about the part-of-speech extractors: compounds of predicators *)
From Coq Require Import QArith Permutation.
From Verif Require Import PyBase PyDict CountLemmas PyText HangleModel TokenizerModel UtilsModel UtilsProofs NounModel JosaProofs LemmaModel PredModel PosModel PosSpec PosProofs PosProofs2.
Open Scope Z_scope.

Lemma at_last_iff s c : at_last s = Ok c <-> exists p, s = p ++ [c].
Proof.
  unfold at_last. split.
  - intros H. destruct (rev s) as [|d t] eqn:R; [discriminate|]. injection H as ->. exists (rev t). rewrite <- (rev_involutive s), R. reflexivity.
  - intros [p ->]. rewrite rev_app_distr. reflexivity.
Qed.
Lemma csp_spec chat s e b : check_suffix_prefix chat s e = Ok b -> (b = false <-> clash chat s e).
Proof.
  unfold check_suffix_prefix. destruct (at_last s) as [c|] eqn:AL; [|discriminate]. cbn [bind]. apply at_last_iff in AL as [p ->].
  assert (UN : forall p' c', p ++ [c] = p' ++ [c'] -> c' = c) by (intros p' c' H; apply app_inj_tail in H as [_ H]; congruence).
  assert (M1 : mem c (u "업닿땋") = true <-> c = "업"%ch \/ c = "닿"%ch \/ c = "땋"%ch).
  { rewrite mem_In. split; [intros [H|[H|[H|[]]]]; auto|]. intros [H|[H|H]]; subst c; [left|right; left|right; right; left]; reflexivity. }
  destruct chat.
  - cbn [andb]. destruct (mem c (u "업닿땋")) eqn:M.
    + intros [= <-]. split; [|reflexivity]. intros _. exists p, c. split; [reflexivity|]. left. split; [reflexivity|]. apply M1. reflexivity.
    + assert (NM : ~ (c = "업"%ch \/ c = "닿"%ch \/ c = "땋"%ch)) by (intros H; apply M1 in H; discriminate).
      destruct e as [|e0 t]; [discriminate|]. cbn [bind]. destruct (decompose c) as [[[l0 l1] l2]|] eqn:DC; [|discriminate].
      assert (CL : clash true (p ++ [c]) (e0 :: t) <-> exists r0 r1 r2, decompose e0 = Some (r0, r1, r2) /\ ((In l2 (u "ㄹㅂ") /\ In r0 (u "ㄴㄹㅁㅂ")) \/ (l1 = "ㅡ"%ch /\ l2 = " "%ch /\ r0 = "ㅇ"%ch /\ In r1 (u "ㅓㅏ")))).
      { split.
        - intros (p' & c' & EQ & H). apply UN in EQ. subst c'. destruct H as [[_ H]|(e' & t' & a0 & a1 & a2 & r0 & r1 & r2 & EE & D1 & D2 & H)]; [contradiction|]. injection EE as -> ->. rewrite DC in D1. injection D1 as -> -> ->. exists r0, r1, r2. auto.
        - intros (r0 & r1 & r2 & D & H). exists p, c. split; [reflexivity|]. right. exists e0, t, l0, l1, l2, r0, r1, r2. auto. }
      rewrite CL. clear CL M1 UN NM M. 
      destruct (mem l2 (u "ㄹㅂ")) eqn:M2.
      * apply mem_In in M2. destruct (decompose e0) as [[[r0 r1] r2]|] eqn:DE; [|discriminate]. cbn [bind]. destruct (mem r0 (u "ㄴㄹㅁㅂ")) eqn:M3.
        -- apply mem_In in M3. intros [= <-]. split; [intros _; exists r0, r1, r2; auto|reflexivity].
        -- assert (N3 : ~ In r0 (u "ㄴㄹㅁㅂ")) by (intros I; apply mem_In in I; congruence). destruct (N.eqb_spec l1 "ㅡ"%ch) as [->|X]; [destruct (N.eqb_spec l2 " "%ch) as [->|Y]|]; cbn [andb].
           ++ destruct M2 as [M2|[M2|[]]]; discriminate M2.
           ++ intros [= <-]. split; [discriminate|]. intros (a & b' & c' & [= <- <- <-] & [[_ H]|(_ & H & _)]); contradiction.
           ++ intros [= <-]. split; [discriminate|]. intros (a & b' & c' & [= <- <- <-] & [[_ H]|(H & _)]); contradiction.
      * assert (N2 : ~ In l2 (u "ㄹㅂ")) by (intros I; apply mem_In in I; congruence). cbn [bind]. destruct (N.eqb_spec l1 "ㅡ"%ch) as [->|X]; [destruct (N.eqb_spec l2 " "%ch) as [->|Y]|]; cbn [andb].
        -- destruct (decompose e0) as [[[r0 r1] r2]|] eqn:DE; [|discriminate]. intros EQ. assert (EQ' : b = negb ((r0 =? "ㅇ"%ch)%N && mem r1 (u "ㅓㅏ"))) by congruence. subst b. clear EQ. rewrite negb_false_iff, andb_true_iff, N.eqb_eq. split.
           ++ intros [-> H]. exists "ㅇ"%ch, r1, r2. split; [reflexivity|]. right. apply (proj1 (mem_In _ _)) in H. auto.
           ++ intros (a & b' & c' & [= <- <- <-] & [[H _]|(_ & _ & H1 & H2)]); [contradiction|split; [exact H1|apply (proj2 (mem_In _ _)), H2]].
        -- intros [= <-]. split; [discriminate|]. intros (a & b' & c' & _ & [[H _]|(_ & H & _)]); contradiction.
        -- intros [= <-]. split; [discriminate|]. intros (a & b' & c' & _ & [[H _]|(H & _)]); contradiction.
  - cbn [andb]. destruct e as [|e0 t]; [discriminate|]. cbn [bind]. destruct (decompose c) as [[[l0 l1] l2]|] eqn:DC; [|discriminate].
      assert (CL : clash false (p ++ [c]) (e0 :: t) <-> exists r0 r1 r2, decompose e0 = Some (r0, r1, r2) /\ ((In l2 (u "ㄹㅂ") /\ In r0 (u "ㄴㄹㅁㅂ")) \/ (l1 = "ㅡ"%ch /\ l2 = " "%ch /\ r0 = "ㅇ"%ch /\ In r1 (u "ㅓㅏ")))).
      { split.
        - intros (p' & c' & EQ & H). apply UN in EQ. subst c'. destruct H as [[H _]|(e' & t' & a0 & a1 & a2 & r0 & r1 & r2 & EE & D1 & D2 & H)]; [discriminate|]. injection EE as -> ->. rewrite DC in D1. injection D1 as -> -> ->. exists r0, r1, r2. auto.
        - intros (r0 & r1 & r2 & D & H). exists p, c. split; [reflexivity|]. right. exists e0, t, l0, l1, l2, r0, r1, r2. auto. }
      rewrite CL. clear CL M1 UN. 
      destruct (mem l2 (u "ㄹㅂ")) eqn:M2.
      * apply mem_In in M2. destruct (decompose e0) as [[[r0 r1] r2]|] eqn:DE; [|discriminate]. cbn [bind]. destruct (mem r0 (u "ㄴㄹㅁㅂ")) eqn:M3.
        -- apply mem_In in M3. intros [= <-]. split; [intros _; exists r0, r1, r2; auto|reflexivity].
        -- assert (N3 : ~ In r0 (u "ㄴㄹㅁㅂ")) by (intros I; apply mem_In in I; congruence). destruct (N.eqb_spec l1 "ㅡ"%ch) as [->|X]; [destruct (N.eqb_spec l2 " "%ch) as [->|Y]|]; cbn [andb].
           ++ destruct M2 as [M2|[M2|[]]]; discriminate M2.
           ++ intros [= <-]. split; [discriminate|]. intros (a & b' & c' & [= <- <- <-] & [[_ H]|(_ & H & _)]); contradiction.
           ++ intros [= <-]. split; [discriminate|]. intros (a & b' & c' & [= <- <- <-] & [[_ H]|(H & _)]); contradiction.
      * assert (N2 : ~ In l2 (u "ㄹㅂ")) by (intros I; apply mem_In in I; congruence). cbn [bind]. destruct (N.eqb_spec l1 "ㅡ"%ch) as [->|X]; [destruct (N.eqb_spec l2 " "%ch) as [->|Y]|]; cbn [andb].
        -- destruct (decompose e0) as [[[r0 r1] r2]|] eqn:DE; [|discriminate]. intros EQ. assert (EQ' : b = negb ((r0 =? "ㅇ"%ch)%N && mem r1 (u "ㅓㅏ"))) by congruence. subst b. clear EQ. rewrite negb_false_iff, andb_true_iff, N.eqb_eq. split.
           ++ intros [-> H]. exists "ㅇ"%ch, r1, r2. split; [reflexivity|]. right. apply (proj1 (mem_In _ _)) in H. auto.
           ++ intros (a & b' & c' & [= <- <- <-] & [[H _]|(_ & _ & H1 & H2)]); [contradiction|split; [exact H1|apply (proj2 (mem_In _ _)), H2]].
        -- intros [= <-]. split; [discriminate|]. intros (a & b' & c' & _ & [[H _]|(_ & H & _)]); contradiction.
        -- intros [= <-]. split; [discriminate|]. intros (a & b' & c' & _ & [[H _]|(H & _)]); contradiction.
Qed.
Lemma filterM_spec {A} (f : A -> res bool) l r : filterM f l = Ok r -> (forall y, In y l -> exists b, f y = Ok b) /\ r = filter (fun y => match f y with Ok b => b | Err _ => false end) l.
Proof.
  revert r. induction l as [|y l IH]; intros r; cbn [filterM filter]; [intros [= <-]; split; [intros y []|reflexivity]|].
  destruct (f y) as [b|] eqn:F; [|discriminate]. cbn [bind]. destruct (filterM f l) as [r'|] eqn:FM; [|discriminate]. cbn [bind]. intros [= <-]. destruct (IH r' eq_refl) as [H ->].
  split; [intros z [<-|I]; [exists b; exact F|apply H, I]|reflexivity].
Qed.
Lemma filterM_ok {A} (f : A -> res bool) l : (forall y, In y l -> exists b, f y = Ok b) -> exists r, filterM f l = Ok r.
Proof.
  induction l as [|y l IH]; intros H; [exists []; reflexivity|]. cbn [filterM]. destruct (H y (or_introl eq_refl)) as [b ->]. cbn [bind]. destruct IH as [r ->]; [intros z I; apply H; right; exact I|]. cbn [bind]. eauto.
Qed.

Section Compounds.
  Variable chat : bool.
  Variable x : posx.
  Variables (preds : list str) (base : dict str predicator) (known : list str) (K : str -> Prop).
  Hypothesis HP : forall l, In l preds <-> adj x l \/ verb x l.
  Hypothesis HK : forall s, In s known <-> K s.
  Definition raw1 (w s e : str) : Prop := exists l r p s0, first_split (fun l => adj x l \/ verb x l) (fun r => In r (dkeys base)) w l r /\ dget base r = Some p /\ In (s0, e) (snd p) /\ s = l ++ s0 /\ ~ clash chat s e /\ ~ K s.
  Lemma compound_spec w o : ~ In w (dkeys base) -> compound_lemmas chat preds base known w = Ok o ->
    match o with
    | Some ls => ls <> [] /\ (forall s e, In (s, e) ls <-> raw1 w s e) /\ ((forall r p, dget base r = Some p -> NoDup (snd p)) -> NoDup ls)
    | None => forall s e, ~ raw1 w s e
    end.
  Proof.
    intros NB. unfold compound_lemmas.
    assert (HL : forall l, mem l preds = true <-> adj x l \/ verb x l) by (intros l; rewrite mem_In; apply HP).
    pose proof (separate_spec _ _ (fun l => mem l preds) (dmem base) w HL (dmem_In base)) as SP.
    destruct (separate_lr (fun l => mem l preds) (dmem base) 2 w) as [[l r]|]; cbn [fst snd] in SP.
    2: { intros [= <-] s e (l & r & p & s0 & F & _). eapply SP, F. }
    destruct (dget base r) as [p|] eqn:DR; [|exfalso; destruct SP as (_ & _ & _ & _ & I & _); apply dget_keys in I; congruence].
    assert (DW : dget base w = None) by (destruct (dget base w) eqn:D; [exfalso; apply NB, dget_keys; congruence|reflexivity]). rewrite DW.
    match goal with |- context [filterM ?f ?L] => destruct (filterM f L) as [fl|] eqn:FM; [|discriminate]; set (f0 := f) in *; set (L0 := L) in * end. cbn [bind]. apply filterM_spec in FM as [OKS ->].
    set (ls := filter (fun se : str * str => negb (mem (fst se) known)) (filter (fun y => match f0 y with Ok b => b | Err _ => false end) L0)). intros EQ.
    assert (IN : forall s e, In (s, e) ls <-> raw1 w s e).
    { intros s e. unfold ls. rewrite !filter_In. cbn [fst]. rewrite negb_true_iff, <- not_true_iff_false, (mem_In s known), HK. split.
      - intros [[I B] NK]. pose proof I as I'. unfold L0 in I. apply in_map_iff in I as ([s0 e0] & Q & I). cbn [fst snd] in Q. injection Q as <- <-. exists l, r, p, s0. split; [exact SP|]. split; [exact DR|]. split; [exact I|]. split; [reflexivity|]. split; [|exact NK].
        destruct (OKS _ I') as [b FB]. rewrite FB in B. subst b. intros C. apply (csp_spec chat _ _ _ FB) in C. discriminate.
      - intros (l' & r' & p' & s0 & F & D & I & -> & NC & NK). destruct (first_split_fun _ _ _ _ _ _ _ SP F) as [-> ->]. assert (p' = p) by congruence. subst p'.
        assert (I' : In (l' ++ s0, e) L0) by (apply in_map_iff; exists (s0, e); auto). split; [|exact NK]. split; [exact I'|]. destruct (OKS _ I') as [b FB]. rewrite FB. destruct b; [reflexivity|]. exfalso. apply NC. apply (csp_spec chat _ _ _ FB). reflexivity. }
    assert (ND : (forall r p, dget base r = Some p -> NoDup (snd p)) -> NoDup ls).
    { intros H. unfold ls. apply NoDup_filter, NoDup_filter. unfold L0. specialize (H r p DR). clear - H. induction H as [|[s e] t NI N IH]; [constructor|]. cbn [map fst snd]. constructor; [|exact IH]. intros I. apply in_map_iff in I as ([s' e'] & Q & I). cbn [fst snd] in Q. injection Q as Q1 ->. apply app_inv_head in Q1. subst s'. contradiction. }
    injection EQ as <-. clearbody ls. destruct ls as [|y ys]; [intros s e R; apply IN in R; destruct R|]. split; [discriminate|]. split; assumption.
  Qed.
  (** the compounds of a table of eojeols *)
  Variable E e : dict str Z.
  Variable P : str -> Prop.
  Hypothesis NE : NoDup (dkeys E).
  Hypothesis S : sub E e P.
  Hypothesis PB : forall w, P w -> ~ In w (dkeys base).
  Hypothesis ND : forall r p, dget base r = Some p -> NoDup (snd p).
  Definition raw2 (w s e' : str) : Prop := P w /\ raw1 w s e'.
  Definition keep (w : str) : bool := match compound_lemmas chat preds base known w with Ok (Some _) => true | _ => false end.
  Lemma compounds_form cs : compounds_of chat e preds base known = Ok cs ->
    (forall w, P w -> exists o, compound_lemmas chat preds base known w = Ok o) /\
    (forall w n ls, In (w, (n, ls)) cs <-> In (w, n) e /\ compound_lemmas chat preds base known w = Ok (Some ls)) /\
    map (fun wp : str * predicator => (fst wp, fst (snd wp))) cs = dfilter (fun w _ => keep w) e.
  Proof.
    unfold compounds_of. destruct (mapM _ e) as [ls|] eqn:M; [|discriminate]. cbn [bind]. intros [= <-].
    assert (G : (forall w, In w (dkeys e) -> exists o, compound_lemmas chat preds base known w = Ok o) /\
      (forall w n l, In (w, (n, l)) (concat ls) <-> In (w, n) e /\ compound_lemmas chat preds base known w = Ok (Some l)) /\
      map (fun wp : str * predicator => (fst wp, fst (snd wp))) (concat ls) = dfilter (fun w _ => keep w) e).
    { clear S. revert ls M. induction e as [|[w n] e' IH]; intros ls M; cbn [mapM] in M.
      - injection M as <-. split; [intros w []|]. split; [|reflexivity]. intros w n l. split; [intros []|intros [[] _]].
      - cbn [fst snd] in M. destruct (compound_lemmas chat preds base known w) as [o|] eqn:C; [|discriminate]. cbn [bind] in M. match type of M with context [mapM ?f e'] => destruct (mapM f e') as [ls'|] eqn:M'; [|discriminate] end. cbn [bind] in M. injection M as <-.
        destruct (IH ls' eq_refl) as (I1 & I2 & I3). split; [|split].
        + cbn [dkeys map fst]. intros w' [<-|I]; [exists o; exact C|apply I1, I].
        + intros w' n' l. cbn [concat In]. rewrite in_app_iff, I2. split.
          * intros [I|[I J]]; [|auto]. destruct o as [l0|]; [|destruct I]. destruct I as [[= <- <- <-]|[]]. auto.
          * intros [[[= <- <-]|I] J]; [|auto]. rewrite C in J. injection J as ->. left. left. reflexivity.
        + cbn [concat]. rewrite map_app, I3. unfold dfilter. cbn [filter fst snd]. assert (KW : keep w = match o with Some _ => true | None => false end) by (unfold keep; rewrite C; reflexivity). rewrite KW. destruct o; reflexivity. }
    destruct G as (G1 & G2 & G3). split; [intros w PW; apply G1, (sub_In E e P w S), PW|]. split; assumption.
  Qed.
End Compounds.
