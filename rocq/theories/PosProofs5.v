(** * Proofs about the part-of-speech extractors: wrong endings, and the stage of the compounds *)
From Coq Require Import QArith Permutation.
From Verif Require Import PyBase PyDict CountLemmas PyText HangleModel TokenizerModel UtilsModel UtilsSpec UtilsProofs NounModel JosaProofs LemmaModel PredModel NewsSpec PosModel PosSpec PosProofs PosProofs2 PosProofs3 PosProofs4.
Open Scope Z_scope.

(** ** wrong endings *)
Definition pairs_at (e : str) (T : dict str predicator) : list (str * str) :=
  concat (map (fun wp : str * predicator => map (fun se : str * str => (fst wp, fst se)) (filter (fun se : str * str => eqb (snd se) e) (snd (snd wp)))) T).
Lemma pairs_at_In e T w s : In (w, s) (pairs_at e T) <-> exists n ls, In (w, (n, ls)) T /\ In (s, e) ls.
Proof.
  unfold pairs_at. rewrite in_concat. split.
  - intros (L & I & J). apply in_map_iff in I as ([w' [n ls]] & <- & I). cbn [fst snd] in J. apply in_map_iff in J as ([s' e'] & Q & J). cbn [fst] in Q. injection Q as -> ->. apply filter_In in J as [J B]. cbn [snd] in B. apply eqb_eq in B. subst e'. eauto.
  - intros (n & ls & I & J). eexists. split; [apply in_map_iff; exists (w, (n, ls)); split; [reflexivity|exact I]|]. cbn [fst snd]. apply in_map_iff. exists (s, e). split; [reflexivity|]. apply filter_In. split; [exact J|]. cbn [snd]. apply eqb_refl.
Qed.
Lemma pairs_at_NoDup e T : NoDup (dkeys T) -> (forall w n ls, In (w, (n, ls)) T -> NoDup ls) -> NoDup (pairs_at e T).
Proof.
  induction T as [|[w [n ls]] T IH]; intros N H; [constructor|]. inversion N as [|? ? NI N']; subst. unfold pairs_at in *. cbn [map concat fst snd]. apply NoDup_app_intro.
  - specialize (H w n ls (or_introl eq_refl)). clear - H. induction H as [|[s e'] ls NI N IH]; [constructor|]. cbn [filter snd]. destruct (eqb_spec e' e) as [->|X]; [|exact IH]. cbn [map fst]. constructor; [|exact IH]. intros I. apply in_map_iff in I as ([s' e'] & Q & I). cbn [fst] in Q. injection Q as ->. apply filter_In in I as [I B]. cbn [snd] in B. apply eqb_eq in B. subst e'. contradiction.
  - apply IH; [exact N'|]. intros w' n' ls' I. apply (H w' n' ls'). right. exact I.
  - intros [w' s] I J. apply in_map_iff in I as (se & Q & _). injection Q as <- _. apply NI. apply (pairs_at_In e T w s) in J as (n' & ls' & J & _). apply In_dkeys_fst. eauto.
Qed.
Lemma fold_cumulate (ls : list (str * str)) k : forall c : counter, fold_left (fun c (se : str * str) => dset c (snd se) (dgetd c (snd se) 0 + k)) ls c = cumulate c (map (fun se : str * str => (snd se, k)) ls).
Proof. induction ls as [|se ls IH]; intros c; [reflexivity|]. cbn [fold_left map]. rewrite IH. reflexivity. Qed.
Lemma cumulate_app A B c : cumulate c (A ++ B) = cumulate (cumulate c A) B.
Proof. unfold cumulate. apply fold_left_app. Qed.
Lemma pass_get (sel : str -> bool) k (T : dict str predicator) e : forall c : counter, NoDup (dkeys c) ->
  let c' := fold_left (fun c (wp : str * predicator) => if sel (fst wp) then fold_left (fun c (se : str * str) => dset c (snd se) (dgetd c (snd se) 0 + k)) (snd (snd wp)) c else c) T c in
  NoDup (dkeys c') /\ dgetd c' e 0 = dgetd c e 0 + k * Z.of_nat (length (pairs_at e (dfilter (fun w _ => sel w) T))).
Proof.
  induction T as [|[w [n ls]] T IH]; intros c N; [cbn; split; [exact N|lia]|]. cbn [fold_left fst snd]. unfold dfilter. cbn [filter fst snd]. destruct (sel w).
  - rewrite fold_cumulate. destruct (IH (cumulate c (map (fun se : str * str => (snd se, k)) ls)) (cumulate_wf _ _ N)) as [A B]. split; [exact A|]. cbv zeta in B. rewrite B. rewrite cumulate_get. unfold pairs_at at 2. cbn [map concat fst snd]. rewrite app_length, map_length.
    assert (ZS : Zsum (fun p : str * Z => if eqb (fst p) e then snd p else 0) (map (fun se : str * str => (snd se, k)) ls) = k * Z.of_nat (length (filter (fun se : str * str => eqb (snd se) e) ls))).
    { clear. induction ls as [|[s e'] ls IH]; [cbn; lia|]. cbn [map Zsum fst snd filter]. rewrite IH. destruct (eqb e' e); cbn [length]; lia. }
    rewrite ZS. unfold dfilter, pairs_at. lia.
  - apply IH, N.
Qed.
Lemma dupdate_app {V} (e : dict str V) : forall d, NoDup (dkeys e) -> (forall w, In w (dkeys d) -> ~ In w (dkeys e)) -> dupdate d e = d ++ e.
Proof.
  unfold dupdate. induction e as [|[k v] e IH]; intros d N H; [rewrite app_nil_r; reflexivity|]. inversion N as [|? ? NI N']; subst. cbn [fold_left fst snd].
  assert (D : dset d k v = d ++ [(k, v)]).
  { assert (NK : ~ In k (dkeys d)) by (intros I; apply (H k I); left; reflexivity). clear - NK. induction d as [|[k' v'] d IH]; [reflexivity|]. cbn [dset app]. destruct (eqb_spec k' k) as [->|X]; [exfalso; apply NK; left; reflexivity|]. f_equal. apply IH. intros I. apply NK. right. exact I. }
  rewrite D, IH; [rewrite <- app_assoc; reflexivity|exact N'|]. intros w I J. unfold dkeys in I. rewrite map_app in I. apply in_app_or in I as [I|[<-|[]]]; [apply (H w I); right; exact J|contradiction].
Qed.
Lemma same_length {A} (l l' : list A) : NoDup l -> NoDup l' -> (forall y, In y l <-> In y l') -> length l = length l'.
Proof. intros N N' H. apply Permutation_length, NoDup_Permutation; assumption. Qed.
Lemma wrong_eomi_spec (base comps : dict str predicator) (C : str -> str -> str -> Prop) e : NoDup (dkeys base) -> NoDup (dkeys comps) -> (forall w, In w (dkeys base) -> ~ In w (dkeys comps)) ->
  (forall r p, dget base r = Some p -> NoDup (snd p)) -> (forall w n ls, In (w, (n, ls)) comps -> NoDup ls) -> (forall w s, C w s e <-> exists n ls, In (w, (n, ls)) comps /\ In (s, e) ls) ->
  (In e (find_wrong_eomi (dupdate base comps) comps) <-> wrong_ending base C e).
Proof.
  intros NB NC DJ PB PC HC. rewrite (dupdate_app comps base NC DJ). unfold find_wrong_eomi.
  match goal with |- context [filter (fun ec : str * Z => 0 <? snd ec) ?X] => set (c2 := X) end.
  assert (F : NoDup (dkeys c2) /\ dgetd c2 e 0 = Z.of_nat (length (pairs_at e comps)) - Z.of_nat (length (pairs_at e base))).
  { unfold c2. match goal with |- context [fold_left _ (base ++ comps) (fold_left ?f (base ++ comps) [])] => set (c1 := fold_left f (base ++ comps) []) end.
    destruct (pass_get (fun w => Bool.eqb (dmem comps w) true) 1 (base ++ comps) e [] (NoDup_nil _)) as [N1 G1]. fold c1 in N1, G1.
    destruct (pass_get (fun w => Bool.eqb (dmem comps w) false) (-1) (base ++ comps) e c1 N1) as [N2 G2]. split; [exact N2|]. cbv zeta in G2. rewrite G2. cbv zeta in G1. fold c1 in G1. rewrite G1.
    assert (D1 : dfilter (fun w (_ : predicator) => Bool.eqb (dmem comps w) true) (base ++ comps) = comps).
    { unfold dfilter. rewrite filter_app. assert (FI : forall (l : dict str predicator) b, (forall w, In w (dkeys l) -> dmem comps w = b) -> forall s, filter (fun kv : str * predicator => Bool.eqb (dmem comps (fst kv)) s) l = if Bool.eqb b s then l else []).
      { clear. induction l as [|[w p] l IH]; intros b H s; [destruct (Bool.eqb b s); reflexivity|]. cbn [filter fst]. rewrite (H w (or_introl eq_refl)), (IH b) by (intros; apply H; right; assumption). destruct (Bool.eqb b s); reflexivity. }
      rewrite (FI base false), (FI comps true); [reflexivity|intros w I; apply dmem_In, I|intros w I; destruct (dmem comps w) eqn:M; [apply dmem_In in M; exfalso; apply (DJ w I M)|reflexivity]]. }
    assert (D2 : dfilter (fun w (_ : predicator) => Bool.eqb (dmem comps w) false) (base ++ comps) = base).
    { unfold dfilter. rewrite filter_app. assert (FI : forall (l : dict str predicator) b, (forall w, In w (dkeys l) -> dmem comps w = b) -> forall s, filter (fun kv : str * predicator => Bool.eqb (dmem comps (fst kv)) s) l = if Bool.eqb b s then l else []).
      { clear. induction l as [|[w p] l IH]; intros b H s; [destruct (Bool.eqb b s); reflexivity|]. cbn [filter fst]. rewrite (H w (or_introl eq_refl)), (IH b) by (intros; apply H; right; assumption). destruct (Bool.eqb b s); reflexivity. }
      rewrite (FI base false), (FI comps true); [cbn [Bool.eqb]; apply app_nil_r|intros w I; apply dmem_In, I|intros w I; destruct (dmem comps w) eqn:M; [apply dmem_In in M; exfalso; apply (DJ w I M)|reflexivity]]. }
    rewrite D1, D2. change (dgetd [] e 0) with 0. lia. }
  destruct F as [N2 G].
  assert (IN : In e (map fst (filter (fun ec : str * Z => 0 <? snd ec) c2)) <-> 0 < dgetd c2 e 0).
  { rewrite in_map_iff. unfold dgetd. split.
    - intros ([e' n] & Q & I). cbn [fst] in Q. subst e'. apply filter_In in I as [I B]. rewrite (proj2 (dget_In_iff _ _ _ N2) I). cbn [snd] in B. apply Z.ltb_lt, B.
    - intros H. destruct (dget c2 e) as [n|] eqn:D; [|lia]. exists (e, n). split; [reflexivity|]. apply filter_In. split; [apply dget_In, D|]. apply Z.ltb_lt, H. }
  rewrite IN, G. unfold wrong_ending.
  assert (NL : NoDup (pairs_at e comps)) by (apply pairs_at_NoDup; assumption).
  assert (NM : NoDup (pairs_at e base)) by (apply pairs_at_NoDup; [exact NB|]; intros w n ls I; apply (PB w (n, ls)), (dget_In_iff _ _ _ NB), I).
  assert (IL : forall w s, In (w, s) (pairs_at e comps) <-> C w s e) by (intros w s; rewrite pairs_at_In, HC; reflexivity).
  assert (IM : forall w s, In (w, s) (pairs_at e base) <-> exists p, dget base w = Some p /\ In (s, e) (snd p)).
  { intros w s. rewrite pairs_at_In. split; [intros (n & ls & I & J); exists (n, ls); split; [apply (dget_In_iff _ _ _ NB), I|exact J]|]. intros ([n ls] & D & J). exists n, ls. split; [apply dget_In, D|exact J]. }
  split.
  - intros H. exists (pairs_at e comps), (pairs_at e base). split; [exact NL|]. split; [exact NM|]. split; [exact IL|]. split; [exact IM|]. lia.
  - intros (L & M & N1' & N2' & I1 & I2 & LT). rewrite (same_length (pairs_at e comps) L), (same_length (pairs_at e base) M); [lia|assumption|assumption| |assumption|assumption|].
    + intros [w s]. rewrite IM, I2. reflexivity.
    + intros [w s]. rewrite IL, I1. reflexivity.
Qed.
(** ** deleting the wrong stems *)
Lemma delete_In cs wrong w n ls : In (w, (n, ls)) (delete_wrong cs wrong) <-> ls <> [] /\ exists ls0, In (w, (n, ls0)) cs /\ ls = filter (fun se : str * str => negb (mem (fst se) wrong)) ls0.
Proof.
  unfold delete_wrong. rewrite in_concat. split.
  - intros (L & I & J). apply in_map_iff in I as ([w' [n' ls0]] & <- & I). cbn [fst snd] in J. destruct (filter _ ls0) as [|y ys] eqn:F; [destruct J|]. destruct J as [[= -> -> <-]|[]]. split; [discriminate|]. exists ls0. auto.
  - intros [NN (ls0 & I & ->)]. eexists. split; [apply in_map_iff; exists (w, (n, ls0)); split; [reflexivity|exact I]|]. cbn [fst snd]. destruct (filter _ ls0); [congruence|left; reflexivity].
Qed.
Lemma delete_NoDup cs wrong : NoDup (dkeys cs) -> NoDup (dkeys (delete_wrong cs wrong)).
Proof.
  induction cs as [|[w [n ls]] cs IH]; intros N; [constructor|]. inversion N as [|? ? NI N']; subst. unfold delete_wrong in *. cbn [map concat fst snd]. destruct (filter _ ls) as [|y ys]; [apply IH, N'|]. cbn [app dkeys map fst]. constructor; [|apply IH, N'].
  intros I. apply NI. apply In_dkeys_fst in I as [[n' ls'] I]. apply (delete_In cs wrong w n' ls') in I as [_ (ls0 & I & _)]. apply In_dkeys_fst. eauto.
Qed.

(** ** the stage of the compounds *)
Section Stage3.
  Variable chat : bool.
  Variable x : posx.
  Let E := x_eoj x.
  Hypothesis NE : NoDup (dkeys E).
  Hypothesis PE : forall w n, dget E w = Some n -> 0 < n.
  Variables (preds : list str) (base : dict str predicator) (known : list str) (K : str -> Prop).
  Hypothesis HP : forall l, In l preds <-> adj x l \/ verb x l.
  Hypothesis HK : forall s, In s known <-> K s.
  Hypothesis PB : forall w, rest2 x w -> ~ In w (dkeys base).
  Hypothesis ND : forall r p, dget base r = Some p -> NoDup (snd p).
  Variable e : dict str Z.
  Hypothesis S : sub E e (rest2 x).
  Lemma counts_NoDup cs : NoDup (dkeys (counts_of cs)) -> NoDup (dkeys cs).
  Proof. unfold counts_of, dkeys. rewrite map_map. auto. Qed.
  Lemma compounds_raw cs : compounds_of chat e preds base known = Ok cs ->
    NoDup (dkeys cs) /\ sub E (counts_of cs) (fun w => exists s e, raw chat x base K w s e) /\
    (forall w n ls, In (w, (n, ls)) cs -> dget E w = Some n /\ NoDup ls /\ ls <> [] /\ (forall s e, In (s, e) ls <-> raw chat x base K w s e) /\ 0 < n).
  Proof.
    intros CS. destruct (compounds_form chat preds base known E e _ S cs CS) as (OK & IN & MP).
    assert (SC : sub E (counts_of cs) (fun w => exists s e, raw chat x base K w s e)).
    { unfold counts_of. rewrite MP. apply (sub_dfilter E e _ _ _ S); [intros w (s & e' & R & _); exact R|]. intros w R2. unfold keep. destruct (OK w R2) as [o C]. rewrite C. pose proof (compound_spec chat x preds base known K HP HK w o (PB w R2) C) as SP. destruct o as [ls|].
      - destruct SP as (NN & I & _). split; [|reflexivity]. intros _. destruct ls as [|[s e'] ls]; [congruence|]. exists s, e'. split; [exact R2|]. apply (proj1 (I s e')). left. reflexivity.
      - split; [discriminate|]. intros (s & e' & _ & R). exfalso. apply (SP s e'), R. }
    assert (N : NoDup (dkeys cs)) by (apply counts_NoDup, (sub_wf E _ _ NE SC)). split; [exact N|]. split; [exact SC|].
    intros w n ls I. assert (R2 : rest2 x w).
    { apply IN in I as [I _]. apply (sub_In E e _ w S), In_dkeys_fst. eauto. }
    assert (DN : dget E w = Some n).
    { apply IN in I as [I _]. rewrite <- (sub_get E e _ w NE S); [|apply dget_keys, In_dkeys_fst; eauto]. apply (dget_In_iff _ _ _ (sub_wf E e _ NE S)), I. }
    apply IN in I as [I C]. pose proof (compound_spec chat x preds base known K HP HK w _ (PB w R2) C) as (NN & II & DD). split; [exact DN|]. split; [apply DD, ND|]. split; [exact NN|]. split; [|apply (PE w), DN].
    intros s e'. rewrite II. unfold raw, raw1. tauto.
  Qed.
  (** the words, stems and counts of the compounds *)
  Let A := kept chat x (raw chat x base K).
  Lemma parse_spec cs ss cn : parse_compounds chat e preds base known = Ok (cs, ss, cn) ->
    NoDup (dkeys cs) /\ sub E cn (fun w => exists s e, A w s e) /\ (forall w, In w (dkeys cs) <-> exists s e, A w s e) /\
    (forall w n ls, In (w, (n, ls)) cs -> dget E w = Some n /\ NoDup ls /\ (forall s e, In (s, e) ls <-> A w s e)) /\
    (forall s, In s ss <-> chat = false /\ exists w e, A w s e).
  Proof.
    unfold parse_compounds. destruct (compounds_of chat e preds base known) as [cs0|] eqn:CS; [|discriminate]. cbn [bind]. destruct (compounds_raw cs0 CS) as (N & SC & H). fold (counts_of cs0).
    destruct (Bool.bool_dec chat true) as [CT|CT].
    2: { assert (CF : chat = false) by (apply Bool.not_true_iff_false, CT). clear CT. rewrite CF in *. intros EQ. 
      assert (E1 : cs = cs0 /\ ss = stems_of cs0 /\ cn = counts_of cs0) by (split; [|split]; congruence). destruct E1 as (-> & -> & ->). clear EQ.
      assert (AE : forall w s e, A w s e <-> raw false x base K w s e) by (intros; unfold A, kept; rewrite CF; intuition discriminate).
      assert (KC : forall w, In w (dkeys cs0) <-> exists s e, A w s e).
      { intros w. replace (dkeys cs0) with (dkeys (counts_of cs0)) by (unfold counts_of, dkeys; rewrite map_map; reflexivity). rewrite (sub_In _ _ _ w SC). split; intros (s & e' & R); exists s, e'; apply AE, R. }
      split; [exact N|]. split; [|split; [exact KC|split]].
      - eapply sub_weaken; [|exact SC]. intros w. split; intros (s & e' & R); exists s, e'; apply AE, R.
      - intros w n ls I. destruct (H w n ls I) as (H1 & H2 & H3 & H4 & _). split; [exact H1|]. split; [exact H2|]. intros s e'. rewrite H4, AE. reflexivity.
      - intros s. unfold stems_of. rewrite in_concat. split.
        + intros (L & I & J). split; [reflexivity|]. apply in_map_iff in I as ([w [n ls]] & <- & I). cbn [snd] in J. apply in_map_iff in J as ([s' e'] & <- & J). exists w, e'. apply AE, (H w n ls I), J.
        + intros [_ (w & e' & R)]. assert (I : In w (dkeys cs0)) by (apply KC; eauto). apply In_dkeys_fst in I as [[n ls] I]. eexists. split; [apply in_map_iff; exists (w, (n, ls)); split; [reflexivity|exact I]|]. cbn [snd]. apply in_map_iff. exists (s, e'). split; [reflexivity|]. apply (H w n ls I), AE, R. }
    rewrite CT in *. intros EQ. set (wr := find_wrong_stem cs0) in EQ. assert (E1 : cs = delete_wrong cs0 wr /\ ss = filter (fun s => negb (mem s wr)) wr /\ cn = dfilter (fun w _ => dmem (delete_wrong cs0 wr) w) (counts_of cs0)) by (split; [|split]; congruence). clear EQ.
    assert (WR : forall s, In s wr <-> wrong_stem x (raw true x base K) s).
    { intros s. apply (wrong_stem_spec x cs0 (raw true x base K) N); [exact SC|]. intros w n ls I. destruct (H w n ls I) as (_ & H2 & H3 & H4 & H5). auto. }
    assert (AE : forall w s e, A w s e <-> raw true x base K w s e /\ ~ In s wr) by (intros; unfold A, kept; rewrite CT, WR; intuition).
    assert (HD : forall w n ls, In (w, (n, ls)) (delete_wrong cs0 wr) -> dget E w = Some n /\ NoDup ls /\ ls <> [] /\ (forall s e, In (s, e) ls <-> A w s e)).
    { intros w n ls I. apply delete_In in I as [NN (ls0 & I & ->)]. destruct (H w n ls0 I) as (H1 & H2 & _ & H4 & _). split; [exact H1|]. split; [apply NoDup_filter, H2|]. split; [exact NN|]. intros s e'. rewrite filter_In. cbn [fst]. rewrite negb_true_iff, <- not_true_iff_false, (mem_In s wr), H4, AE. reflexivity. }
    assert (KC : forall w, In w (dkeys (delete_wrong cs0 wr)) <-> exists s e, A w s e).
    { intros w. rewrite In_dkeys_fst. split.
      - intros [[n ls] I]. destruct (HD w n ls I) as (_ & _ & NN & II). destruct ls as [|[s e'] ls]; [congruence|]. exists s, e'. apply II. left. reflexivity.
      - intros (s & e' & R). apply AE in R as [R NW]. assert (I : In w (dkeys (counts_of cs0))) by (apply (sub_In _ _ _ w SC); eauto). unfold counts_of, dkeys in I. rewrite map_map in I. apply in_map_iff in I as ([w' [n ls0]] & Q & I). cbn [fst] in Q. subst w'.
        exists (n, filter (fun se : str * str => negb (mem (fst se) wr)) ls0). apply delete_In. split; [|exists ls0; auto]. assert (J : In (s, e') (filter (fun se : str * str => negb (mem (fst se) wr)) ls0)); [|intros Q; rewrite Q in J; destruct J].
        apply filter_In. split; [apply (H w n ls0 I), R|]. cbn [fst]. apply negb_true_iff, not_true_iff_false. intros M. apply NW. apply (proj1 (mem_In _ _)), M. }
    destruct E1 as (-> & -> & ->). split; [apply delete_NoDup, N|]. split; [|split; [exact KC|split]].
    - apply (sub_dfilter E (counts_of cs0) _ _ _ SC); [intros w (s & e' & R); exists s, e'; apply AE, R|]. intros w _. rewrite dmem_In. apply KC.
    - intros w n ls I. destruct (HD w n ls I) as (H1 & H2 & _ & H4). auto.
    - intros s. rewrite filter_In. split; [|intros [Q _]; discriminate]. intros [I B]. apply (proj2 (mem_In _ _)) in I. rewrite I in B. discriminate.
  Qed.
End Stage3.
