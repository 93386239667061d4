(** * Proofs about the extraction of endings: canonical endings *)
From Coq Require Import QArith Permutation Lqa Sorted.
From Verif Require Import PyBase PyDict PySort SortLemmas CountLemmas QLemmas UtilsModel UtilsSpec UtilsProofs UtilsProofs2 NounModel NounSpec NounProofs NounProofs2 NounProofs3 HangleModel VectorizerSpec VectorizerProofs3 LemmaModel LemmaProofs PredModel PredSpec PredProofs PredProofs2.
Open Scope Z_scope.

Lemma conjugatable_NoDup word cands : forall acc out, conjugatable word acc cands = Ok out -> NoDup acc -> NoDup out.
Proof.
  induction cands as [|i cs IH]; intros acc out H N; [injection H as <-; exact N|]. cbn [conjugatable] in H.
  destruct (unpack i) as [se|]; [|discriminate]. cbn [bind] in H. destruct (snd se) as [|e0 t]; [exact (IH acc out H N)|].
  destruct (parts_of e0) as [R|]; [|discriminate]. cbn [bind] in H. destruct (N.eqb (snd R) "ㅎ"%ch); [exact (IH acc out H N)|].
  destruct (conjugate (fst se) _ false) as [ss|]; [|discriminate]. cbn [bind] in H. apply (IH _ out H). destruct (mem word ss); [apply setadd_NoDup, N|exact N].
Qed.
Lemma lemma_candidate_NoDup d l r cs : lemma_candidate d l r = Ok cs -> NoDup cs.
Proof.
  unfold lemma_candidate. intros H. destruct (at_last l) as [lc|]; [|discriminate]. cbn [bind] in H. destruct (parts_of lc) as [[[a b] f]|]; [|discriminate]. cbn [bind] in H.
  destruct (compose a b " "%ch) as [lf|]; [|discriminate]. cbn [bind] in H.
  match goal with H : bind ?m _ = _ |- _ => destruct m as [[[[s0 s1] s2] sf]|]; [|discriminate H] end. cbn [bind] in H.
  match goal with H : bind ?m _ = _ |- _ => destruct m as [cands|]; [|discriminate H] end. cbn [bind] in H.
  exact (conjugatable_NoDup _ _ _ _ H (NoDup_nil _)).
Qed.
Lemma NoDup_concat_map {A B} (g : A -> list B) (l : list A) : NoDup l -> (forall x, In x l -> NoDup (g x)) -> (forall x y z, In x l -> In y l -> In z (g x) -> In z (g y) -> x = y) -> NoDup (concat (map g l)).
Proof.
  induction l as [|x l IH]; intros N H D; [constructor|]. inversion N as [|? ? NI N']; subst. cbn [map concat]. apply NoDup_app_intro.
  - apply H. left. reflexivity.
  - apply IH; [exact N'|intros y I; apply H; right; exact I|intros y z w I J; apply D; right; assumption].
  - intros z I J. apply in_concat in J as (ys & J & K). apply in_map_iff in J as (y & <- & J). assert (x = y) by (apply (D x y z); [left; reflexivity|right; exact J|exact I|exact K]). subst y. contradiction.
Qed.

(** ** weighted means in a dictionary *)
Section Means.
  Variables (X : Type) (c_count c_score : X -> Q).
Definition addc (d : dict str (Q * Q)) (xe : X * str) : dict str (Q * Q) :=
  let old := dgetd d (snd xe) (0%Q, 0%Q) in
  let n := c_count (fst xe) in let q := c_score (fst xe) in
  dset d (snd xe) ((n + fst old)%Q, ((q * n + snd old * fst old) / (n + fst old))%Q).
Definition total (xs : list X) : Q := Qsum (map c_count xs).
Definition wtotal (xs : list X) : Q := Qsum (map (fun x => c_count x * c_score x)%Q xs).
Definition of_e (e : str) (L : list (X * str)) : list X := map fst (filter (fun xe => eqb (snd xe) e) L).
Definition mean_inv (d : dict str (Q * Q)) (L : list (X * str)) : Prop :=
  NoDup (dkeys d) /\ forall e, match dget d e with
    | None => of_e e L = []
    | Some v => of_e e L <> [] /\ (0 < fst v)%Q /\ (fst v == total (of_e e L))%Q /\ (snd v * fst v == wtotal (of_e e L))%Q
    end.
Lemma of_e_snoc e L xe : of_e e (L ++ [xe]) = of_e e L ++ (if eqb (snd xe) e then [fst xe] else []).
Proof. unfold of_e. rewrite filter_app, map_app. cbn [filter]. destruct (eqb (snd xe) e); reflexivity. Qed.
Lemma total_snoc xs x : (total (xs ++ [x]) == total xs + c_count x)%Q.
Proof. unfold total. rewrite map_app, Qsum_app. cbn [map]. rewrite Qsum_cons. change (Qsum []) with 0%Q. ring. Qed.
Lemma wtotal_snoc xs x : (wtotal (xs ++ [x]) == wtotal xs + c_count x * c_score x)%Q.
Proof. unfold wtotal. rewrite map_app, Qsum_app. cbn [map]. rewrite Qsum_cons. change (Qsum []) with 0%Q. ring. Qed.
Lemma addc_inv d L xe : mean_inv d L -> (0 < c_count (fst xe))%Q -> mean_inv (addc d xe) (L ++ [xe]).
Proof.
  intros [N H] P. unfold addc. split; [apply dwf_dset, N|]. intros e. rewrite of_e_snoc, dget_dset. destruct (eqb_spec (snd xe) e) as [<-|NE].
  - cbn [fst snd]. unfold dgetd. specialize (H (snd xe)). split; [destruct (of_e (snd xe) L); discriminate|].
    destruct (dget d (snd xe)) as [v|] eqn:D; cbn [fst snd].
    + destruct H as (_ & H1 & H2 & H3). split; [lra|]. split; [rewrite total_snoc, <- H2; ring|]. rewrite wtotal_snoc, <- H3. field. lra.
    + split; [lra|]. rewrite H. split; [rewrite total_snoc; change (total []) with 0%Q; ring|]. rewrite wtotal_snoc. change (wtotal []) with 0%Q. field. lra.
  - rewrite app_nil_r. exact (H e).
Qed.
Lemma addc_fold_inv todo : forall d L, mean_inv d L -> Forall (fun xe => (0 < c_count (fst xe))%Q) todo -> mean_inv (fold_left addc todo d) (L ++ todo).
Proof.
  induction todo as [|xe todo IH]; intros d L I F; [rewrite app_nil_r; exact I|]. inversion F as [|? ? P F']; subst. cbn [fold_left].
  replace (L ++ xe :: todo) with ((L ++ [xe]) ++ todo) by (rewrite <- app_assoc; reflexivity). apply IH; [apply addc_inv; assumption|exact F'].
Qed.
Lemma addc_means L : Forall (fun xe => (0 < c_count (fst xe))%Q) L -> mean_inv (fold_left addc L []) L.
Proof. intros F. apply (addc_fold_inv L [] []); [|exact F]. split; [constructor|]. intros e. reflexivity. Qed.

End Means.
Arguments of_e {X}.

(** ** eomi_lemmatize is such a sum *)
Definition contribs_of (stems : list str) (r l : str) (n : Z) (q : Q) : list ((str * str * str * Z * Q) * str) :=
  match lemma_candidate [] l r with
  | Err _ => []
  | Ok cs => map (fun se => ((r, l, fst se, n, q), snd se)) (filter (fun se => mem (fst se) stems) cs)
  end.
Definition all_contribs (stems : list str) (g : lrg) (eomis : dict str (Z * Q)) : list ((str * str * str * Z * Q) * str) :=
  concat (map (fun es => concat (map (fun lc => contribs_of stems (fst es) (fst lc) (snd lc) (snd (snd es))) (get_l g (fst es) (-1)))) eomis).
Definition posdict (d : dict str (Q * Q)) : Prop := forall e v, dget d e = Some v -> (0 < fst v)%Q.
Lemma addc_pos d xe : posdict d -> (0 < c_count (fst xe))%Q -> posdict (addc _ c_count c_score d xe).
Proof.
  intros H P e v. unfold addc. rewrite dget_dset. destruct (eqb_spec (snd xe) e) as [<-|NE]; [|apply H]. intros E. injection E as <-. cbn [fst]. unfold dgetd.
  destruct (dget d (snd xe)) as [v|] eqn:D; cbn [fst]; [specialize (H _ _ D); lra|lra].
Qed.
Lemma merge_eq stems r l n q cs : 0 < n -> forall d, posdict d ->
  eomi_merge stems (inject_Z n) q cs d = fold_left (addc _ c_count c_score) (map (fun se => ((r, l, fst se, n, q), snd se)) (filter (fun se => mem (fst se) stems) cs)) d /\
  posdict (eomi_merge stems (inject_Z n) q cs d).
Proof.
  intros P. assert (P' : (0 < inject_Z n)%Q) by (change 0%Q with (inject_Z 0); rewrite <- Zlt_Qlt; exact P).
  induction cs as [|[s e] cs IH]; intros d PD; [split; [reflexivity|exact PD]|]. cbn [eomi_merge filter fst snd]. destruct (mem s stems); [|apply IH, PD].
  cbn [map fold_left fst snd].
  assert (M : merge_score (inject_Z n) q (fst (dgetd d e (0%Q, 0%Q))) (snd (dgetd d e (0%Q, 0%Q))) = Some ((inject_Z n + fst (dgetd d e (0%Q, 0%Q)))%Q, ((q * inject_Z n + snd (dgetd d e (0%Q, 0%Q)) * fst (dgetd d e (0%Q, 0%Q))) / (inject_Z n + fst (dgetd d e (0%Q, 0%Q))))%Q)).
  { unfold merge_score. destruct (Qeq_bool _ 0) eqn:Z; [|reflexivity]. exfalso. apply Qeq_bool_eq in Z. unfold dgetd in Z. destruct (dget d e) as [v|] eqn:D; [specialize (PD _ _ D); lra|cbn [fst] in Z; lra]. }
  cbv zeta. rewrite M. exact (IH _ (addc_pos d ((r, l, s, n, q), e) PD P')).
Qed.
Lemma lemmatize_eq stems g eomis : (forall r l n, In (l, n) (get_l g r (-1)) -> 0 < n) -> eomi_lemmatize stems g eomis = fold_left (addc _ c_count c_score) (all_contribs stems g eomis) [].
Proof.
  intros P. unfold eomi_lemmatize, all_contribs.
  set (inner := fun (es : str * (Z * Q)) (d : dict str (Q * Q)) (lc : str * Z) => match lemma_candidate [] (fst lc) (fst es) with Ok cs => eomi_merge stems (inject_Z (snd lc)) (snd (snd es)) cs d | Err _ => d end).
  assert (I1 : forall es L d, (forall l n, In (l, n) L -> 0 < n) -> posdict d ->
    fold_left (inner es) L d = fold_left (addc _ c_count c_score) (concat (map (fun lc => contribs_of stems (fst es) (fst lc) (snd lc) (snd (snd es))) L)) d /\ posdict (fold_left (inner es) L d)).
  { intros es. induction L as [|[l n] L IH]; intros d H PD; [split; [reflexivity|exact PD]|]. cbn [map concat fold_left fst snd]. rewrite fold_left_app.
    assert (E : inner es d (l, n) = fold_left (addc _ c_count c_score) (contribs_of stems (fst es) l n (snd (snd es))) d /\ posdict (inner es d (l, n))).
    { unfold inner, contribs_of. cbn [fst snd]. destruct (lemma_candidate [] l (fst es)) as [cs|]; [|split; [reflexivity|exact PD]]. apply merge_eq; [apply (H l n); left; reflexivity|exact PD]. }
    destruct E as [E PD']. rewrite <- E. apply IH; [intros l' n' I; apply (H l' n'); right; exact I|exact PD']. }
  assert (I2 : forall E d, posdict d -> fold_left (fun d es => fold_left (inner es) (get_l g (fst es) (-1)) d) E d =
     fold_left (addc _ c_count c_score) (concat (map (fun es => concat (map (fun lc => contribs_of stems (fst es) (fst lc) (snd lc) (snd (snd es))) (get_l g (fst es) (-1)))) E)) d).
  { induction E as [|es E IH]; intros d PD; [reflexivity|]. cbn [map concat fold_left]. rewrite fold_left_app. destruct (I1 es (get_l g (fst es) (-1)) d (P (fst es)) PD) as [E1 PD']. rewrite <- E1. apply IH, PD'. }
  apply I2. intros e v X. discriminate.
Qed.
Lemma all_contribs_In stems g eomis x e : In (x, e) (all_contribs stems g eomis) <->
  let '(r, l, s, n, q) := x in (exists c, In (r, (c, q)) eomis) /\ In (l, n) (get_l g r (-1)) /\ In s stems /\ exists cs, lemma_candidate [] l r = Ok cs /\ In (s, e) cs.
Proof.
  destruct x as [[[[r l] s] n] q]. unfold all_contribs. rewrite in_concat. split.
  - intros (L & I & J). apply in_map_iff in I as ([r' [c q']] & <- & I). cbn [fst snd] in J. apply in_concat in J as (L' & K & J). apply in_map_iff in K as ([l' n'] & <- & K). cbn [fst snd] in J.
    unfold contribs_of in J. destruct (lemma_candidate [] l' r') as [cs|] eqn:C; [|destruct J]. apply in_map_iff in J as ([s' e'] & J & M). apply filter_In in M as [M M']. cbn [fst snd] in *. injection J as <- <- <- <- <- <-.
    split; [exists c; exact I|]. split; [exact K|]. split; [apply mem_In, M'|]. exists cs. split; [exact C|exact M].
  - intros ((c & I) & K & M & cs & C & J). eexists. split; [apply in_map_iff; exists (r, (c, q)); split; [reflexivity|exact I]|]. cbn [fst snd].
    apply in_concat. eexists. split; [apply in_map_iff; exists (l, n); split; [reflexivity|exact K]|]. cbn [fst snd]. unfold contribs_of. rewrite C. apply in_map_iff. exists (s, e). split; [reflexivity|].
    apply filter_In. split; [exact J|]. cbn [fst]. apply mem_In, M.
Qed.
Lemma all_contribs_NoDup stems g eomis : NoDup (dkeys eomis) -> (forall r, NoDup (map fst (get_l g r (-1)))) -> NoDup (all_contribs stems g eomis).
Proof.
  intros N H. unfold all_contribs. apply NoDup_concat_map.
  - apply (NoDup_map_inv fst). exact N.
  - intros [r [c q]] _. cbn [fst snd]. apply NoDup_concat_map.
    + apply NoDup_pairs, H.
    + intros [l n] _. cbn [fst snd]. unfold contribs_of. destruct (lemma_candidate [] l r) as [cs|] eqn:C; [|constructor]. apply lemma_candidate_NoDup in C.
      apply FinFun.Injective_map_NoDup; [|apply NoDup_filter, C]. intros [s e] [s' e'] E. cbn [fst snd] in E. injection E as -> ->. reflexivity.
    + intros [l n] [l' n'] z _ _. cbn [fst snd]. unfold contribs_of. destruct (lemma_candidate [] l r); [|intros []]. destruct (lemma_candidate [] l' r); [|intros _ []].
      intros I J. apply in_map_iff in I as (a1 & <- & _). apply in_map_iff in J as (b1 & E & _). injection E as -> _ -> _. reflexivity.
  - intros [r [c q]] [r' [c' q']] z IX IY I J. cbn [fst snd] in *. apply in_concat in I as (L & I & I'), J as (L' & J & J'). apply in_map_iff in I as (lc & <- & _), J as (lc' & <- & _).
    unfold contribs_of in I', J'. destruct (lemma_candidate [] (fst lc) r); [|destruct I']. destruct (lemma_candidate [] (fst lc') r'); [|destruct J'].
    apply in_map_iff in I' as (a1 & <- & _). apply in_map_iff in J' as (b1 & E & _). injection E as -> _ _ _ -> _.
    assert (X : dget eomis r = Some (c, q)) by (apply In_dget; assumption). assert (Y : dget eomis r = Some (c', q)) by (apply In_dget; assumption). congruence.
Qed.
Lemma of_e_NoDup {X} e (L : list (X * str)) : NoDup L -> NoDup (of_e e L).
Proof.
  intros N. unfold of_e. induction N as [|[x e'] L NI N IH]; [constructor|]. cbn [filter snd]. destruct (eqb_spec e' e) as [->|NE]; [|exact IH]. cbn [map fst]. constructor; [|exact IH].
  intros I. apply in_map_iff in I as ([x' e''] & E & I). cbn [fst] in E. subst x'. apply filter_In in I as [I K]. cbn [snd] in K. apply eqb_eq in K. subst e''. contradiction.
Qed.
Lemma of_e_In {X} e (L : list (X * str)) x : In x (of_e e L) <-> In (x, e) L.
Proof.
  unfold of_e. rewrite in_map_iff. split.
  - intros ([x' e'] & E & I). cbn [fst] in E. subst x'. apply filter_In in I as [I K]. cbn [snd] in K. apply eqb_eq in K. subst e'. exact I.
  - intros I. exists (x, e). split; [reflexivity|]. apply filter_In. split; [exact I|]. apply eqb_refl.
Qed.
(** the mean of scores that reach a threshold reaches it *)
Lemma mean_ge ms xs : (forall x, In x xs -> (0 < c_count x)%Q /\ (ms <= c_score x)%Q) -> (ms * total _ c_count xs <= wtotal _ c_count c_score xs)%Q.
Proof.
  unfold total, wtotal. induction xs as [|x xs IH]; intros H; [cbn; lra|]. cbn [map]. rewrite !Qsum_cons. destruct (H x (or_introl eq_refl)) as [A B].
  specialize (IH (fun y I => H y (or_intror I))). assert (C : (c_count x * ms <= c_count x * c_score x)%Q) by (apply Qmult_le_l; assumption). rewrite Qmult_plus_distr_r. rewrite (Qmult_comm ms (c_count x)). apply Qplus_le_compat; assumption.
Qed.
Lemma mean_le (M : Q) xs : (forall x, In x xs -> (0 < c_count x)%Q /\ (c_score x <= M)%Q) -> (wtotal _ c_count c_score xs <= M * total _ c_count xs)%Q.
Proof.
  unfold total, wtotal. induction xs as [|x xs IH]; intros H; [cbn; lra|]. cbn [map]. rewrite !Qsum_cons. destruct (H x (or_introl eq_refl)) as [A B].
  specialize (IH (fun y I => H y (or_intror I))). assert (C : (c_count x * c_score x <= c_count x * M)%Q) by (apply Qmult_le_l; assumption). rewrite Qmult_plus_distr_r. rewrite (Qmult_comm M (c_count x)). apply Qplus_le_compat; assumption.
Qed.

Lemma eomi_extract_all stems surf nouns mnf ec lm rm cond ms mf reset g : NoDup (map fst (ec_counter ec)) -> (forall e n, dget (ec_counter ec) e = Some n -> 0 < n) -> 1 < lm -> 0 < rm ->
  train_counter ec lm rm = Ok g -> stem_surfaces_of stems = Ok surf ->
  exists S D, ending_scores surf nouns cond ms mnf lm rm (ec_counter ec) S /\ eomi_extract stems nouns mnf g cond ms mf reset = Ok (g, D) /\ NoDup (dkeys D) /\
  forall e, exists xs, NoDup xs /\ (forall x, In x xs <-> contributes stems S ms lm rm (ec_counter ec) e x) /\
    match dget D e with
    | Some v => xs <> [] /\ (fst v == total _ c_count xs)%Q /\ (snd v * total _ c_count xs == wtotal _ c_count c_score xs)%Q /\ (inject_Z mf <= total _ c_count xs)%Q /\ (ms <= snd v)%Q
    | None => xs = [] \/ (total _ c_count xs < inject_Z mf)%Q
    end.
Proof.
  intros N POS L R E SS. destruct (eomi_batch_all surf nouns lm rm ms mnf ec g cond N L R E) as (S & EB & ES). exists S.
  destruct (trained_uni ec lm rm N L R) as (g0 & E0 & U & O & RL). rewrite E in E0. injection E0 as <-. assert (P : 0 < lm) by lia.
  pose proof (trained_reset ec lm rm g g L R E (reach_refl g)) as RG.
  set (surfaces := dfilter (fun _ p => Qle_bool ms (snd p)) S).
  set (L0 := all_contribs stems g surfaces).
  assert (GP : forall r l n, In (l, n) (get_l g r (-1)) -> 0 < n). { intros r l n I. apply (uni_cols lm rm _ g r l n U) in I as (_ & _ & I). exact (POS _ _ I). }
  pose proof (lemmatize_eq stems g surfaces GP) as LE. fold L0 in LE.
  assert (LP : Forall (fun xe => (0 < c_count (fst xe))%Q) L0).
  { apply Forall_forall. intros [[[[[r l] s] n] q] e] I. apply all_contribs_In in I as (_ & I & _). apply GP in I. unfold c_count. cbn [fst snd]. change 0%Q with (inject_Z 0). rewrite <- Zlt_Qlt. exact I. }
  pose proof (addc_means _ c_count c_score L0 LP) as [DN MI]. rewrite <- LE in DN, MI. clear LE.
  exists (dfilter (fun _ p => Qle_bool (inject_Z mf) (fst p) && Qle_bool ms (snd p)) (eomi_lemmatize stems g surfaces)).
  split; [exact ES|]. destruct ES as (NS & KS & SC).
  assert (NSF : NoDup (dkeys surfaces)) by (unfold surfaces, dfilter, dkeys; apply (NoDup_filter_map (K:=str)); exact NS).
  split; [|split].
  - unfold eomi_extract. rewrite SS. cbn [bind]. rewrite EB. cbn [bind fst snd]. rewrite RG. destruct reset; [rewrite RG|]; reflexivity.
  - unfold dfilter, dkeys. apply (NoDup_filter_map (K:=str)). exact DN.
  - intros e. exists (of_e e L0). split; [apply of_e_NoDup, all_contribs_NoDup; [exact NSF|]; intros r; apply (uni_cols_NoDup lm rm _ g r U)|].
    assert (CI : forall x, In x (of_e e L0) <-> contributes stems S ms lm rm (ec_counter ec) e x).
    { intros [[[[r l] s] n] q]. rewrite of_e_In. unfold L0. rewrite all_contribs_In. unfold contributes. rewrite (uni_cols lm rm _ g r l n U), (window_spec lm rm l r P). split.
      - intros ((c & I) & (NR & W & F) & M & C). apply filter_In in I as [I Q]. cbn [fst snd] in Q. apply Qle_bool_iff in Q. split; [exists c; apply In_dget; assumption|]. split; [exact Q|]. split; [exact NR|]. split; [exact W|]. split; [exact F|]. split; [exact M|exact C].
      - intros ((c & I) & Q & NR & W & F & M & C). split; [exists c; apply filter_In; split; [apply dget_In, I|apply Qle_bool_iff, Q]|]. split; [split; [exact NR|split; assumption]|]. split; [exact M|exact C]. }
    split; [exact CI|]. specialize (MI e). rewrite dget_dfilter by exact DN.
    assert (GE : (ms * total _ c_count (of_e e L0) <= wtotal _ c_count c_score (of_e e L0))%Q).
    { apply mean_ge. intros x I. split; [|apply CI in I; destruct x as [[[[r l] s] n] q]; apply I]. apply of_e_In in I. rewrite Forall_forall in LP. exact (LP _ I). }
    destruct (dget (eomi_lemmatize stems g surfaces) e) as [v|]; [|left; exact MI]. destruct MI as (NE & PV & FV & SV).
    assert (SV' : (ms <= snd v)%Q). { apply (Qmult_le_r ms (snd v) (fst v) PV). rewrite SV, FV. exact GE. }
    assert (QQ : Qle_bool ms (snd v) = true) by (apply Qle_bool_iff, SV'). rewrite QQ, andb_true_r.
    destruct (Qle_bool (inject_Z mf) (fst v)) eqn:M.
    + apply Qle_bool_iff in M. split; [exact NE|]. split; [exact FV|]. split; [rewrite <- FV; exact SV|]. split; [rewrite <- FV; exact M|exact SV'].
    + right. apply qleb_false in M. rewrite <- FV. exact M.
Qed.
