(** * Proofs about the extraction of stems: canonical stems *)
From Coq Require Import QArith Reals Permutation Lra Lqa Sorted.
From Verif Require Import PyBase PyDict PySort SortLemmas CountLemmas QLemmas UtilsModel UtilsSpec UtilsProofs UtilsProofs2 NounModel NounSpec NounProofs NounProofs2 NounProofs3 WordModel WordSpec WordProofs4 JosaModel VectorizerSpec VectorizerProofs3 HangleModel LemmaModel LemmaProofs PredModel PredSpec PredSpec2 PredProofs PredProofs2 PredProofs3 PredProofs4 PredProofs5 PredProofs6.
Open Scope Z_scope.

Notation addx := (addc (str * str * str * (Q * Z)) sc_score sc_freq).
Definition xcontribs (eomis : list str) (l r : str) (p : Q * Z) : list ((str * str * str * (Q * Z)) * str) :=
  match lemma_candidate [] l r with
  | Err _ => []
  | Ok cs => map (fun se => ((l, r, snd se, p), fst se)) (filter (fun se => negb (mem (snd se) eomis)) cs)
  end.
Definition all_x (eomis : list str) (g : lrg) (surfaces : dict str (Q * Z)) : list ((str * str * str * (Q * Z)) * str) :=
  concat (map (fun lp => concat (map (fun rc => xcontribs eomis (fst lp) (fst rc) (snd lp)) (get_r g (fst lp) (-1)))) surfaces).
Lemma addx_pos d xe : posdict d -> (0 < sc_score (fst xe))%Q -> posdict (addx d xe).
Proof.
  intros H P e v. unfold addc. rewrite dget_dset. destruct (eqb_spec (snd xe) e) as [<-|NE]; [|apply H]. intros E. injection E as <-. cbn [fst]. unfold dgetd.
  destruct (dget d (snd xe)) as [v|] eqn:D; cbn [fst]; [specialize (H _ _ D); lra|lra].
Qed.
Lemma stem_merge_eq eomis l r p cs : (0 < fst p)%Q -> forall d, posdict d ->
  stem_merge eomis (fst p) (inject_Z (snd p)) cs d = fold_left addx (map (fun se => ((l, r, snd se, p), fst se)) (filter (fun se => negb (mem (snd se) eomis)) cs)) d /\
  posdict (stem_merge eomis (fst p) (inject_Z (snd p)) cs d).
Proof.
  intros P. induction cs as [|[s e] cs IH]; intros d PD; [split; [reflexivity|exact PD]|]. cbn [stem_merge filter fst snd]. destruct (mem e eomis); cbn [negb]; [apply IH, PD|].
  cbn [map fold_left fst snd].
  assert (M : merge_score (fst p) (inject_Z (snd p)) (fst (dgetd d s (0%Q, 0%Q))) (snd (dgetd d s (0%Q, 0%Q))) = Some ((fst p + fst (dgetd d s (0%Q, 0%Q)))%Q, ((inject_Z (snd p) * fst p + snd (dgetd d s (0%Q, 0%Q)) * fst (dgetd d s (0%Q, 0%Q))) / (fst p + fst (dgetd d s (0%Q, 0%Q))))%Q)).
  { unfold merge_score. destruct (Qeq_bool _ 0) eqn:Z; [|reflexivity]. exfalso. apply Qeq_bool_eq in Z. unfold dgetd in Z. destruct (dget d s) as [v|] eqn:D; [specialize (PD _ _ D); lra|cbn [fst] in Z; lra]. }
  cbv zeta. rewrite M. exact (IH _ (addx_pos d ((l, r, e, p), s) PD P)).
Qed.
Lemma to_stem_eq c g surfaces : (forall l p, In (l, p) surfaces -> (0 < fst p)%Q) -> to_stem c g surfaces = fold_left addx (all_x (st_eomis c) g surfaces) [].
Proof.
  unfold to_stem, all_x.
  set (inner := fun (lp : str * (Q * Z)) (d : dict str (Q * Q)) (rc : str * Z) => match lemma_candidate [] (fst lp) (fst rc) with Ok cs => stem_merge (st_eomis c) (fst (snd lp)) (inject_Z (snd (snd lp))) cs d | Err _ => d end).
  assert (I1 : forall lp L d, (0 < fst (snd lp))%Q -> posdict d ->
    fold_left (inner lp) L d = fold_left addx (concat (map (fun rc => xcontribs (st_eomis c) (fst lp) (fst rc) (snd lp)) L)) d /\ posdict (fold_left (inner lp) L d)).
  { intros lp. induction L as [|[r n] L IH]; intros d H PD; [split; [reflexivity|exact PD]|]. cbn [map concat fold_left fst snd]. rewrite fold_left_app.
    assert (E : inner lp d (r, n) = fold_left addx (xcontribs (st_eomis c) (fst lp) r (snd lp)) d /\ posdict (inner lp d (r, n))).
    { unfold inner, xcontribs. cbn [fst snd]. destruct (lemma_candidate [] (fst lp) r) as [cs|]; [|split; [reflexivity|exact PD]]. apply stem_merge_eq; [exact H|exact PD]. }
    destruct E as [E PD']. rewrite <- E. apply IH; [exact H|exact PD']. }
  assert (I2 : forall E d, (forall l p, In (l, p) E -> (0 < fst p)%Q) -> posdict d -> fold_left (fun d lp => fold_left (inner lp) (get_r g (fst lp) (-1)) d) E d =
     fold_left addx (concat (map (fun lp => concat (map (fun rc => xcontribs (st_eomis c) (fst lp) (fst rc) (snd lp)) (get_r g (fst lp) (-1)))) E)) d).
  { induction E as [|[l p] E IH]; intros d H PD; [reflexivity|]. cbn [map concat fold_left]. rewrite fold_left_app. destruct (I1 (l, p) (get_r g l (-1)) d (H l p (or_introl eq_refl)) PD) as [E1 PD']. cbn [fst snd] in *. rewrite <- E1. apply IH; [|exact PD'].
    intros l' p' I. apply (H l' p'). right. exact I. }
  intros P. apply I2; [exact P|]. intros e v X. discriminate.
Qed.
Lemma all_x_In eomis g surfaces x s : In (x, s) (all_x eomis g surfaces) <->
  let '(l, r, e, p) := x in In (l, p) surfaces /\ In r (map fst (get_r g l (-1))) /\ ~ In e eomis /\ exists cs, lemma_candidate [] l r = Ok cs /\ In (s, e) cs.
Proof.
  destruct x as [[[l r] e] p]. unfold all_x. rewrite in_concat. split.
  - intros (L & I & J). apply in_map_iff in I as ([l' p'] & <- & I). cbn [fst snd] in J. apply in_concat in J as (L' & K & J). apply in_map_iff in K as ([r' n'] & <- & K). cbn [fst snd] in J.
    unfold xcontribs in J. destruct (lemma_candidate [] l' r') as [cs|] eqn:C; [|destruct J]. apply in_map_iff in J as ([s' e'] & J & M). apply filter_In in M as [M M']. cbn [fst snd] in *. injection J as <- <- <- <- <-.
    split; [exact I|]. split; [apply in_map_iff; exists (r', n'); auto|]. split; [apply negb_true_iff, mem_In_false in M'; exact M'|]. exists cs. split; [exact C|exact M].
  - intros (I & K & M & cs & C & J). apply in_map_iff in K as ([r' n] & E & K). cbn [fst] in E. subst r'. eexists. split; [apply in_map_iff; exists (l, p); split; [reflexivity|exact I]|]. cbn [fst snd].
    apply in_concat. eexists. split; [apply in_map_iff; exists (r, n); split; [reflexivity|exact K]|]. cbn [fst snd]. unfold xcontribs. rewrite C. apply in_map_iff. exists (s, e). split; [reflexivity|].
    apply filter_In. split; [exact J|]. cbn [snd]. apply negb_true_iff, mem_In_false, M.
Qed.
Lemma all_x_NoDup eomis g surfaces : NoDup (dkeys surfaces) -> (forall l, NoDup (map fst (get_r g l (-1)))) -> NoDup (all_x eomis g surfaces).
Proof.
  intros N H. unfold all_x. apply NoDup_concat_map.
  - apply (NoDup_map_inv fst). exact N.
  - intros [l p] _. cbn [fst snd]. apply NoDup_concat_map.
    + apply NoDup_pairs, H.
    + intros [r n] _. cbn [fst snd]. unfold xcontribs. destruct (lemma_candidate [] l r) as [cs|] eqn:C; [|constructor]. apply lemma_candidate_NoDup in C.
      apply FinFun.Injective_map_NoDup; [|apply NoDup_filter, C]. intros [s e] [s' e'] E. cbn [fst snd] in E. injection E as -> ->. reflexivity.
    + intros [r n] [r' n'] z IX IY. cbn [fst snd]. unfold xcontribs. destruct (lemma_candidate [] l r); [|intros []]. destruct (lemma_candidate [] l r'); [|intros _ []].
      intros I J. apply in_map_iff in I as (a1 & <- & _). apply in_map_iff in J as (b1 & E & _). injection E as -> _ _. f_equal. specialize (H l).
      apply (In_dget (V:=Z)) in IX; [|exact H]. apply (In_dget (V:=Z)) in IY; [|exact H]. congruence.
  - intros [l p] [l' p'] z IX IY I J. cbn [fst snd] in *. apply in_concat in I as (L & I & I'), J as (L' & J & J'). apply in_map_iff in I as (rc & <- & _). apply in_map_iff in J as (rc' & <- & _).
    unfold xcontribs in I', J'. destruct (lemma_candidate [] l (fst rc)); [|destruct I']. destruct (lemma_candidate [] l' (fst rc')); [|destruct J'].
    apply in_map_iff in I' as (a1 & <- & _). apply in_map_iff in J' as (b1 & E & _). injection E as -> _ _ -> _. reflexivity.
Qed.
Lemma stem_extract_all ec lm rm g c ignore ms mf : NoDup (map fst (ec_counter ec)) -> (forall e n, dget (ec_counter ec) e = Some n -> 0 < n) -> 1 < lm -> 0 < rm -> train_counter ec lm rm = Ok g ->
  NoDup (st_R c) -> ~ In [] (st_R c) -> (0 < ms)%Q ->
  exists ex D, stem_extract c g ignore ms mf = Ok D /\ NoDup (dkeys D) /\
  NoDup (dkeys ex) /\ (forall l p, dget ex l = Some p <-> stem_surface_of c g ignore lm rm (ec_counter ec) ms mf l p) /\
  let kept := fun l p => dget ex l = Some p /\ ~ removed_surface c (fun a => dget ex a <> None) l in
  (forall l p, dget (fst (stem_post c ex)) l = Some p <-> kept l p) /\
  forall s, exists xs, NoDup xs /\ (forall x, In x xs <-> stem_contribution (st_eomis c) kept lm rm (ec_counter ec) s x) /\
    match dget D s with
    | Some v => xs <> [] /\ (fst v == Qsum (map sc_score xs))%Q /\ (snd v * fst v == Qsum (map (fun x => sc_score x * sc_freq x)%Q xs))%Q
    | None => xs = []
    end.
Proof.
  intros N POS L R E NR NE MS. destruct (trained_uni ec lm rm N L R) as (g0 & E0 & U & O & RL). rewrite E in E0. injection E0 as <-. assert (P : 0 < lm) by lia.
  set (cands := dkeys (stem_candidates c g ignore mf)).
  assert (CN : NoDup cands) by exact (proj1 (stem_candidates_spec c g ignore lm rm _ mf [] P U NR NE)).
  assert (CI : forall l, In l cands <-> stem_candidate (st_L c) (st_R c) ignore lm rm (ec_counter ec) mf l) by (intros l; exact (proj2 (stem_candidates_spec c g ignore lm rm _ mf l P U NR NE))).
  assert (RP : forall l, Forall (fun rc => 0 < snd rc) (get_r g l (-1))).
  { intros l. apply Forall_forall. intros [r n] I. apply (proj2 (uni_rows lm rm _ g l U)) in I as [_ I]. exact (POS _ _ I). }
  destruct (stem_batch_spec c g ms mf cands) as (ex & EB & NX & X).
  { intros l I -> . apply CI in I as (_ & _ & xs & _ & XI & NX & _). destruct xs as [|[r n] xs]; [congruence|]. destruct (proj1 (XI r n) (or_introl eq_refl)) as (_ & (W & _) & _). congruence. }
  { intros l. apply stem_predict_ok, RP. }
  { exact CN. }
  exists ex. set (kept := fun l p => dget ex l = Some p /\ ~ removed_surface c (fun a => dget ex a <> None) l).
  destruct (stem_post_spec c ex NX) as (NP & PK & _). set (surfaces := fst (stem_post c ex)) in *.
  assert (XS : forall l p, dget ex l = Some p <-> stem_surface_of c g ignore lm rm (ec_counter ec) ms mf l p).
  { intros l p. rewrite X, CI. unfold picked, stem_surface_of. split.
    - intros (A & _ & B). split; [exact A|exact B].
    - intros (A & B). split; [exact A|]. split; [exact (proj1 A)|exact B]. }
  assert (SP : forall l p, In (l, p) surfaces -> (0 < fst p)%Q).
  { intros l p I. apply (In_dget (V:=Q * Z)) in I; [|exact NP]. apply PK in I as [I _]. apply XS in I as (_ & _ & _ & _ & _ & I & _). lra. }
  pose proof (to_stem_eq c g surfaces SP) as TE. set (L0 := all_x (st_eomis c) g surfaces) in *.
  assert (LP : Forall (fun xe => (0 < sc_score (fst xe))%Q) L0).
  { apply Forall_forall. intros [[[[l r] e] p] s] I. apply all_x_In in I as (I & _). unfold sc_score. cbn [fst snd]. exact (SP l p I). }
  pose proof (addc_means _ sc_score sc_freq L0 LP) as [DN MI]. rewrite <- TE in DN, MI. clear TE.
  exists (to_stem c g surfaces). split; [unfold stem_extract; fold cands; rewrite EB; reflexivity|]. split; [exact DN|]. split; [exact NX|]. split; [exact XS|]. split; [exact PK|].
  intros s. exists (of_e s L0). split; [apply of_e_NoDup, all_x_NoDup; [exact NP|]; intros l; apply (uni_rows lm rm _ g l U)|]. split.
  - intros [[[l r] e] p]. rewrite of_e_In. unfold L0. rewrite all_x_In. unfold stem_contribution. split.
    + intros (I & J & M & C). split; [apply PK; apply (In_dget (V:=Q * Z)); [exact NP|exact I]|]. apply in_map_iff in J as ([r' n] & Y & J). cbn [fst] in Y. subst r'. apply (proj2 (uni_rows lm rm _ g l U)) in J as [W F]. apply (window_spec lm rm l r P) in W.
      split; [exact W|]. split; [congruence|]. split; [exact M|exact C].
    + intros (I & W & F & M & C). split; [apply dget_In, PK, I|]. split; [|split; [exact M|exact C]]. destruct (dget (ec_counter ec) (l ++ r)) as [n|] eqn:D; [|congruence]. apply in_map_iff. exists (r, n). split; [reflexivity|]. apply (proj2 (uni_rows lm rm _ g l U)). split; [apply (window_spec lm rm l r P), W|exact D].
  - specialize (MI s). destruct (dget (to_stem c g surfaces) s) as [v|]; [|exact MI]. destruct MI as (A & B & C & D). split; [exact A|]. split; [exact C|exact D].
Qed.
