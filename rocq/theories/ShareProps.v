(** * C93: extractors of predicators and the caller's sets and counters *)
From Coq Require Import List ZArith Bool Lia QArith Reals.
Import ListNotations.
From Verif Require Import PyBase PyDict PySort PyText CountLemmas UtilsModel TaggerModel TaggerDictProofs LemmaModel LemmaProofs NounModel JosaModel PredModel ShareModel ShareSpec ShareProofs ShareProofs2.
Open Scope Z_scope.

(** ** the caller's eojeol counters *)
(** after any history the table of a counter has the entries that reached the minimum of every training on it and were never removed *)
Theorem C93_counter_table : forall D P ops r c, reachable D P -> nth_error (cnts P) r = Some c ->
  exists c', nth_error (cnts (prun D P ops)) r = Some c' /\ ec_counter c' = filter (fun wn => forallb (keeps r wn) (plog D P ops)) (ec_counter c).
Proof.
  intros D P ops r c R. apply reachable_valid in R. revert P c R. induction ops as [|op ops IH]; intros P c V C.
  - exists c. split; [exact C|]. cbn [plog forallb]. symmetry. induction (ec_counter c) as [|z l IL]; cbn [filter]; congruence.
  - rewrite prun_cons, plog_cons. destruct (pstep_counter D P op r c V C) as (c1 & C1 & T1 & _). destruct (pstep_shape D P op V) as (_ & _ & _ & V1).
    destruct (IH _ c1 V1 C1) as (c2 & C2 & T2). exists c2. split; [exact C2|]. rewrite T2, T1. clear. induction (ec_counter c) as [|z l IL]; [reflexivity|]. cbn [filter].
    change (forallb (keeps r z) ((op, snd (pstep D P op)) :: plog D (fst (pstep D P op)) ops)) with (keeps r z (op, snd (pstep D P op)) && forallb (keeps r z) (plog D (fst (pstep D P op)) ops)).
    destruct (keeps r z (op, snd (pstep D P op))) eqn:K; cbn [filter andb]; rewrite IL; reflexivity.
Qed.
Print Assumptions C93_counter_table.

(** the sum a counter keeps is that of the table the last training on it left behind; without training it is the one it had *)
Theorem C93_counter_sum : forall D P ops r c c', reachable D P -> nth_error (cnts P) r = Some c -> nth_error (cnts (prun D P ops)) r = Some c' ->
  forallb (fun e => negb (trains r e)) (plog D P ops) = true -> ec_sum c' = ec_sum c.
Proof.
  intros D P ops r c c' R. apply reachable_valid in R. revert P c R. induction ops as [|op ops IH]; intros P c V C C' N.
  - change (prun D P []) with P in C'. congruence.
  - rewrite prun_cons in C'. rewrite plog_cons in N. cbn [forallb] in N. apply andb_true_iff in N as [N1 N2].
    destruct (pstep_counter D P op r c V C) as (c1 & C1 & _ & S1 & _). destruct (pstep_shape D P op V) as (_ & _ & _ & V1).
    rewrite (IH _ c1 V1 C1 C' N2), S1. apply negb_true_iff in N1. rewrite N1. reflexivity.
Qed.
Print Assumptions C93_counter_sum.
Theorem C93_train_sum : forall D P k r m t c c', reachable D P -> nth_error (exts P) k <> None -> nth_error (cnts P) r = Some c ->
  nth_error (cnts (fst (pstep D P (PTrain k r m t)))) r = Some c' ->
  ec_counter c' = filter (fun wn => m <=? snd wn) (ec_counter c) /\ ec_sum c' = zsum (dvals (ec_counter c')) /\ ec_coverage c' = ec_coverage c.
Proof.
  intros D P k r m t c c' R X C C'. apply reachable_valid in R. destruct (nth_error (exts P) k) as [x|] eqn:EX; [|contradiction].
  destruct (pstep_counter D P (PTrain k r m t) r c R C) as (c1 & C1 & T1 & S1 & V1). assert (c1 = c') as -> by congruence.
  destruct (px_train_spec P k r m t x c EX C) as (es & st & _ & _ & _ & NI & _). { apply (proj1 (R k x EX)). right. right. right. reflexivity. }
  assert (TT : trains r (PTrain k r m t, snd (pstep D P (PTrain k r m t))) = true). { cbn [pstep]. unfold trains. rewrite Nat.eqb_refl. destruct (snd (px_train P k r m t)); [reflexivity|reflexivity|reflexivity|congruence]. }
  rewrite TT in S1. split; [|split; [exact S1|destruct V1 as [V1|(es' & Q & _)]; [exact V1|discriminate]]].
  rewrite T1. apply filter_ext. intros wn. cbn [pstep]. unfold keeps. rewrite Nat.eqb_refl. cbn [negb orb]. destruct (snd (px_train P k r m t)); [reflexivity|reflexivity|reflexivity|congruence].
Qed.
Print Assumptions C93_train_sum.
(** the coverage changes only when covered eojeols are removed, and is then relative to that sum *)
Theorem C93_coverage : forall D P op r c c', reachable D P -> nth_error (cnts P) r = Some c -> nth_error (cnts (fst (pstep D P op))) r = Some c' ->
  ec_coverage c' = ec_coverage c \/ exists es, op = PCover r es /\ snd (pstep D P op) = Done /\ ec_coverage c' = (1 - inject_Z (zsum (dvals (ec_counter c'))) / inject_Z (ec_sum c'))%Q.
Proof.
  intros D P op r c c' R C C'. apply reachable_valid in R. destruct (pstep_counter D P op r c R C) as (c1 & C1 & _ & _ & V1). assert (c1 = c') as -> by congruence. exact V1.
Qed.
Print Assumptions C93_coverage.

(** ** the caller's sets *)
(** a set object never loses a word, and only the caller and trainings of extractors that were given it and learn endings add to it *)
Theorem C93_sets : forall D P op r, reachable D P -> (r < length (sets P))%nat ->
  incl (set_at P r) (set_at (fst (pstep D P op)) r) /\ (~ adds_to P r op -> set_at (fst (pstep D P op)) r = set_at P r).
Proof. intros D P op r R L. apply pstep_sets; [apply (reachable_valid D), R|exact L]. Qed.
Print Assumptions C93_sets.
Theorem C93_sets_grow : forall D P ops r w, reachable D P -> (r < length (sets P))%nat -> In w (set_at P r) -> In w (set_at (prun D P ops) r).
Proof.
  intros D P ops r w R L. apply reachable_valid in R. revert P R L. induction ops as [|op ops IH]; intros P V L W; [exact W|]. rewrite prun_cons.
  destruct (pstep_shape D P op V) as (L1 & _ & _ & V1). apply IH; [exact V1|lia|]. apply (proj1 (pstep_sets D P op r V L)), W.
Qed.
Print Assumptions C93_sets_grow.

(** ** construction *)
Theorem C93_new : forall D P nouns j a v e ee es, reachable D P -> known P j && known P a && known P v && known P e = true ->
  let P' := fst (pstep D P (PNew nouns j a v e ee es)) in
  exists x, exts P' = exts P ++ [x] /\ x_counter x = None /\ cnts P' = cnts P /\ (forall r, (r < length (sets P))%nat -> set_at P' r = set_at P r) /\
    conf_of P' x = pred_new nouns
      (match j with Some r => match set_at P r with [] => d_josas D | s => s end | None => d_josas D end)
      (match a, v with Some r, Some _ => set_at P r | _, _ => d_adj D end) (match a, v with Some _, Some r => set_at P r | _, _ => d_verb D end)
      (match e with Some r => set_at P r | None => d_eomis D end) /\
    (* the set of endings is the caller's own object, or one that nobody else holds *)
    match e with
    | Some r => x_eomis x = r
    | None => (length (sets P) <= x_eomis x)%nat /\ x_eomis x <> x_josas x /\ x_eomis x <> x_adj x /\ x_eomis x <> x_verb x /\
              forall k y, nth_error (exts P) k = Some y -> ~ holds y (x_eomis x)
    end.
Proof.
  intros D P nouns j a v e ee es R K P'. apply reachable_valid in R. unfold P'. cbn [pstep]. rewrite K. cbn [fst].
  destruct (px_new_spec D P nouns j a v e ee es K) as (x & new & E & XC & _ & _ & _ & IE & _ & NE & CF). exists x. rewrite E in CF |- *. cbn [exts cnts]. split; [reflexivity|]. split; [exact XC|]. split; [reflexivity|].
  split; [intros r L; unfold set_at; cbn [sets]; apply app_nth1, L|]. split; [exact CF|].
  destruct e as [r|].
  - apply andb_true_iff in K as [_ K]. cbn [known] in K. apply Nat.ltb_lt in K. symmetry. apply IE; [exact K|reflexivity].
  - assert (LE : (length (sets P) <= x_eomis x)%nat). { destruct (Nat.lt_ge_cases (x_eomis x) (length (sets P))) as [L|L]; [|exact L]. pose proof (proj1 (IE _ L) eq_refl). discriminate. }
    split; [exact LE|]. split; [intros Q; exact (NE (or_introl Q) eq_refl)|]. split; [intros Q; exact (NE (or_intror (or_introl Q)) eq_refl)|]. split; [intros Q; exact (NE (or_intror (or_intror Q)) eq_refl)|].
    intros k y Y H. pose proof (proj1 (R k y Y) _ H). lia.
Qed.
Print Assumptions C93_new.

(** ** training and extraction agree with the extractor described by value, whatever is shared *)
Theorem C93_train : forall D P k r m t x c, reachable D P -> nth_error (exts P) k = Some x -> nth_error (cnts P) r = Some c ->
  let P' := fst (pstep D P (PTrain k r m t)) in
  exists x', nth_error (exts P') k = Some x' /\ x_counter x' = Some r /\ table_of P' x' = train_eojeols (ec_counter c) m /\
    x_josas x' = x_josas x /\ x_adj x' = x_adj x /\ x_verb x' = x_verb x /\ x_eomis x' = x_eomis x /\ x_nouns x' = x_nouns x /\
    match pred_learn (conf_of P x) (train_eojeols (ec_counter c) m) (x_ee x) (x_es x) (tp_mnf t) (tp_ems t) (tp_emf t) (tp_min_char t) (tp_min_entropy t) (tp_sms t) (tp_smf t) with
    | Ok c' => snd (pstep D P (PTrain k r m t)) = Done /\ set_at P' (x_eomis x') = p_eomis c' /\ x_stems x' = p_stems c' /\
               (x_eomis x <> x_josas x -> x_eomis x <> x_adj x -> x_eomis x <> x_verb x -> conf_of P' x' = c')
    | Err e => snd (pstep D P (PTrain k r m t)) = Raised e
    end.
Proof.
  intros D P k r m t x c R X C P'. apply reachable_valid in R. assert (XL : (x_eomis x < length (sets P))%nat) by (apply (proj1 (R k x X)); right; right; right; reflexivity).
  destruct (px_train_spec P k r m t x c X C XL) as (es & st & E & _ & _ & _ & M). unfold P'. cbn [pstep]. rewrite E.
  set (x' := with_stems (with_counter x r) (setupdate (x_stems x) st)).
  assert (KL : (k < length (exts P))%nat) by (apply nth_error_Some; congruence). assert (RL : (r < length (cnts P))%nat) by (apply nth_error_Some; congruence).
  exists x'. cbn [exts]. rewrite upd_nth_error, Nat.eqb_refl, (proj2 (Nat.ltb_lt _ _) KL). cbn [andb]. split; [reflexivity|]. split; [reflexivity|].
  split. { unfold table_of. cbn [x' with_stems with_counter x_counter cnts]. rewrite upd_nth, Nat.eqb_refl, (proj2 (Nat.ltb_lt _ _) RL). reflexivity. }
  split; [reflexivity|]. split; [reflexivity|]. split; [reflexivity|]. split; [reflexivity|]. split; [reflexivity|].
  destruct (pred_learn (conf_of P x) (train_eojeols (ec_counter c) m) (x_ee x) (x_es x) (tp_mnf t) (tp_ems t) (tp_emf t) (tp_min_char t) (tp_min_entropy t) (tp_sms t) (tp_smf t)) as [c'|e]; [|exact M].
  destruct M as (M0 & M1 & M2 & M3 & M4 & M5 & M6). split; [exact M0|].
  assert (SA : forall q, set_at (mkPool (upd (sets P) (x_eomis x) (setupdate (set_at P (x_eomis x)) es)) (upd (cnts P) r (prune c m)) (upd (exts P) k x')) q
     = if (x_eomis x =? q)%nat then p_eomis c' else set_at P q).
  { intros q. unfold set_at at 1. cbn [sets]. rewrite upd_nth, (proj2 (Nat.ltb_lt _ _) XL), andb_true_r, M1. reflexivity. }
  rewrite SA. change (x_eomis x') with (x_eomis x). rewrite Nat.eqb_refl. split; [reflexivity|]. split; [symmetry; exact M2|].
  intros N1 N2 N3. unfold conf_of. rewrite !SA. change (x_eomis x') with (x_eomis x). change (x_josas x') with (x_josas x). change (x_adj x') with (x_adj x). change (x_verb x') with (x_verb x). change (x_nouns x') with (x_nouns x).
  rewrite Nat.eqb_refl, (proj2 (Nat.eqb_neq _ _) N1), (proj2 (Nat.eqb_neq _ _) N2), (proj2 (Nat.eqb_neq _ _) N3). rewrite <- M3, <- M4, <- M5, <- M6. change (x_stems x') with (setupdate (x_stems x) st). rewrite <- M2. destruct c'; reflexivity.
Qed.
Print Assumptions C93_train.

Theorem C93_extract : forall D P k cands mf x, reachable D P -> nth_error (exts P) k = Some x ->
  let P' := fst (pstep D P (PExtract k cands mf)) in let o := snd (pstep D P (PExtract k cands mf)) in
  (* the result *)
  (x_counter x = None -> cands = [] -> o = Raised AttributeError /\ P' = P) /\
  (x_counter x <> None \/ cands <> [] ->
   match pred_extract (conf_of P x) (table_of P x) cands mf with
   | Ok (c', (a, v), _) => o = Tables a v /\ exists x', nth_error (exts P') k = Some x' /\ conf_of P' x' = c' /\ x_counter x' = x_counter x /\
       (* from now on nobody else holds the set of endings *)
       (length (sets P) <= x_eomis x')%nat /\ (forall q, q = x_josas x' \/ q = x_adj x' \/ q = x_verb x' -> q <> x_eomis x') /\ forall j y, j <> k -> nth_error (exts P') j = Some y -> ~ holds y (x_eomis x')
   | Err e => o = Raised e
   end) /\
  (* nothing of the caller's, and no other extractor, changes *)
  cnts P' = cnts P /\ (forall r, (r < length (sets P))%nat -> set_at P' r = set_at P r) /\ (forall j, j <> k -> nth_error (exts P') j = nth_error (exts P) j).
Proof.
  intros D P k cands mf x R X. apply reachable_valid in R. intros P' o. cbn [pstep] in P', o. destruct (px_extract_spec P k cands mf x X) as [S1 S2].
  split. { intros C1 C2. unfold P', o. rewrite (S1 C1 C2). split; reflexivity. }
  assert (DEC : (x_counter x = None /\ cands = []) \/ (x_counter x <> None \/ cands <> [])).
  { destruct (x_counter x); [right; left; discriminate|]. destruct cands; [left; split; reflexivity|right; right; discriminate]. }
  destruct DEC as [[C1 C2]|CC].
  { unfold P', o. rewrite (S1 C1 C2). cbn [fst]. split; [intros [H|H]; contradiction|]. repeat split; reflexivity. }
  destruct (S2 CC) as [(e & A & E)|(s & E & _ & M)].
  - split. { intros _. unfold pred_extract. rewrite A. cbn [bind]. unfold o. rewrite E. reflexivity. }
    unfold P'. rewrite E. cbn [fst]. repeat split; reflexivity.
  - assert (KL : (k < length (exts P))%nat) by (apply nth_error_Some; congruence).
    assert (F : cnts P' = cnts P /\ (forall r, (r < length (sets P))%nat -> set_at P' r = set_at P r) /\ (forall j, j <> k -> nth_error (exts P') j = nth_error (exts P) j)).
    { unfold P'. rewrite E. cbn [cnts exts]. split; [reflexivity|]. split; [intros r L; unfold set_at; cbn [sets]; apply app_nth1, L|].
      intros j J. rewrite upd_nth_error. destruct (Nat.eqb_spec k j); [congruence|reflexivity]. }
    split; [|exact F]. intros _. destruct (pred_extract (conf_of P x) (table_of P x) cands mf) as [[[c' [a v]] cov]|e]; [|exact M].
    destruct M as (M0 & M1 & M2 & M3 & M4 & M5 & M6). split; [exact M1|]. exists (with_eomis x (length (sets P))).
    destruct F as (F1 & F2 & F3). split. { unfold P'. rewrite E. cbn [exts]. rewrite upd_nth_error, Nat.eqb_refl, (proj2 (Nat.ltb_lt _ _) KL). reflexivity. }
    destruct (R k x X) as [V1 _].
    split.
    { unfold conf_of. cbn [with_eomis x_josas x_adj x_verb x_eomis x_stems x_nouns]. rewrite !F2 by (apply V1; unfold holds; tauto).
      assert (SA : set_at P' (length (sets P)) = s). { unfold P'. rewrite E. unfold set_at. cbn [sets]. rewrite app_nth2 by lia. rewrite Nat.sub_diag. reflexivity. }
      rewrite SA, M0, <- M2, <- M3, <- M4, <- M5, <- M6. destruct c'; reflexivity. }
    split; [reflexivity|]. cbn [with_eomis x_eomis x_josas x_adj x_verb]. split; [lia|]. split.
    { intros q Q. assert ((q < length (sets P))%nat) by (apply V1; unfold holds; tauto). lia. }
    intros j y J Y H. rewrite F3 in Y by exact J. pose proof (proj1 (R j y Y) _ H). lia.
Qed.
Print Assumptions C93_extract.

(** ** an extractor is affected by nothing but operations on itself and on the objects it holds *)
Lemma foreign_step D P k op x : valid P -> foreign P k op -> nth_error (exts P) k = Some x ->
  nth_error (exts (fst (pstep D P op))) k = Some x /\ conf_of (fst (pstep D P op)) x = conf_of P x /\ table_of (fst (pstep D P op)) x = table_of P x.
Proof.
  intros V (y & Y & A & M) X. assert (y = x) as -> by congruence. destruct (V k x X) as [V1 V2].
  split. { apply pstep_exts; [exact V|exact X|intros ? ? ? ->|intros ? ? ->]; cbn in M; tauto. }
  split.
  { assert (SA : forall r, holds x r -> set_at (fst (pstep D P op)) r = set_at P r) by (intros r H; exact (proj2 (pstep_sets D P op r V (V1 r H)) (A r H))).
    unfold conf_of. rewrite !SA by (unfold holds; tauto). reflexivity. }
  unfold table_of. destruct (x_counter x) as [r|] eqn:XC; [|reflexivity]. specialize (V2 r eq_refl).
  destruct (nth_error (cnts P) r) as [c|] eqn:C; [|apply nth_error_None in C; lia].
  destruct (pstep_counter D P op r c V C) as (c' & C' & T & _). rewrite (nth_error_nth _ _ _ C'), (nth_error_nth _ _ _ C), T.
  assert (K : forall wn, keeps r wn (op, snd (pstep D P op)) = true).
  { intros wn. unfold keeps. destruct op as [nouns j a v e ee es|k' r' m t|k' cands mf|r' es|r' ws]; destruct (snd (pstep D P _)); try reflexivity.
    all: destruct (Nat.eqb_spec r' r) as [->|]; [|reflexivity]; exfalso; cbn in M; tauto. }
  rewrite (filter_ext _ (fun _ => true)) by exact K. clear. induction (ec_counter c) as [|z l IH]; cbn [filter]; congruence.
Qed.
Lemma foreign_run D k ops : forall P x, valid P -> all_foreign D P k ops -> nth_error (exts P) k = Some x ->
  valid (prun D P ops) /\ nth_error (exts (prun D P ops)) k = Some x /\ conf_of (prun D P ops) x = conf_of P x /\ table_of (prun D P ops) x = table_of P x.
Proof.
  induction ops as [|op ops IH]; intros P x V F X; [auto|]. cbn [all_foreign] in F. destruct F as [F1 F2]. rewrite prun_cons.
  destruct (foreign_step D P k op x V F1 X) as (X1 & E1 & E2). destruct (pstep_shape D P op V) as (_ & _ & _ & V1).
  destruct (IH _ x V1 F2 X1) as (W & X2 & G1 & G2). split; [exact W|]. split; [exact X2|]. split; congruence.
Qed.
Lemma extract_outcome P k cands mf x : nth_error (exts P) k = Some x ->
  snd (px_extract P k cands mf) = match cands, x_counter x with
    | [], None => Raised AttributeError
    | _, _ => match pred_extract (conf_of P x) (table_of P x) cands mf with Ok (_, (a, v), _) => Tables a v | Err e => Raised e end
    end.
Proof.
  intros X. destruct (px_extract_spec P k cands mf x X) as [S1 S2].
  assert (DEC : (x_counter x = None /\ cands = []) \/ (x_counter x <> None \/ cands <> [])).
  { destruct (x_counter x); [right; left; discriminate|]. destruct cands; [left; split; reflexivity|right; right; discriminate]. }
  destruct DEC as [[C1 C2]|CC]; [rewrite (S1 C1 C2), C1, C2; reflexivity|].
  assert (R : (match cands, x_counter x with [], None => Raised AttributeError | _, _ => match pred_extract (conf_of P x) (table_of P x) cands mf with Ok (_, (a, v), _) => Tables a v | Err e => Raised e end end)
    = match pred_extract (conf_of P x) (table_of P x) cands mf with Ok (_, (a, v), _) => Tables a v | Err e => Raised e end).
  { destruct cands; [|reflexivity]. destruct (x_counter x); [reflexivity|]. destruct CC; congruence. }
  rewrite R. destruct (S2 CC) as [(e & A & E)|(s & E & _ & M)].
  - rewrite E. unfold pred_extract. rewrite A. reflexivity.
  - destruct (pred_extract (conf_of P x) (table_of P x) cands mf) as [[[c' [a v]] cov]|e]; [exact (proj1 (proj2 M))|exact M].
Qed.
Theorem C93_foreign : forall D P k ops x, reachable D P -> nth_error (exts P) k = Some x -> all_foreign D P k ops ->
  nth_error (exts (prun D P ops)) k = Some x /\ conf_of (prun D P ops) x = conf_of P x /\ table_of (prun D P ops) x = table_of P x /\
  (forall cands mf, snd (pstep D (prun D P ops) (PExtract k cands mf)) = snd (pstep D P (PExtract k cands mf))) /\
  (forall r m t c, x_counter x = Some r -> nth_error (cnts P) r = Some c -> snd (pstep D (prun D P ops) (PTrain k r m t)) = snd (pstep D P (PTrain k r m t))).
Proof.
  intros D P k ops x R X F. apply reachable_valid in R. destruct (foreign_run D k ops P x R F X) as (W & X2 & G1 & G2).
  split; [exact X2|]. split; [exact G1|]. split; [exact G2|]. split.
  - intros cands mf. cbn [pstep]. rewrite (extract_outcome _ k cands mf x X2), (extract_outcome _ k cands mf x X), G1, G2. reflexivity.
  - intros r m t c XC C. cbn [pstep].
    assert (XL : forall Q, valid Q -> nth_error (exts Q) k = Some x -> (x_eomis x < length (sets Q))%nat) by (intros Q V XQ; apply (proj1 (V k x XQ)); unfold holds; tauto).
    destruct (W k x X2) as [_ W2]. specialize (W2 r XC). destruct (nth_error (cnts (prun D P ops)) r) as [c2|] eqn:C2; [|apply nth_error_None in C2; lia].
    destruct (px_train_spec _ k r m t x c X C (XL P R X)) as (e1 & s1 & _ & _ & _ & _ & M1).
    destruct (px_train_spec _ k r m t x c2 X2 C2 (XL _ W X2)) as (e2 & s2 & _ & _ & _ & _ & M2).
    assert (T : ec_counter c2 = ec_counter c). { unfold table_of in G2. rewrite XC in G2. rewrite (nth_error_nth _ _ _ C2), (nth_error_nth _ _ _ C) in G2. exact G2. }
    rewrite T, G1 in M2.
    destruct (pred_learn (conf_of P x) (train_eojeols (ec_counter c) m) (x_ee x) (x_es x) (tp_mnf t) (tp_ems t) (tp_emf t) (tp_min_char t) (tp_min_entropy t) (tp_sms t) (tp_smf t)) as [c'|e].
    + rewrite (proj1 M1), (proj1 M2). reflexivity.
    + rewrite M1, M2. reflexivity.
Qed.
Print Assumptions C93_foreign.

(** ** what sharing does *)
Definition sD : dflts := mkDflts [u "이"] [] [] [u "다"].
Definition sT (ee : Z) : tparams := mkTparams ee (3 # 10) 1 10 0%R (7 # 10) 100.
(** the caller's sets: adjectives, verbs, endings; two extractors that were given all of them; one counter *)
Definition sP (ee : bool) : pool :=
  prun sD (mkPool [[]; [u "먹"; u "잡"]; [u "고"]] [mkCounter [(u "먹는다", 5); (u "잡는다", 3); (u "먹고", 2)]] [])
    [PNew [u "사람"] None (Some 0%nat) (Some 1%nat) (Some 2%nat) false false; PNew [u "사람"] None (Some 0%nat) (Some 1%nat) (Some 2%nat) ee false; PTrain 0 0 1 (sT 1)].
Lemma sP_reachable ee : reachable sD (sP ee).
Proof. eexists _, _, _. unfold sP. reflexivity. Qed.

(** training another extractor on the counter with a higher minimum takes words away from the first one *)
Theorem C93_shared_counter_refuted : exists D P k j r m t a v a' v' w, reachable D P /\ k <> j /\
  snd (pstep D P (PExtract k [] 1)) = Tables a v /\ dget v w <> None /\
  snd (pstep D (prun D P [PTrain j r m t]) (PExtract k [] 1)) = Tables a' v' /\ dget v' w = None /\ dget a' w = None.
Proof.
  exists sD, (sP false), 0%nat, 1%nat, 0%nat, 3, (sT 1), [], [(u "먹고", (2, [(u "먹", u "고")]))], [], [], (u "먹고").
  split; [apply sP_reachable|]. split; [discriminate|]. repeat (split; [vm_compute; first [reflexivity|discriminate]|]). vm_compute. reflexivity.
Qed.
Print Assumptions C93_shared_counter_refuted.
(** the endings another extractor learns become endings of the first one, and elements of the caller's set *)
Theorem C93_shared_set_refuted : exists D P k j r m t a v a' v' w, reachable D P /\ k <> j /\
  snd (pstep D P (PExtract k [] 1)) = Tables a v /\ dget v w = None /\
  snd (pstep D (prun D P [PTrain j r m t]) (PExtract k [] 1)) = Tables a' v' /\ dget v' w <> None /\
  In (u "는다") (set_at (prun D P [PTrain j r m t]) 2) /\ ~ In (u "는다") (set_at P 2).
Proof.
  exists sD, (sP true), 0%nat, 1%nat, 0%nat, 1, (sT 1), [], [(u "먹고", (2, [(u "먹", u "고")]))], [],
    [(u "먹는다", (5, [(u "먹", u "는다")])); (u "잡는다", (3, [(u "잡", u "는다")])); (u "먹고", (2, [(u "먹", u "고")]))], (u "먹는다").
  split; [apply sP_reachable|]. split; [discriminate|]. repeat (split; [vm_compute; first [reflexivity|discriminate]|]).
  split; [vm_compute; right; left; reflexivity|]. vm_compute. intros [H|[]]. discriminate.
Qed.
Print Assumptions C93_shared_set_refuted.
(** after an extraction the first extractor no longer sees what the second learns *)
Theorem C93_after_extract_refuted : exists D P k j r m t w, reachable D P /\ k <> j /\
  (exists x y, nth_error (exts P) k = Some x /\ nth_error (exts P) j = Some y /\ x_eomis x = x_eomis y) /\
  (exists a v, snd (pstep D (prun D P [PTrain j r m t]) (PExtract k [] 1)) = Tables a v /\ dget v w <> None) /\
  (exists a v, snd (pstep D (prun D P [PExtract k [] 1; PTrain j r m t]) (PExtract k [] 1)) = Tables a v /\ dget v w = None).
Proof.
  exists sD, (sP true), 0%nat, 1%nat, 0%nat, 1, (sT 1), (u "먹는다"). split; [apply sP_reachable|]. split; [discriminate|].
  split; [eexists _, _; split; [vm_compute; reflexivity|]; split; [vm_compute; reflexivity|]; reflexivity|]. split.
  - exists [], [(u "먹는다", (5, [(u "먹", u "는다")])); (u "잡는다", (3, [(u "잡", u "는다")])); (u "먹고", (2, [(u "먹", u "고")]))]. split; vm_compute; [reflexivity|discriminate].
  - exists [], [(u "먹고", (2, [(u "먹", u "고")]))]. split; vm_compute; reflexivity.
Qed.
Print Assumptions C93_after_extract_refuted.
(** a training sets the sum anew, so that the coverage can fall while words are only removed *)
Theorem C93_coverage_falls_refuted : exists D P r es k m t c1 c2, reachable D P /\
  nth_error (cnts (prun D P [PCover r es])) r = Some c1 /\ nth_error (cnts (prun D P [PCover r es; PTrain k r m t; PCover r es])) r = Some c2 /\
  (ec_coverage c2 < ec_coverage c1)%Q.
Proof.
  exists sD, (sP false), 0%nat, [u "먹는다"], 0%nat, 1, (sT 1), (mkEc [(u "잡는다", 3); (u "먹고", 2)] 10 (1 - 5 / 10)%Q), (mkEc [(u "잡는다", 3); (u "먹고", 2)] 5 (1 - 5 / 5)%Q).
  split; [apply sP_reachable|]. split; [vm_compute; reflexivity|]. split; [vm_compute; reflexivity|]. vm_compute. reflexivity.
Qed.
Print Assumptions C93_coverage_falls_refuted.

(** ** the hypotheses are met *)
Example C93_ex_foreign : exists x, nth_error (exts (prun sD (sP true) [PExtract 0 [] 1])) 0 = Some x /\
  all_foreign sD (prun sD (sP true) [PExtract 0 [] 1]) 0 [PUpdate 2 [u "면"]; PExtract 1 [(u "먹고", 1)] 1; PNew [] None None None None true false] /\
  snd (pstep sD (prun sD (sP true) [PExtract 0 [] 1]) (PExtract 0 [] 1)) = Tables [] [(u "먹고", (2, [(u "먹", u "고")]))].
Proof.
  eexists. split; [vm_compute; reflexivity|]. split; [|vm_compute; reflexivity]. cbn [all_foreign]. repeat split.
  - eexists. split; [vm_compute; reflexivity|]. split; [|exact Logic.I]. intros r H A. cbn in A. subst r. unfold holds in H. cbn [x_josas x_adj x_verb x_eomis] in H. lia.
  - eexists. split; [vm_compute; reflexivity|]. split; [|discriminate]. intros r H A. exact A.
  - eexists. split; [vm_compute; reflexivity|]. split; [|exact Logic.I]. intros r H A. exact A.
Qed.
Example C93_ex_table : nth_error (cnts (prun sD (sP false) [PTrain 1 0 3 (sT 1); PCover 0 [u "잡는다"]])) 0 = Some (mkEc [(u "먹는다", 5)] 8 (1 - 5 / 8)%Q).
Proof. vm_compute. reflexivity. Qed.
