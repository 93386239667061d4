(** * Effects of one operation on the objects of a pool *)
From Coq Require Import List ZArith Bool Lia QArith Reals.
Import ListNotations.
From Verif Require Import PyBase PyDict PySort PyText CountLemmas UtilsModel TaggerModel TaggerDictProofs LemmaModel LemmaProofs NounModel JosaModel PredModel ShareModel ShareSpec ShareProofs.
Open Scope Z_scope.

Lemma upd_in {A} (l : list A) i x y j : nth_error (upd l i x) j = Some y -> (j = i /\ y = x) \/ nth_error l j = Some y.
Proof. rewrite upd_nth_error. destruct (Nat.eqb_spec i j) as [->|]; cbn [andb]; [|tauto]. destruct (j <? length l)%nat; [|tauto]. intros E. left. split; congruence. Qed.

Ltac same := cbn [fst]; split; [lia|]; split; [reflexivity|]; split; [lia|assumption].
Lemma pstep_shape D P op : valid P ->
  (length (sets P) <= length (sets (fst (pstep D P op))))%nat /\ length (cnts (fst (pstep D P op))) = length (cnts P) /\
  (length (exts P) <= length (exts (fst (pstep D P op))))%nat /\ valid (fst (pstep D P op)).
Proof.
  intros V. destruct op as [nouns j a v e ee es|k r m t|k cands mf|r es|r ws]; cbn [pstep].
  - destruct (known P j && known P a && known P v && known P e) eqn:K; [|same]. cbn [fst].
    destruct (px_new_spec D P nouns j a v e ee es K) as (x & new & E & XC & _ & _ & H & _). rewrite E. cbn [sets cnts exts]. rewrite !app_length. cbn [length].
    split; [lia|]. split; [reflexivity|]. split; [lia|]. intros k y Y. cbn [exts] in Y. unfold valid_px. cbn [sets cnts]. rewrite app_length in *.
    destruct (Nat.lt_ge_cases k (length (exts P))) as [L|L].
    + rewrite nth_error_app1 in Y by assumption. destruct (V k y Y) as [V1 V2]. split; [|exact V2]. intros r R. specialize (V1 r R). lia.
    + rewrite nth_error_app2 in Y by assumption. destruct (k - length (exts P))%nat as [|n]; cbn [nth_error] in Y; [|destruct n; discriminate].
      assert (y = x) as -> by congruence. split; [exact H|]. intros r R. congruence.
  - destruct (nth_error (exts P) k) as [x|] eqn:X; [|unfold px_train; rewrite X; same].
    destruct (nth_error (cnts P) r) as [c|] eqn:C; [|unfold px_train; rewrite X, C; same].
    destruct (V k x X) as [V1 V2].
    destruct (px_train_spec P k r m t x c X C) as (es & st & E & _). { apply V1. right. right. right. reflexivity. }
    rewrite E. cbn [sets cnts exts]. rewrite !upd_length. split; [lia|]. split; [reflexivity|]. split; [lia|]. intros i y Y. cbn [exts] in Y. unfold valid_px. cbn [sets cnts]. rewrite !upd_length.
    apply upd_in in Y as [(_ & ->)|Y]; [|exact (V i y Y)]. split.
    + intros q [Q|[Q|[Q|Q]]]; apply V1; [left|right; left|right; right; left|right; right; right]; exact Q.
    + intros q Q. cbn [with_stems with_counter x_counter] in Q. assert (q = r) as -> by congruence. apply nth_error_Some. congruence.
  - destruct (nth_error (exts P) k) as [x|] eqn:X; [|unfold px_extract; rewrite X; same].
    destruct (V k x X) as [V1 V2]. destruct (px_extract_spec P k cands mf x X) as [S1 S2].
    assert (DEC : (x_counter x = None /\ cands = []) \/ (x_counter x <> None \/ cands <> [])).
    { destruct (x_counter x); [right; left; discriminate|]. destruct cands; [left; split; reflexivity|right; right; discriminate]. }
    destruct DEC as [[C1 C2]|C]; [rewrite (S1 C1 C2); same|].
    destruct (S2 C) as [(e & _ & E)|(s & E & _)]; rewrite E; cbn [fst sets cnts exts]; [same|]. rewrite app_length, upd_length. cbn [length].
    split; [lia|]. split; [reflexivity|]. split; [lia|]. intros i y Y. cbn [exts] in Y. unfold valid_px. cbn [sets cnts]. rewrite app_length. cbn [length].
    apply upd_in in Y as [(_ & ->)|Y].
    + split; [|intros q Q; apply V2; exact Q]. intros q [Q|[Q|[Q|Q]]]; cbn [with_eomis x_josas x_adj x_verb x_eomis] in Q; [| | |lia].
      * assert (Q' : (q < length (sets P))%nat) by (apply V1; left; exact Q). lia.
      * assert (Q' : (q < length (sets P))%nat) by (apply V1; right; left; exact Q). lia.
      * assert (Q' : (q < length (sets P))%nat) by (apply V1; right; right; left; exact Q). lia.
    + destruct (V i y Y) as [W1 W2]. split; [|exact W2]. intros q Q. specialize (W1 q Q). lia.
  - destruct (nth_error (cnts P) r) as [c|] eqn:C; [|same]. destruct (remove_covered c es) as [c' e]. cbn [fst put_counter sets cnts exts]. rewrite upd_length.
    split; [lia|]. split; [reflexivity|]. split; [lia|]. intros i y Y. cbn [put_counter exts] in Y. destruct (V i y Y) as [W1 W2]. unfold valid_px. cbn [put_counter sets cnts]. rewrite upd_length. split; assumption.
  - destruct (known P (Some r)); [|same]. cbn [fst put_set sets cnts exts]. rewrite upd_length.
    split; [lia|]. split; [reflexivity|]. split; [lia|]. intros i y Y. cbn [put_set exts] in Y. destruct (V i y Y) as [W1 W2]. unfold valid_px. cbn [put_set sets cnts]. rewrite upd_length. split; assumption.
Qed.

Lemma prun_cons D P op ops : prun D P (op :: ops) = prun D (fst (pstep D P op)) ops.
Proof. reflexivity. Qed.
Lemma prun_app D P ops1 ops2 : prun D P (ops1 ++ ops2) = prun D (prun D P ops1) ops2.
Proof. unfold prun. apply fold_left_app. Qed.
Lemma plog_cons D P op ops : plog D P (op :: ops) = (op, snd (pstep D P op)) :: plog D (fst (pstep D P op)) ops.
Proof. cbn [plog]. destruct (pstep D P op); reflexivity. Qed.
Lemma prun_valid D ops : forall P, valid P -> valid (prun D P ops).
Proof. induction ops as [|op ops IH]; intros P V; [exact V|]. rewrite prun_cons. apply IH. destruct (pstep_shape D P op V) as (_ & _ & _ & H). exact H. Qed.
Lemma start_valid ss cs : valid (mkPool ss cs []).
Proof. intros k x X. cbn [exts] in X. destruct k; discriminate. Qed.
Lemma reachable_valid D P : reachable D P -> valid P.
Proof. intros (ss & cs & ops & ->). apply prun_valid, start_valid. Qed.

(** the counters after one operation *)
Lemma pstep_counter D P op r c : valid P -> nth_error (cnts P) r = Some c ->
  exists c', nth_error (cnts (fst (pstep D P op))) r = Some c' /\
    ec_counter c' = filter (fun wn => keeps r wn (op, snd (pstep D P op))) (ec_counter c) /\
    ec_sum c' = (if trains r (op, snd (pstep D P op)) then zsum (dvals (ec_counter c')) else ec_sum c) /\
    (ec_coverage c' = ec_coverage c \/ exists es, op = PCover r es /\ snd (pstep D P op) = Done /\ ec_coverage c' = (1 - inject_Z (zsum (dvals (ec_counter c'))) / inject_Z (ec_sum c'))%Q).
Proof.
  intros V C.
  assert (FT : forall l : list (str * Z), filter (fun _ => true) l = l) by (induction l as [|z l IH]; cbn [filter]; congruence).
  assert (SAME : cnts (fst (pstep D P op)) = cnts P -> (forall wn, keeps r wn (op, snd (pstep D P op)) = true) -> trains r (op, snd (pstep D P op)) = false ->
    exists c', nth_error (cnts (fst (pstep D P op))) r = Some c' /\ ec_counter c' = filter (fun wn => keeps r wn (op, snd (pstep D P op))) (ec_counter c) /\
      ec_sum c' = (if trains r (op, snd (pstep D P op)) then zsum (dvals (ec_counter c')) else ec_sum c) /\
      (ec_coverage c' = ec_coverage c \/ exists es, op = PCover r es /\ snd (pstep D P op) = Done /\ ec_coverage c' = (1 - inject_Z (zsum (dvals (ec_counter c'))) / inject_Z (ec_sum c'))%Q)).
  { intros E K T. exists c. rewrite E, T. split; [exact C|]. split; [|split; [reflexivity|left; reflexivity]]. rewrite (filter_ext _ (fun _ => true)) by exact K. symmetry. apply FT. }
  destruct op as [nouns j a v e ee es|k r' m t|k cands mf|r' es|r' ws].
  - apply SAME.
    + cbn [pstep]. destruct (known P j && known P a && known P v && known P e) eqn:K; [|reflexivity]. cbn [fst].
      destruct (px_new_spec D P nouns j a v e ee es K) as (x & new & E & _). rewrite E. reflexivity.
    + intros wn. unfold keeps. destruct (snd (pstep D P (PNew nouns j a v e ee es))); reflexivity.
    + unfold trains. destruct (snd (pstep D P (PNew nouns j a v e ee es))); reflexivity.
  - cbn [pstep]. destruct (nth_error (exts P) k) as [x|] eqn:X.
    2:{ apply SAME; cbn [pstep]; unfold px_train; rewrite X; [reflexivity|intros wn; reflexivity|reflexivity]. }
    destruct (nth_error (cnts P) r') as [c0|] eqn:C0.
    2:{ apply SAME; cbn [pstep]; unfold px_train; rewrite X, C0; [reflexivity|intros wn; reflexivity|reflexivity]. }
    destruct (px_train_spec P k r' m t x c0 X C0) as (es & st & E & _ & _ & NI & _). { apply (proj1 (V k x X)). right. right. right. reflexivity. }
    rewrite E. cbn [cnts]. rewrite upd_nth_error.
    assert (KK : forall wn, keeps r wn (PTrain k r' m t, snd (px_train P k r' m t)) = negb (r' =? r)%nat || (m <=? snd wn)).
    { intros wn. unfold keeps. destruct (snd (px_train P k r' m t)); [reflexivity|reflexivity|reflexivity|congruence]. }
    assert (TT : trains r (PTrain k r' m t, snd (px_train P k r' m t)) = (r' =? r)%nat).
    { unfold trains. destruct (snd (px_train P k r' m t)); [reflexivity|reflexivity|reflexivity|congruence]. }
    rewrite (filter_ext _ _ KK), TT. destruct (Nat.eqb_spec r' r) as [->|NE]; cbn [andb negb orb].
    + assert (L : (r < length (cnts P))%nat) by (apply nth_error_Some; congruence). rewrite (proj2 (Nat.ltb_lt _ _) L).
      exists (prune c0 m). assert (c0 = c) as -> by congruence. split; [reflexivity|]. split; [|split; [reflexivity|left; reflexivity]].
      unfold prune. cbn [ec_counter]. unfold train_eojeols, dfilter. apply filter_ext. intros wn. rewrite Z.geb_leb. reflexivity.
    + exists c. split; [exact C|]. split; [symmetry; apply FT|]. split; [reflexivity|left; reflexivity].
  - apply SAME.
    + cbn [pstep]. destruct (nth_error (exts P) k) as [x|] eqn:X; [|unfold px_extract; rewrite X; reflexivity].
      destruct (px_extract_spec P k cands mf x X) as [S1 S2].
      assert (DEC : (x_counter x = None /\ cands = []) \/ (x_counter x <> None \/ cands <> [])).
      { destruct (x_counter x); [right; left; discriminate|]. destruct cands; [left; split; reflexivity|right; right; discriminate]. }
      destruct DEC as [[C1 C2]|CC]; [rewrite (S1 C1 C2); reflexivity|]. destruct (S2 CC) as [(e & _ & E)|(s & E & _)]; rewrite E; reflexivity.
    + intros wn. unfold keeps. destruct (snd (pstep D P (PExtract k cands mf))); reflexivity.
    + unfold trains. destruct (snd (pstep D P (PExtract k cands mf))); reflexivity.
  - destruct (nth_error (cnts P) r') as [c0|] eqn:C0.
    2:{ apply SAME; cbn [pstep]; rewrite C0; [reflexivity|intros wn; reflexivity|reflexivity]. }
    cbn [pstep]. rewrite C0. clear SAME. destruct (remove_covered c0 es) as [c1 o] eqn:RC. cbn [fst snd put_counter cnts]. rewrite upd_nth_error.
    assert (NI : match o with None => Done | Some e => Raised e end <> Invalid) by (destruct o; discriminate).
    assert (KK : forall wn, keeps r wn (PCover r' es, match o with None => Done | Some e => Raised e end) = negb (r' =? r)%nat || negb (mem (fst wn) es)) by (intros wn; unfold keeps; destruct o; reflexivity).
    assert (TT : trains r (PCover r' es, match o with None => Done | Some e => Raised e end) = false) by (unfold trains; destruct o; reflexivity).
    rewrite (filter_ext _ _ KK), TT. destruct (Nat.eqb_spec r' r) as [->|NE]; cbn [andb negb orb].
    + assert (L : (r < length (cnts P))%nat) by (apply nth_error_Some; congruence). rewrite (proj2 (Nat.ltb_lt _ _) L).
      assert (c0 = c) as -> by congruence. exists c1. split; [reflexivity|]. unfold remove_covered in RC.
      set (d := dfilter (fun k _ => negb (mem k es)) (ec_counter c)) in RC.
      assert (EQ : d = filter (fun wn => negb (mem (fst wn) es)) (ec_counter c)) by reflexivity.
      destruct (ec_sum c =? 0).
      { assert (c1 = mkEc d (ec_sum c) (ec_coverage c)) as -> by congruence. cbn [ec_counter ec_sum ec_coverage]. split; [exact EQ|]. split; [reflexivity|left; reflexivity]. }
      destruct (Qle_bool 0 (1 - inject_Z (zsum (dvals d)) / inject_Z (ec_sum c)) && Qle_bool (1 - inject_Z (zsum (dvals d)) / inject_Z (ec_sum c)) 1).
      * assert (c1 = mkEc d (ec_sum c) (1 - inject_Z (zsum (dvals d)) / inject_Z (ec_sum c))%Q) as -> by congruence. assert (o = None) as -> by congruence. cbn [ec_counter ec_sum ec_coverage].
        split; [exact EQ|]. split; [reflexivity|]. right. exists es. split; [reflexivity|]. split; reflexivity.
      * assert (c1 = mkEc d (ec_sum c) (ec_coverage c)) as -> by congruence. cbn [ec_counter ec_sum ec_coverage]. split; [exact EQ|]. split; [reflexivity|left; reflexivity].
    + exists c. split; [exact C|]. split; [symmetry; apply FT|]. split; [reflexivity|left; reflexivity].
  - apply SAME.
    + cbn [pstep]. destruct (known P (Some r')); reflexivity.
    + intros wn. unfold keeps. destruct (snd (pstep D P (PUpdate r' ws))); reflexivity.
    + unfold trains. destruct (snd (pstep D P (PUpdate r' ws))); reflexivity.
Qed.

(** the sets after one operation *)
Lemma pstep_sets D P op r : valid P -> (r < length (sets P))%nat ->
  incl (set_at P r) (set_at (fst (pstep D P op)) r) /\ (~ adds_to P r op -> set_at (fst (pstep D P op)) r = set_at P r).
Proof.
  intros V L. assert (SAME : set_at (fst (pstep D P op)) r = set_at P r -> incl (set_at P r) (set_at (fst (pstep D P op)) r) /\ (~ adds_to P r op -> set_at (fst (pstep D P op)) r = set_at P r)).
  { intros E. rewrite E. split; [apply incl_refl|reflexivity]. }
  destruct op as [nouns j a v e ee es|k r' m t|k cands mf|r' es|r' ws].
  - apply SAME. cbn [pstep]. destruct (known P j && known P a && known P v && known P e) eqn:K; [|reflexivity]. cbn [fst].
    destruct (px_new_spec D P nouns j a v e ee es K) as (x & new & E & _). rewrite E. unfold set_at. cbn [sets]. apply app_nth1, L.
  - cbn [pstep]. destruct (nth_error (exts P) k) as [x|] eqn:X.
    2:{ apply SAME. cbn [pstep]. unfold px_train. rewrite X. reflexivity. }
    destruct (nth_error (cnts P) r') as [c0|] eqn:C0.
    2:{ apply SAME. cbn [pstep]. unfold px_train. rewrite X, C0. reflexivity. }
    assert (XL : (x_eomis x < length (sets P))%nat). { apply (proj1 (V k x X)). right. right. right. reflexivity. }
    destruct (px_train_spec P k r' m t x c0 X C0 XL) as (es & st & E & EE & _). rewrite E. unfold set_at. cbn [sets]. rewrite upd_nth.
    destruct (Nat.eqb_spec (x_eomis x) r) as [Q|NE]; cbn [andb]; [|split; [apply incl_refl|reflexivity]].
    rewrite (proj2 (Nat.ltb_lt _ _) XL). unfold set_at. rewrite Q. split.
    + intros w W. apply setupdate_In. left. exact W.
    + intros NA. destruct (x_ee x) eqn:XE.
      * exfalso. apply NA. exists x. auto.
      * rewrite (EE eq_refl). reflexivity.
  - apply SAME. cbn [pstep]. destruct (nth_error (exts P) k) as [x|] eqn:X; [|unfold px_extract; rewrite X; reflexivity].
    destruct (px_extract_spec P k cands mf x X) as [S1 S2].
    assert (DEC : (x_counter x = None /\ cands = []) \/ (x_counter x <> None \/ cands <> [])).
    { destruct (x_counter x); [right; left; discriminate|]. destruct cands; [left; split; reflexivity|right; right; discriminate]. }
    destruct DEC as [[C1 C2]|CC]; [rewrite (S1 C1 C2); reflexivity|]. destruct (S2 CC) as [(e & _ & E)|(s & E & _)]; rewrite E; [reflexivity|]. unfold set_at. cbn [sets]. apply app_nth1, L.
  - apply SAME. cbn [pstep]. destruct (nth_error (cnts P) r') as [c0|]; [|reflexivity]. destruct (remove_covered c0 es). reflexivity.
  - cbn [pstep]. destruct (known P (Some r')) eqn:K; [|split; [apply incl_refl|reflexivity]]. cbn [fst]. rewrite set_at_put. cbn [known] in K. rewrite K, andb_true_r.
    destruct (Nat.eqb_spec r' r) as [->|NE]; [|split; [apply incl_refl|reflexivity]]. split.
    + intros w W. apply setupdate_In. left. exact W.
    + intros NA. exfalso. apply NA. reflexivity.
Qed.

(** the other extractors after one operation *)
Lemma pstep_exts D P op k x : valid P -> nth_error (exts P) k = Some x -> (forall r m t, op <> PTrain k r m t) -> (forall cands mf, op <> PExtract k cands mf) ->
  nth_error (exts (fst (pstep D P op))) k = Some x.
Proof.
  intros V X N1 N2. destruct op as [nouns j a v e ee es|k' r' m t|k' cands mf|r' es|r' ws]; cbn [pstep].
  - destruct (known P j && known P a && known P v && known P e) eqn:K; [|exact X]. cbn [fst].
    destruct (px_new_spec D P nouns j a v e ee es K) as (y & new & E & _). rewrite E. cbn [exts]. rewrite nth_error_app1; [exact X|]. apply nth_error_Some. congruence.
  - assert (k' <> k) by (intros ->; exact (N1 _ _ _ eq_refl)). destruct (nth_error (exts P) k') as [y|] eqn:Y; [|unfold px_train; rewrite Y; exact X].
    destruct (nth_error (cnts P) r') as [c0|] eqn:C0; [|unfold px_train; rewrite Y, C0; exact X].
    destruct (px_train_spec P k' r' m t y c0 Y C0) as (es & st & E & _). { apply (proj1 (V k' y Y)). right. right. right. reflexivity. }
    rewrite E. cbn [exts]. rewrite upd_nth_error. destruct (Nat.eqb_spec k' k); [contradiction|]. exact X.
  - assert (k' <> k) by (intros ->; exact (N2 _ _ eq_refl)). destruct (nth_error (exts P) k') as [y|] eqn:Y; [|unfold px_extract; rewrite Y; exact X].
    destruct (px_extract_spec P k' cands mf y Y) as [S1 S2].
    assert (DEC : (x_counter y = None /\ cands = []) \/ (x_counter y <> None \/ cands <> [])).
    { destruct (x_counter y); [right; left; discriminate|]. destruct cands; [left; split; reflexivity|right; right; discriminate]. }
    destruct DEC as [[C1 C2]|CC]; [rewrite (S1 C1 C2); exact X|]. destruct (S2 CC) as [(e & _ & E)|(s & E & _)]; rewrite E; [exact X|]. cbn [exts]. rewrite upd_nth_error. destruct (Nat.eqb_spec k' k); [contradiction|]. exact X.
  - destruct (nth_error (cnts P) r') as [c0|]; [|exact X]. destruct (remove_covered c0 es). exact X.
  - destruct (known P (Some r')); exact X.
Qed.
