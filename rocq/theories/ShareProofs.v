(** * Lemmas about pools of extractors *)
From Coq Require Import List ZArith Bool Lia QArith Reals.
Import ListNotations.
From Verif Require Import PyBase PyDict PySort PyText CountLemmas UtilsModel TaggerModel TaggerDictProofs LemmaModel LemmaProofs NounModel JosaModel PredModel ShareModel ShareSpec.
Open Scope Z_scope.

Lemma upd_nth_error {A} (l : list A) i x j : nth_error (upd l i x) j = if (i =? j)%nat && (i <? length l)%nat then Some x else nth_error l j.
Proof.
  unfold upd. destruct (Nat.ltb_spec i (length l)) as [H|H].
  - destruct (skipn i l) as [|y t] eqn:E. { pose proof (f_equal (@length A) E) as L. rewrite skipn_length in L. cbn [length] in L. lia. }
    assert (L : l = firstn i l ++ y :: t) by (rewrite <- E; symmetry; apply firstn_skipn).
    assert (F : length (firstn i l) = i) by (rewrite firstn_length; lia).
    destruct (Nat.eqb_spec i j) as [->|NE]; cbn [andb].
    + rewrite nth_error_app2 by lia. rewrite F, Nat.sub_diag. reflexivity.
    + destruct (Nat.lt_ge_cases j i) as [J|J].
      * rewrite nth_error_app1 by lia. rewrite L at 2. rewrite nth_error_app1 by lia. reflexivity.
      * rewrite nth_error_app2 by lia. rewrite L at 2. rewrite nth_error_app2 by lia. rewrite F. destruct (j - i)%nat eqn:Q; [lia|reflexivity].
  - rewrite andb_false_r. rewrite skipn_all2 by lia. rewrite firstn_all2 by lia. rewrite app_nil_r. reflexivity.
Qed.

(** every reference of an extractor names an object *)
Definition valid_px (P : pool) (x : px) : Prop :=
  (forall r, holds x r -> (r < length (sets P))%nat) /\ (forall r, x_counter x = Some r -> (r < length (cnts P))%nat).
Definition valid (P : pool) : Prop := forall k x, nth_error (exts P) k = Some x -> valid_px P x.

Lemma set_at_put P r s r' : set_at (put_set P r s) r' = if (r =? r')%nat && (r <? length (sets P))%nat then s else set_at P r'.
Proof. unfold set_at, put_set. cbn [sets]. apply upd_nth. Qed.
Lemma set_at_new P s r : (r < length (sets P))%nat -> set_at (fst (new_set P s)) r = set_at P r.
Proof. intros H. unfold set_at, new_set. cbn [fst sets]. apply app_nth1, H. Qed.
Lemma set_at_fresh P s : set_at (fst (new_set P s)) (length (sets P)) = s.
Proof. unfold set_at, new_set. cbn [fst sets]. rewrite app_nth2 by lia. rewrite Nat.sub_diag. reflexivity. Qed.

(** ** construction *)
Lemma px_new_spec D P nouns j a v e ee es :
  known P j && known P a && known P v && known P e = true ->
  exists x new, px_new D P nouns j a v e ee es = mkPool (sets P ++ new) (cnts P) (exts P ++ [x]) /\
    x_counter x = None /\ x_ee x = ee /\ x_es x = es /\
    (forall r, holds x r -> (r < length (sets P ++ new))%nat) /\
    (forall r, (r < length (sets P))%nat -> (r = x_eomis x <-> e = Some r)) /\
    (forall r, (r < length (sets P))%nat -> holds x r -> j = Some r \/ a = Some r \/ v = Some r \/ e = Some r) /\
    (x_eomis x = x_josas x \/ x_eomis x = x_adj x \/ x_eomis x = x_verb x -> e <> None) /\
    conf_of (px_new D P nouns j a v e ee es) x = pred_new nouns
      (match j with Some r => match set_at P r with [] => d_josas D | s => s end | None => d_josas D end)
      (match a, v with Some r, Some _ => set_at P r | _, _ => d_adj D end)
      (match a, v with Some _, Some r => set_at P r | _, _ => d_verb D end)
      (match e with Some r => set_at P r | None => d_eomis D end).
Proof.
  intros K. apply andb_true_iff in K as [K KE]. apply andb_true_iff in K as [K KV]. apply andb_true_iff in K as [KJ KA].
  assert (HJ : exists ref n1, (match j with Some j => match set_at P j with [] => new_set P (d_josas D) | _ => (P, j) end | None => new_set P (d_josas D) end)
      = (mkPool (sets P ++ n1) (cnts P) (exts P), ref) /\ (ref < length (sets P ++ n1))%nat /\ (forall r, (r < length (sets P))%nat -> r = ref -> j = Some r) /\
      nth ref (sets P ++ n1) [] = match j with Some r => match set_at P r with [] => d_josas D | s => s end | None => d_josas D end).
  { assert (FR : exists ref n1, new_set P (d_josas D) = (mkPool (sets P ++ n1) (cnts P) (exts P), ref) /\ (ref < length (sets P ++ n1))%nat /\
      (forall r, (r < length (sets P))%nat -> r = ref -> j = Some r) /\ nth ref (sets P ++ n1) [] = d_josas D).
    { exists (length (sets P)), [d_josas D]. split; [reflexivity|]. rewrite app_length. cbn [length]. split; [lia|]. split; [intros; lia|]. rewrite app_nth2 by lia. rewrite Nat.sub_diag. reflexivity. }
    destruct j as [r|]; [|exact FR]. destruct (set_at P r) as [|y t] eqn:SA; [exact FR|].
    exists r, []. cbn [known] in KJ. apply Nat.ltb_lt in KJ. rewrite app_nil_r. destruct P as [sp cp ep]; cbn [sets cnts exts] in *. repeat split; try assumption; try congruence. }
  destruct HJ as (rj & n1 & EJ & LJ & IJ & VJ). unfold px_new. rewrite EJ. set (P1 := mkPool (sets P ++ n1) (cnts P) (exts P)).
  assert (HA : exists ra rv n2, (match a, v with Some a, Some v => (P1, a, v) | _, _ => let (P, a) := new_set P1 (d_adj D) in let (P, v) := new_set P (d_verb D) in (P, a, v) end)
      = (mkPool (sets P ++ n1 ++ n2) (cnts P) (exts P), ra, rv) /\ (ra < length (sets P ++ n1 ++ n2))%nat /\ (rv < length (sets P ++ n1 ++ n2))%nat /\
      (forall r, (r < length (sets P))%nat -> r = ra -> a = Some r) /\ (forall r, (r < length (sets P))%nat -> r = rv -> v = Some r) /\
      nth ra (sets P ++ n1 ++ n2) [] = match a, v with Some r, Some _ => set_at P r | _, _ => d_adj D end /\
      nth rv (sets P ++ n1 ++ n2) [] = match a, v with Some _, Some r => set_at P r | _, _ => d_verb D end).
  { assert (FR : exists ra rv n2, (let (P, a) := new_set P1 (d_adj D) in let (P, v) := new_set P (d_verb D) in (P, a, v))
      = (mkPool (sets P ++ n1 ++ n2) (cnts P) (exts P), ra, rv) /\ (ra < length (sets P ++ n1 ++ n2))%nat /\ (rv < length (sets P ++ n1 ++ n2))%nat /\
      (forall r, (r < length (sets P))%nat -> r = ra -> a = Some r) /\ (forall r, (r < length (sets P))%nat -> r = rv -> v = Some r) /\
      nth ra (sets P ++ n1 ++ n2) [] = d_adj D /\ nth rv (sets P ++ n1 ++ n2) [] = d_verb D).
    { exists (length (sets P ++ n1)), (S (length (sets P ++ n1))), [d_adj D; d_verb D]. unfold new_set, P1. cbn [sets cnts exts]. rewrite <- !app_assoc. cbn [app]. rewrite !app_length. cbn [length].
      split; [f_equal; f_equal; lia|]. split; [lia|]. split; [lia|]. split; [intros; lia|]. split; [intros; lia|].
      rewrite !app_assoc. split; rewrite app_nth2; rewrite ?app_length; try lia.
      - replace (_ - _)%nat with 0%nat by lia. reflexivity.
      - replace (_ - _)%nat with 1%nat by lia. reflexivity. }
    destruct a as [r|]; [|destruct v; exact FR]. destruct v as [r'|]; [|exact FR].
    exists r, r', []. cbn [known] in KA, KV. apply Nat.ltb_lt in KA, KV. rewrite app_nil_r. unfold P1. rewrite !app_length.
    split; [reflexivity|]. split; [lia|]. split; [lia|]. split; [intros; congruence|]. split; [intros; congruence|]. unfold set_at. rewrite !app_nth1 by lia. split; reflexivity. }
  destruct HA as (ra & rv & n2 & EA & LA & LV & IA & IV & VA & VV). rewrite EA. set (P2 := mkPool (sets P ++ n1 ++ n2) (cnts P) (exts P)).
  assert (HE : exists re n3, (match e with Some e => (P2, e) | None => new_set P2 (d_eomis D) end)
      = (mkPool (sets P ++ n1 ++ n2 ++ n3) (cnts P) (exts P), re) /\ (re < length (sets P ++ n1 ++ n2 ++ n3))%nat /\
      (forall r, (r < length (sets P))%nat -> (r = re <-> e = Some r)) /\ (e = None -> (length (sets P ++ n1 ++ n2) <= re)%nat) /\
      nth re (sets P ++ n1 ++ n2 ++ n3) [] = match e with Some r => set_at P r | None => d_eomis D end).
  { destruct e as [r|].
    - exists r, []. cbn [known] in KE. apply Nat.ltb_lt in KE. rewrite app_nil_r. unfold P2. rewrite !app_length. split; [reflexivity|]. split; [lia|]. split; [intros; split; congruence|].
      split; [discriminate|]. unfold set_at. rewrite app_nth1 by lia. reflexivity.
    - exists (length (sets P ++ n1 ++ n2)), [d_eomis D]. unfold new_set, P2. cbn [sets cnts exts]. rewrite <- !app_assoc. rewrite !app_length. cbn [length]. split; [reflexivity|]. split; [lia|].
      split; [intros r H; split; [intros; lia|discriminate]|]. split; [intros; lia|]. replace (sets P ++ n1 ++ n2 ++ [d_eomis D]) with ((sets P ++ n1 ++ n2) ++ [d_eomis D]) by (rewrite <- !app_assoc; reflexivity).
      rewrite app_nth2; rewrite !app_length; [|lia]. rewrite Nat.sub_diag. reflexivity. }
  destruct HE as (re & n3 & EE & LE & IE & NE & VE). rewrite EE. cbn [sets cnts exts].
  assert (VJ' : nth rj (sets P ++ n1 ++ n2 ++ n3) [] = nth rj (sets P ++ n1) []) by (rewrite app_assoc, app_nth1 by assumption; reflexivity).
  assert (AS : sets P ++ n1 ++ n2 ++ n3 = (sets P ++ n1 ++ n2) ++ n3) by (rewrite <- !app_assoc; reflexivity).
  assert (VA' : nth ra (sets P ++ n1 ++ n2 ++ n3) [] = nth ra (sets P ++ n1 ++ n2) []) by (rewrite AS, app_nth1 by assumption; reflexivity).
  assert (VV' : nth rv (sets P ++ n1 ++ n2 ++ n3) [] = nth rv (sets P ++ n1 ++ n2) []) by (rewrite AS, app_nth1 by assumption; reflexivity).
  eexists _, (n1 ++ n2 ++ n3). split; [reflexivity|]. cbn [x_counter x_ee x_es x_eomis x_josas x_adj x_verb]. split; [reflexivity|]. split; [reflexivity|]. split; [reflexivity|].
  rewrite !app_length in *. cbn [length] in *. split.
  { intros r [->|[->|[->| ->]]]; cbn [x_josas x_adj x_verb x_eomis]; lia. }
  split; [exact IE|]. split.
  { intros r LR [H|[H|[H|H]]]; cbn [x_josas x_adj x_verb x_eomis] in H.
    - left. apply IJ; assumption.
    - right. left. apply IA; assumption.
    - right. right. left. apply IV; assumption.
    - right. right. right. apply IE; assumption. }
  split.
  { intros [H|[H|H]] EN; specialize (NE EN); lia. }
  unfold conf_of, pred_new, set_at. cbn [sets cnts exts x_josas x_adj x_verb x_eomis x_stems x_nouns]. fold (set_at P) in *. rewrite VJ', VA', VV', VJ, VA, VV, VE. reflexivity.
Qed.

(** ** training *)
Lemma nth_upd_id {A} (l : list A) i x : nth_error l i = Some x -> upd l i x = l.
Proof.
  intros H. apply (nth_ext _ _ x x).
  - apply upd_length.
  - intros n _. rewrite upd_nth. destruct (Nat.eqb_spec i n) as [->|]; [|reflexivity]. destruct (Nat.ltb_spec n (length l)); cbn [andb]; [|reflexivity].
    symmetry. apply nth_error_nth, H.
Qed.
Lemma upd_twice {A} (l : list A) i x y : upd (upd l i x) i y = upd l i y.
Proof.
  apply (nth_ext _ _ x x); [rewrite !upd_length; reflexivity|]. intros n _. rewrite !upd_nth, upd_length. destruct ((i =? n)%nat && (i <? length l)%nat) eqn:E; reflexivity.
Qed.
Lemma conf_put_px P k y x : conf_of (put_px P k y) x = conf_of P x.
Proof. reflexivity. Qed.
Lemma conf_put_counter P r c x : conf_of (put_counter P r c) x = conf_of P x.
Proof. reflexivity. Qed.
Lemma conf_with_counter P x r : conf_of P (with_counter x r) = conf_of P x.
Proof. reflexivity. Qed.

(** what a training does to the pool: the counter is pruned, the extractor bound to it and its stems extended, its endings extended *)
Lemma px_train_spec P k r m t x c : nth_error (exts P) k = Some x -> nth_error (cnts P) r = Some c -> (x_eomis x < length (sets P))%nat ->
  exists es st, fst (px_train P k r m t) = mkPool (upd (sets P) (x_eomis x) (setupdate (set_at P (x_eomis x)) es)) (upd (cnts P) r (prune c m))
      (upd (exts P) k (with_stems (with_counter x r) (setupdate (x_stems x) st))) /\
    (x_ee x = false -> es = []) /\ (x_es x = false -> st = []) /\ snd (px_train P k r m t) <> Invalid /\
    match pred_learn (conf_of P x) (train_eojeols (ec_counter c) m) (x_ee x) (x_es x) (tp_mnf t) (tp_ems t) (tp_emf t) (tp_min_char t) (tp_min_entropy t) (tp_sms t) (tp_smf t) with
    | Ok c' => snd (px_train P k r m t) = Done /\ p_eomis c' = setupdate (set_at P (x_eomis x)) es /\ p_stems c' = setupdate (x_stems x) st /\
               p_josas c' = set_at P (x_josas x) /\ p_adj c' = set_at P (x_adj x) /\ p_verb c' = set_at P (x_verb x) /\ p_nouns c' = x_nouns x
    | Err e => snd (px_train P k r m t) = Raised e
    end.
Proof.
  intros X C XL. unfold px_train. rewrite X, C. cbv zeta. set (x1 := with_counter x r). set (c1 := prune c m).
  set (P1 := put_px (put_counter P r c1) k x1).
  change (ec_counter c1) with (train_eojeols (ec_counter c) m). set (d := train_eojeols (ec_counter c) m).
  assert (KL : (k < length (exts P))%nat) by (apply nth_error_Some; congruence).
  assert (SID : upd (sets P) (x_eomis x) (setupdate (set_at P (x_eomis x)) []) = sets P).
  { unfold setupdate. cbn [fold_left]. unfold set_at. destruct (nth_error (sets P) (x_eomis x)) as [s|] eqn:N.
    - rewrite (nth_error_nth _ _ _ N). apply nth_upd_id, N.
    - apply nth_error_None in N. unfold upd. rewrite skipn_all2 by assumption. rewrite firstn_all2 by assumption. apply app_nil_r. }
  assert (XID : forall y, with_stems y (setupdate (x_stems y) []) = y) by (intros []; reflexivity).
  unfold learn, pred_learn. change (x_ee x1) with (x_ee x). change (x_es x1) with (x_es x). change (conf_of P1 x1) with (conf_of P x).
  assert (BASE : P1 = mkPool (upd (sets P) (x_eomis x) (setupdate (set_at P (x_eomis x)) [])) (upd (cnts P) r c1) (upd (exts P) k (with_stems (with_counter x r) (setupdate (x_stems x) [])))).
  { rewrite SID. change (x_stems x) with (x_stems x1). fold x1. rewrite (XID x1). reflexivity. }
  destruct (x_ee x || x_es x) eqn:F.
  2:{ apply orb_false_iff in F as [F1 F2]. exists [], []. split; [exact BASE|]. split; [reflexivity|]. split; [reflexivity|]. split; [discriminate|]. split; [reflexivity|]. repeat split; reflexivity. }
  destruct (predicator_graph (conf_of P x) d) as [g|e] eqn:G; cbn [bind].
  2:{ exists [], []. split; [exact BASE|]. split; [reflexivity|]. split; [reflexivity|]. split; [discriminate|]. reflexivity. }
  destruct (x_ee x) eqn:EE.
  - unfold learn_eomis, pred_extract_eomi. change (x_stems x1) with (x_stems x). change (x_nouns x1) with (x_nouns x). change (p_stems (conf_of P x)) with (x_stems x). change (p_nouns (conf_of P x)) with (x_nouns x).
    change (x_eomis x1) with (x_eomis x). change (set_at P1 (x_eomis x)) with (set_at P (x_eomis x)).
    destruct (eomi_extract (x_stems x) (x_nouns x) (tp_mnf t) g None (tp_ems t) (tp_emf t) true) as [er|e] eqn:EX; cbn [bind].
    2:{ exists [], []. split; [exact BASE|]. split; [reflexivity|]. split; [reflexivity|]. split; [discriminate|]. reflexivity. }
    destruct (x_es x) eqn:ES.
    + unfold learn_stems, pred_extract_stem. change (x_stems x1) with (x_stems x). change (x_eomis x1) with (x_eomis x). rewrite set_at_put, Nat.eqb_refl. cbn [andb].
      change (length (sets P1)) with (length (sets P)). change (set_at P1 (x_eomis x)) with (set_at P (x_eomis x)). cbn [add_eomis p_stems p_eomis]. change (p_stems (conf_of P x)) with (x_stems x). change (p_eomis (conf_of P x)) with (set_at P (x_eomis x)).
      rewrite (proj2 (Nat.ltb_lt _ _) XL).
      destruct (stem_extract (stem_new g (x_stems x) (setupdate (set_at P (x_eomis x)) (dkeys (snd er))) (tp_min_char t) (tp_min_entropy t)) g [] (tp_sms t) (tp_smf t)) as [sr|e] eqn:SX; cbn [bind].
      * exists (dkeys (snd er)), (dkeys sr). split; [|split; [discriminate|]; split; [discriminate|]; split; [discriminate|]; repeat split; reflexivity].
        unfold put_px, put_set, P1, put_counter. cbn [fst sets cnts exts]. f_equal. apply upd_twice.
      * exists (dkeys (snd er)), []. split; [|split; [discriminate|]; split; [discriminate|]; split; [discriminate|]; reflexivity].
        unfold put_px, put_set, P1, put_counter. cbn [fst sets cnts exts]. reflexivity.
    + exists (dkeys (snd er)), []. split; [|split; [discriminate|]; split; [reflexivity|]; split; [discriminate|]; repeat split; reflexivity].
      unfold put_px, put_set, P1, put_counter. cbn [fst sets cnts exts]. reflexivity.
  - cbn [bind]. destruct (x_es x) eqn:ES; [|discriminate].
    unfold learn_stems, pred_extract_stem. change (x_stems x1) with (x_stems x). change (x_eomis x1) with (x_eomis x). change (set_at P1 (x_eomis x)) with (set_at P (x_eomis x)).
    change (p_stems (conf_of P x)) with (x_stems x). change (p_eomis (conf_of P x)) with (set_at P (x_eomis x)).
    destruct (stem_extract (stem_new g (x_stems x) (set_at P (x_eomis x)) (tp_min_char t) (tp_min_entropy t)) g [] (tp_sms t) (tp_smf t)) as [sr|e] eqn:SX; cbn [bind].
    + exists [], (dkeys sr). rewrite SID. split; [|split; [reflexivity|]; split; [discriminate|]; split; [discriminate|]; repeat split; reflexivity].
      unfold put_px, put_set, P1, put_counter. cbn [fst sets cnts exts]. f_equal. apply upd_twice.
    + exists [], []. split; [exact BASE|]. split; [reflexivity|]. split; [reflexivity|]. split; [discriminate|]. reflexivity.
Qed.

(** ** extraction *)
Lemma px_extract_spec P k cands mf x : nth_error (exts P) k = Some x ->
  (x_counter x = None -> cands = [] -> px_extract P k cands mf = (P, Raised AttributeError)) /\
  (x_counter x <> None \/ cands <> [] ->
   ((exists e, as_lemma_candidates (conf_of P x) (match cands with [] => default_candidates (table_of P x) mf | _ => cands end) = Err e /\ px_extract P k cands mf = (P, Raised e)) \/
    (exists s, fst (px_extract P k cands mf) = mkPool (sets P ++ [s]) (cnts P) (upd (exts P) k (with_eomis x (length (sets P)))) /\ incl s (set_at P (x_eomis x)) /\
      match pred_extract (conf_of P x) (table_of P x) cands mf with
      | Ok (c', (a, v), _) => s = p_eomis c' /\ snd (px_extract P k cands mf) = Tables a v /\
           p_josas c' = set_at P (x_josas x) /\ p_adj c' = set_at P (x_adj x) /\ p_verb c' = set_at P (x_verb x) /\ p_nouns c' = x_nouns x /\ p_stems c' = x_stems x
      | Err e => snd (px_extract P k cands mf) = Raised e
      end))).
Proof.
  intros X. split.
  - intros CN ->. unfold px_extract. rewrite X, CN. reflexivity.
  - intros H. unfold px_extract, pred_extract. rewrite X.
    assert (E : (match cands with [] => match x_counter x with None => Err AttributeError | Some r => Ok (default_candidates (ec_counter (nth r (cnts P) (mkCounter []))) mf) end | _ => Ok cands end)
      = Ok (match cands with [] => default_candidates (table_of P x) mf | _ => cands end)).
    { destruct cands; [|reflexivity]. unfold table_of. destruct (x_counter x); [reflexivity|]. destruct H; congruence. }
    set (cs := match cands with [] => default_candidates (table_of P x) mf | _ => cands end).
    match goal with |- context [match ?m with Ok _ => _ | Err _ => _ end] => replace m with (@Ok (dict str Z) cs) by (symmetry; exact E) end.
    destruct (as_lemma_candidates (conf_of P x) cs) as [[[c' preds] cov]|e] eqn:A; cbn [bind]; [right|left; exists e; split; reflexivity].
    exists (p_eomis c'). unfold new_set.
    assert (IN : incl (p_eomis c') (set_at P (x_eomis x)) /\ p_josas c' = set_at P (x_josas x) /\ p_adj c' = set_at P (x_adj x) /\ p_verb c' = set_at P (x_verb x) /\ p_nouns c' = x_nouns x /\ p_stems c' = x_stems x).
    { unfold as_lemma_candidates in A. destruct (lemma_table (conf_of P x) cs) as [st|]; [|discriminate]. cbn [bind] in A.
      assert (C : c' = fst (remove_wrong (conf_of P x) (t_lemmas st) (t_words st))) by (destruct (remove_wrong (conf_of P x) (t_lemmas st) (t_words st)); cbn [fst]; congruence).
      rewrite C. unfold remove_wrong. cbn [fst p_eomis p_josas p_adj p_verb p_nouns p_stems]. split; [|repeat split; reflexivity]. intros w W. apply filter_In in W. exact (proj1 W). }
    destruct (separate c' preds) as [[a v]|e]; cbn [bind fst snd]; split; try reflexivity; split; try exact (proj1 IN).
    + split; [reflexivity|]. split; [reflexivity|]. exact (proj2 IN).
    + reflexivity.
Qed.
