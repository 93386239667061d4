(** * Proofs about the life of vectorizers *)
From Coq Require Import QArith Qround Lqa.
From Verif Require Import PyBase PyDict PySort PyText PyFile CountLemmas SortLemmas QLemmas UtilsSpec UtilsProofs UtilsProofs3 UtilsProofs5 VectorizerModel VectorizerSpec VectorizerProofs VectorizerProofs2 VectorizerProofs3 VectorizerProofs4 VecLifeModel VecLifeSpec.
Open Scope Z_scope.

Lemma fit_good {D} (c : vconf D) (d : reading D) : fit_r c d = if good d then Ok (set_vocabulary (fterms c (yields d))) else Err (match fails d with Some e => e | None => UnboundLocalError end).
Proof. unfold fit_r, good. rewrite fit_eq. destruct (fails d) as [e|]; [reflexivity|]. destruct (yields d); reflexivity. Qed.
Lemma transform_good {D} (c : vconf D) v (d : reading D) : transform_r c v d = if good d then transform c v (yields d) else Err (match fails d with Some e => e | None => UnboundLocalError end).
Proof. unfold transform_r, good. destruct (fails d) as [e|]; [reflexivity|]. destruct (yields d); reflexivity. Qed.
Lemma write_good {D} (c : vconf D) v (d1 d2 : reading D) p w : to_file_w c v d1 d2 p w =
  if good d1 then (set_file w p (mm_content c v (yields d1) (yields d2)), match fails d2 with Some e => Raised e | None => Done end)
  else (w, Raised (match fails d1 with Some e => e | None => UnboundLocalError end)).
Proof. unfold to_file_w, good. destruct (fails d1) as [e|]; [reflexivity|]. destruct (yields d1); reflexivity. Qed.
Lemma mm_same {D} (c : vconf D) v docs : docs <> [] -> to_file c v docs = Ok (mm_content c v docs docs).
Proof. destruct docs; [congruence|]. intros _. unfold to_file, mm_content. reflexivity. Qed.
Lemma mm_content_rows {D} (c : vconf D) v (docs1 docs2 : list D) : coherent v -> mm_content c v docs1 docs2 =
  u "%%MatrixMarket matrix coordinate integer general" ++ [10%N] ++ u "%" ++ [10%N] ++
  mm_row (Z.of_nat (length docs1)) (Z.of_nat (length (idx2vocab v))) (Z.of_nat (length (rows v (vtok c) (enumerate docs1)))) ++
  concat (map (fun t => mm_row (fst (fst t) + 1) (snd (fst t) + 1) (snd t)) (rows v (vtok c) (enumerate docs2))).
Proof.
  intros C. unfold mm_content. rewrite (rows_length v C), enumerate_snd, file_row3. replace (n_vocabs v) with (Z.of_nat (length (idx2vocab v))) by (symmetry; apply C). do 5 f_equal.
  unfold rows. generalize (enumerate docs2) as l. induction l as [|d l IH]; [reflexivity|]. cbn [map concat]. rewrite map_app, concat_app, <- IH. f_equal.
  rewrite (counter_encode v C), map_map. f_equal. apply map_ext. intros [j n]. cbn [fst snd]. apply file_row3.
Qed.
Lemma vocab_name_spec p : vname p = p <-> vocab_name p.
Proof.
  unfold vname, vocab_name. destruct (eqb_spec (skipn (length p - 6) p) (u ".vocab")) as [E|NE].
  - split; [|reflexivity]. intros _. exists (firstn (length p - 6) p). rewrite <- E. symmetry. apply firstn_skipn.
  - split; [intros E; exfalso; apply (f_equal (@length N)) in E; rewrite app_length in E; cbn in E; lia|].
    intros [a ->]. exfalso. apply NE. rewrite app_length. change (length (u ".vocab")) with 6%nat. replace (length a + 6 - 6)%nat with (length a) by lia. rewrite skipn_app, Nat.sub_diag, skipn_all. reflexivity.
Qed.
Lemma vname_is_name f : vocab_name (vname f).
Proof.
  unfold vname. destruct (eqb_spec (skipn (length f - 6) f) (u ".vocab")) as [E|NE]; [|exists f; reflexivity].
  exists (firstn (length f - 6) f). rewrite <- E. symmetry. apply firstn_skipn.
Qed.
(** one step *)
Lemma step_voc {D} (conf : nat -> vconf D) w i o j : w_voc (fst (vrun conf w (i, o))) j =
  if Nat.eqb j i then match learns_from o with
                      | Some docs => set_vocabulary (fterms (conf i) docs)
                      | None => match o with Load f => match dget (w_files w) (vname f) with Some s => v_load s | None => w_voc w i end | _ => w_voc w i end
                      end
  else w_voc w j.
Proof.
  assert (S : forall v, w_voc (set_voc w i v) j = if Nat.eqb j i then v else w_voc w j) by reflexivity.
  assert (K : w_voc w j = if Nat.eqb j i then w_voc w i else w_voc w j) by (destruct (Nat.eqb_spec j i) as [E|_]; [rewrite E|]; reflexivity).
  destruct o as [d|d1 d2|d1 d2 d3 p|d|d1 d2 p|f|f|d|l|d|b| |]; cbn [vrun learns_from].
  1,2: rewrite fit_good. 1: destruct (good d); [apply S|exact K]. 1: destruct (good d1); [apply S|exact K].
  1: { rewrite fit_good. destruct (good d1); [|exact K]. rewrite write_good. destruct (good d2); apply S. }
  all: try exact K.
  - rewrite write_good. destruct (good d1); exact K.
  - destruct (dget (w_files w) (vname f)); [apply S|exact K].
Qed.
Lemma step_files {D} (conf : nat -> vconf D) w i o : w_files (fst (vrun conf w (i, o))) =
  match o with
  | Save f => dset (w_files w) (vname f) (v_save (w_voc w i))
  | ToFile d1 d2 p => if good d1 then dset (w_files w) p (mm_content (conf i) (w_voc w i) (yields d1) (yields d2)) else w_files w
  | FitToFile d1 d2 d3 p => if good d1 && good d2 then dset (w_files w) p (mm_content (conf i) (set_vocabulary (fterms (conf i) (yields d1))) (yields d2) (yields d3)) else w_files w
  | _ => w_files w
  end.
Proof.
  destruct o as [d|d1 d2|d1 d2 d3 p|d|d1 d2 p|f|f|d|l|d|b| |]; cbn [vrun]; try reflexivity.
  - rewrite fit_good. destruct (good d); reflexivity.
  - rewrite fit_good. destruct (good d1); reflexivity.
  - rewrite fit_good. destruct (good d1); [|reflexivity]. rewrite write_good. destruct (good d2); reflexivity.
  - rewrite write_good. destruct (good d1); reflexivity.
  - destruct (dget (w_files w) (vname f)); reflexivity.
Qed.
Lemma learns_nonempty {D} (o : vop D) docs : learns_from o = Some docs -> docs <> [].
Proof.
  assert (G : forall d : reading D, (if good d then Some (yields d) else None) = Some docs -> docs <> []).
  { intros d. unfold good. destruct (fails d); [discriminate|]. destruct (yields d) eqn:E; [discriminate|]. intros H. injection H as <-. discriminate. }
  destruct o; cbn [learns_from]; try discriminate; apply G.
Qed.
Lemma fit_nonempty {D} (c : vconf D) docs : docs <> [] -> fit c docs = Ok (set_vocabulary (fterms c docs)).
Proof. rewrite fit_eq. destruct docs; [congruence|reflexivity]. Qed.
Lemma vrun_all_app {D} (conf : nat -> vconf D) ks : forall w ks', vrun_all conf w (ks ++ ks') = let (w1, l1) := vrun_all conf w ks in let (w2, l2) := vrun_all conf w1 ks' in (w2, l1 ++ l2).
Proof.
  induction ks as [|k ks IH]; intros w ks'; [cbn [app vrun_all]; destruct (vrun_all conf w ks'); reflexivity|]. cbn [app vrun_all]. destruct (vrun conf w k) as [w1 a]. rewrite IH.
  destruct (vrun_all conf w1 ks) as [w2 l]. destruct (vrun_all conf w2 ks') as [w3 l']. reflexivity.
Qed.
Lemma run_snoc {D} (conf : nat -> vconf D) w ks k : fst (vrun_all conf w (ks ++ [k])) = fst (vrun conf (fst (vrun_all conf w ks)) k).
Proof. rewrite vrun_all_app. destruct (vrun_all conf w ks) as [w1 l1]. cbn [vrun_all fst]. destruct (vrun conf w1 k) as [w2 a]. reflexivity. Qed.
Lemma run_app {D} (conf : nat -> vconf D) w ks ks' : fst (vrun_all conf w (ks ++ ks')) = fst (vrun_all conf (fst (vrun_all conf w ks)) ks').
Proof. rewrite vrun_all_app. destruct (vrun_all conf w ks) as [w1 l1]. cbn [fst]. destruct (vrun_all conf w1 ks') as [w2 a]. reflexivity. Qed.
Lemma coherent_empty : coherent (mkVocab [] [] 0).
Proof. change (mkVocab [] [] 0) with (set_vocabulary []). apply set_vocab_coherent. constructor. Qed.
Lemma learnt_form {D} (conf : nat -> vconf D) ks v : was_learnt conf ks v -> v = set_vocabulary (idx2vocab v) /\ NoDup (idx2vocab v).
Proof.
  intros [->|(i & o & docs & _ & _ & F)]; [split; [reflexivity|constructor]|]. rewrite fit_eq in F. destruct docs as [|d docs]; [discriminate|]. injection F as <-. split; [reflexivity|apply fterms_NoDup].
Qed.
Lemma learnt_clean {D} (conf : nat -> vconf D) ks v : (forall i d, Forall clean (vtok (conf i) d)) -> was_learnt conf ks v -> Forall clean (idx2vocab v).
Proof.
  intros CL [->|(i & o & docs & _ & _ & F)]; [constructor|]. rewrite fit_eq in F. destruct docs as [|d0 docs0] eqn:ED; [discriminate|]. rewrite <- ED in *. injection F as <-.
  cbn [idx2vocab set_vocabulary]. apply Forall_forall. intros t I. apply fterms_In in I as [(d & _ & I) _]. specialize (CL i d). rewrite Forall_forall in CL. apply CL, I.
Qed.
Lemma learnt_back {D} (conf : nat -> vconf D) ks v : (forall i d, Forall clean (vtok (conf i) d)) -> was_learnt conf ks v -> v_load (v_save v) = v.
Proof.
  intros CL W. rewrite (load_save v (learnt_clean conf ks v CL W)). symmetry. apply (learnt_form conf ks v W).
Qed.
Lemma learnt_more {D} (conf : nat -> vconf D) ks ks' v : was_learnt conf ks v -> was_learnt conf (ks ++ ks') v.
Proof. intros [->|(i & o & docs & A & B)]; [left; reflexivity|right]. exists i, o, docs. split; [apply in_app_iff; left; exact A|exact B]. Qed.
Lemma reach_learnt {D} (conf : nat -> vconf D) (files : dict str str) ks : (forall i d, Forall clean (vtok (conf i) d)) ->
  (forall p s, dget files p = Some s -> ~ vocab_name p) ->
  (forall i o p, In (i, o) ks -> may_write o = Some p -> match o with Save _ => True | _ => ~ vocab_name p end) ->
  let w := fst (vrun_all conf (new_world files) ks) in
  (forall i, was_learnt conf ks (w_voc w i)) /\ forall p s, dget (w_files w) p = Some s -> vocab_name p -> exists v, was_learnt conf ks v /\ s = v_save v.
Proof.
  intros CL NF. induction ks as [|[i o] ks IH] using rev_ind; intros NW.
  { cbn [vrun_all fst new_world w_voc w_files]. split; [intros _; left; reflexivity|]. intros p s E V. exfalso. exact (NF p s E V). }
  cbv zeta. rewrite run_snoc. destruct (IH (fun j o' p I => NW j o' p (proj2 (in_app_iff _ _ _) (or_introl I)))) as [IV IF]. clear IH.
  set (w := fst (vrun_all conf (new_world files) ks)) in *. specialize (NW i o). split.
  - intros j. rewrite step_voc. destruct (Nat.eqb_spec j i) as [->|_]; [|apply learnt_more, IV]. destruct (learns_from o) as [docs|] eqn:L.
    + right. exists i, o, docs. split; [apply in_app_iff; right; left; reflexivity|]. split; [exact L|]. apply fit_nonempty, (learns_nonempty o), L.
    + destruct o as [d|d1 d2|d1 d2 d3 p|d|d1 d2 p|f|f|d|l|d|b| |]; try apply learnt_more, IV. destruct (dget (w_files w) (vname f)) as [s|] eqn:E; [|apply learnt_more, IV].
      destruct (IF _ _ E (vname_is_name f)) as (v & W & ->). rewrite (learnt_back conf ks v CL W). apply learnt_more, W.
  - assert (OLD : forall p s, dget (w_files w) p = Some s -> vocab_name p -> exists v, was_learnt conf (ks ++ [(i, o)]) v /\ s = v_save v).
    { intros p s E V. destruct (IF p s E V) as (v & W & S). exists v. split; [apply learnt_more, W|exact S]. }
    intros p s. rewrite step_files. destruct o as [d|d1 d2|d1 d2 d3 q|d|d1 d2 q|f|f|d|l|d|b| |]; try apply OLD.
    + destruct (good d1 && good d2); [|apply OLD]. rewrite dget_dset. destruct (eqb_spec q p) as [->|_]; [|apply OLD]. intros _ V. exfalso. refine (NW p _ eq_refl V). apply in_app_iff. right. left. reflexivity.
    + destruct (good d1); [|apply OLD]. rewrite dget_dset. destruct (eqb_spec q p) as [->|_]; [|apply OLD]. intros _ V. exfalso. refine (NW p _ eq_refl V). apply in_app_iff. right. left. reflexivity.
    + rewrite dget_dset. destruct (eqb_spec (vname f) p) as [_|_]; [|apply OLD]. intros E _. injection E as <-. exists (w_voc w i). split; [apply learnt_more, IV|reflexivity].
Qed.
(** files that no call of a history writes *)
Lemma files_kept {D} (conf : nat -> vconf D) p ks : forall w, (forall k, In k ks -> may_write (snd k) <> Some p) -> dget (w_files (fst (vrun_all conf w ks))) p = dget (w_files w) p.
Proof.
  induction ks as [|[i o] ks IH]; intros w H; [reflexivity|]. cbn [vrun_all]. destruct (vrun conf w (i, o)) as [w1 a] eqn:E. destruct (vrun_all conf w1 ks) as [w2 l] eqn:E2. cbn [fst].
  specialize (IH w1). rewrite E2 in IH. cbn [fst] in IH. rewrite IH by (intros k I; apply H; right; exact I).
  pose proof (step_files conf w i o) as F. rewrite E in F. cbn [fst] in F. rewrite F. specialize (H (i, o) (or_introl eq_refl)). cbn [snd] in H.
  destruct o as [d|d1 d2|d1 d2 d3 q|d|d1 d2 q|f|f|d|m|d|b| |]; try reflexivity; cbn [may_write] in H.
  - destruct (good d1 && good d2); [|reflexivity]. rewrite dget_dset. destruct (eqb_spec q p); [congruence|reflexivity].
  - destruct (good d1); [|reflexivity]. rewrite dget_dset. destruct (eqb_spec q p); [congruence|reflexivity].
  - rewrite dget_dset. destruct (eqb_spec (vname f) p); [congruence|reflexivity].
Qed.
(** vocabularies that no call of a history learns or loads *)
Lemma voc_kept {D} (conf : nat -> vconf D) i ks : forall w, (forall j o, In (j, o) ks -> j = i -> learns_from o = None /\ forall f, o <> Load f) -> w_voc (fst (vrun_all conf w ks)) i = w_voc w i.
Proof.
  induction ks as [|[j o] ks IH]; intros w H; [reflexivity|]. cbn [vrun_all]. destruct (vrun conf w (j, o)) as [w1 a] eqn:E. destruct (vrun_all conf w1 ks) as [w2 l] eqn:E2. cbn [fst].
  specialize (IH w1). rewrite E2 in IH. cbn [fst] in IH. rewrite IH by (intros j' o' I; apply H; right; exact I).
  pose proof (step_voc conf w j o i) as F. rewrite E in F. cbn [fst] in F. rewrite F. destruct (Nat.eqb_spec i j) as [->|_]; [|reflexivity].
  destruct (H j o (or_introl eq_refl) eq_refl) as [L NL]. rewrite L. destruct o as [d|d1 d2|d1 d2 d3 q|d|d1 d2 q|f|f|d|m|d|b| |]; try reflexivity. exfalso. exact (NL f eq_refl).
Qed.
