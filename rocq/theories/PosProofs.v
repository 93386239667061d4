(** * Proofs about the part-of-speech extractors: tables and cuts *)
From Coq Require Import QArith Permutation.
From Verif Require Import PyBase PyDict CountLemmas PyText HangleModel TokenizerModel UtilsModel NounModel JosaProofs LemmaModel PredModel PosModel PosSpec.
Open Scope Z_scope.

Lemma dgetd_dset (c : dict str Z) k v k' : dgetd (dset c k v) k' 0 = if eqb k k' then v else dgetd c k' 0.
Proof. unfold dgetd. rewrite dget_dset. destruct (eqb k k'); reflexivity. Qed.
Lemma cumulate_get L : forall c k, dgetd (cumulate c L) k 0 = dgetd c k 0 + Zsum (fun p : str * Z => if eqb (fst p) k then snd p else 0) L.
Proof.
  induction L as [|[w n] L IH]; intros c k; [cbn [cumulate fold_left Zsum]; lia|]. unfold cumulate in *. cbn [fold_left Zsum fst snd]. rewrite IH, dgetd_dset. destruct (eqb_spec w k) as [->|_]; lia.
Qed.
Lemma dset_In {V} (d : dict str V) k v k' : In k' (dkeys (dset d k v)) <-> k' = k \/ In k' (dkeys d).
Proof. rewrite <- !dget_keys, dget_dset. destruct (eqb_spec k k') as [->|n]; [split; [left; reflexivity|discriminate]|]. split; [intros H; right; exact H|intros [H|H]; [congruence|exact H]]. Qed.
Lemma cumulate_keys L : forall c k, In k (dkeys (cumulate c L)) <-> In k (dkeys c) \/ In k (map fst L).
Proof.
  induction L as [|[w n] L IH]; intros c k; [cbn [map In]; unfold cumulate; cbn [fold_left]; tauto|]. unfold cumulate in *. cbn [fold_left map fst snd In]. rewrite IH, dset_In.
  split; [intros [[->|H]|H]; auto|intros [H|[->|H]]; auto].
Qed.
Lemma cumulate_wf L : forall c, NoDup (dkeys c) -> NoDup (dkeys (cumulate c L)).
Proof. induction L as [|[w n] L IH]; intros c H; [exact H|]. unfold cumulate in *. cbn [fold_left fst snd]. apply IH, (dwf_dset c), H. Qed.
Lemma dmem_In {V} (d : dict str V) k : dmem d k = true <-> In k (dkeys d).
Proof. rewrite <- dget_keys. unfold dmem. destruct (dget d k); split; congruence. Qed.
Lemma dupdate_get {V} (e : dict str V) : NoDup (dkeys e) -> forall (d : dict str V) k, dget (dupdate d e) k = match dget e k with Some v => Some v | None => dget d k end.
Proof.
  induction e as [|[k0 v] e IH]; intros N d k; [reflexivity|]. inversion N as [|? ? NI N']; subst. unfold dupdate in *. cbn [fold_left fst snd]. rewrite (IH N'), dget_dset. cbn [dget].
  destruct (eqb_spec k0 k) as [->|n]; [|reflexivity]. assert (D : dget e k = None) by (destruct (dget e k) eqn:D; [exfalso; apply NI, dget_keys; congruence|reflexivity]). rewrite D. reflexivity.
Qed.
Lemma dupdate_wf {V} (e : dict str V) : forall d, NoDup (dkeys d) -> NoDup (dkeys (dupdate d e)).
Proof. induction e as [|[k v] e IH]; intros d H; [exact H|]. unfold dupdate in *. cbn [fold_left fst snd]. apply IH, (dwf_dset d), H. Qed.

(** ** tables of eojeols *)
Definition sub (E e : dict str Z) (P : str -> Prop) : Prop := (forall w, P w -> In w (dkeys E)) /\ exists p, e = dfilter (fun w _ => p w) E /\ forall w, In w (dkeys E) -> (p w = true <-> P w).
Lemma dfilter_In {V} (p : str -> bool) (E : dict str V) w : In w (dkeys (dfilter (fun w _ => p w) E)) <-> In w (dkeys E) /\ p w = true.
Proof.
  unfold dfilter, dkeys. rewrite !in_map_iff. split.
  - intros ([k v] & <- & I). apply filter_In in I as [I B]. split; [exists (k, v); auto|exact B].
  - intros [([k v] & <- & I) B]. exists (k, v). split; [reflexivity|]. apply filter_In. auto.
Qed.
Lemma sub_In E e P w : sub E e P -> (In w (dkeys e) <-> P w).
Proof. intros (I & p & -> & H). rewrite dfilter_In. split; [intros [X Y]; apply H; assumption|intros X; pose proof (I w X); split; [assumption|apply H; assumption]]. Qed.
Lemma sub_all E : sub E E (fun w => In w (dkeys E)).
Proof. split; [auto|]. exists (fun _ => true). split; [unfold dfilter; induction E as [|p E IH]; [reflexivity|cbn [filter]; rewrite <- IH; reflexivity]|]. intros w I. split; auto. Qed.
Lemma dfilter_dfilter {V} (p q : str -> bool) (E : dict str V) : dfilter (fun w _ => q w) (dfilter (fun w _ => p w) E) = dfilter (fun w _ => p w && q w) E.
Proof. unfold dfilter. induction E as [|[w v] E IH]; [reflexivity|]. cbn [filter fst snd]. destruct (p w); cbn [filter fst snd andb]; rewrite IH; reflexivity. Qed.
Lemma sub_dfilter E e P (q : str -> bool) (P' : str -> Prop) : sub E e P -> (forall w, P' w -> P w) -> (forall w, P w -> (q w = true <-> P' w)) -> sub E (dfilter (fun w _ => q w) e) P'.
Proof.
  intros (I & p & -> & H) S Q. split; [intros w X; apply I, S, X|]. exists (fun w => p w && q w). split; [apply dfilter_dfilter|]. intros w K. rewrite andb_true_iff, (H w K). split; [intros [X Y]; apply Q; assumption|].
  intros X. split; [apply S, X|]. apply Q; [apply S, X|exact X].
Qed.
Lemma sub_unrecognized E e P (q : str -> bool) (P' : str -> Prop) : sub E e P -> (forall w, P' w -> P w) -> (forall w, P w -> (q w = true <-> ~ P' w)) -> (forall w, P w -> P' w \/ ~ P' w) -> sub E (unrecognized e q) P'.
Proof.
  intros H S Q D. unfold unrecognized. apply (sub_dfilter E e P (fun w => negb (q w))); [exact H|exact S|]. intros w X. rewrite negb_true_iff, <- not_true_iff_false, (Q w X). destruct (D w X); tauto.
Qed.
Lemma sub_get E e P w : NoDup (dkeys E) -> sub E e P -> dget e w <> None -> dget e w = dget E w.
Proof. intros N (I & p & -> & H) X. rewrite dget_dfilter in * by exact N. destruct (dget E w); [destruct (p w); congruence|congruence]. Qed.
Lemma sub_wf E e P : NoDup (dkeys E) -> sub E e P -> NoDup (dkeys e).
Proof. intros N (I & p & -> & H). unfold dfilter, dkeys. apply NoDup_filter_map. exact N. Qed.
Lemma sub_weaken E e P P' : (forall w, P w <-> P' w) -> sub E e P -> sub E e P'.
Proof. intros Q (I & p & -> & H). split; [intros w X; apply I, Q, X|]. exists p. split; [reflexivity|]. intros w K. rewrite (H w K). apply Q. Qed.
Lemma sub_sum E e P (b : str -> bool) (Q : str -> Prop) : sub E e P -> (forall w, Q w -> P w) -> (forall w, P w -> (b w = true <-> Q w)) -> how_much Q E (Zsum (fun wc : str * Z => if b (fst wc) then snd wc else 0) e).
Proof.
  intros (I & p & -> & H) S B. exists (fun w => p w && b w). split.
  - intros w K. rewrite andb_true_iff, (H w K). split; [intros [X Y]; apply B; assumption|intros X; split; [apply S, X|apply B; [apply S, X|exact X]]].
  - clear. unfold dfilter. induction E as [|[w n] E IH]; [reflexivity|]. cbn [filter Zsum fst snd]. destruct (p w); cbn [Zsum fst snd andb]; rewrite IH; lia.
Qed.
Lemma how_much_ext P P' E n : (forall w, P w <-> P' w) -> how_much P E n -> how_much P' E n.
Proof. intros H (b & B & ->). exists b. split; [intros w I; rewrite (B w I); apply H|reflexivity]. Qed.
Lemma how_much_fun P E n n' : how_much P E n -> how_much P E n' -> n = n'.
Proof.
  intros (b & B & ->) (b' & B' & ->). apply Zsum_ext. intros [w n] I. cbn [fst snd]. assert (K : In w (dkeys E)) by (apply in_map_iff; exists (w, n); auto). specialize (B w K). specialize (B' w K). destruct (b w), (b' w); tauto || (exfalso; intuition discriminate) || reflexivity.
Qed.
(** the words that give something in a pass *)
Lemma Zsum_hits {B} (f : str -> option B) (g : B -> str) (e : dict str Z) k :
  Zsum (fun p : str * Z => if eqb (fst p) k then snd p else 0) (map (fun p : B * Z => (g (fst p), snd p)) (concat (map (fun wc : str * Z => match f (fst wc) with Some b => [(b, snd wc)] | None => [] end) e))) =
  Zsum (fun wc : str * Z => if (match f (fst wc) with Some b => eqb (g b) k | None => false end) then snd wc else 0) e.
Proof.
  induction e as [|[w n] e IH]; [reflexivity|]. cbn [map concat fst snd Zsum]. rewrite <- IH. destruct (f w) as [b|]; cbn [app map Zsum fst snd]; lia.
Qed.
Lemma hits_In {B} (f : str -> option B) (e : dict str Z) b : In b (map fst (concat (map (fun wc : str * Z => match f (fst wc) with Some b => [(b, snd wc)] | None => [] end) e))) <-> exists w, In w (dkeys e) /\ f w = Some b.
Proof.
  rewrite in_map_iff. split.
  - intros ([b' n] & <- & I). apply in_concat in I as (L & I & J). apply in_map_iff in I as ([w m] & <- & I). cbn [fst snd] in J. destruct (f w) as [b''|] eqn:F; [|destruct J]. destruct J as [[= -> ->]|[]]. exists w. split; [apply in_map_iff; exists (w, n); auto|exact F].
  - intros (w & I & F). apply in_map_iff in I as ([w' n] & <- & I). cbn [fst] in F. exists (b, n). split; [reflexivity|]. apply in_concat. exists [(b, n)]. split; [|left; reflexivity]. apply in_map_iff. exists (w', n). cbn [fst snd]. rewrite F. auto.
Qed.

(** ** the first cut *)
Lemma filter_first {A} (p : A -> bool) (l : list A) : match filter p l with [] => forall x, In x l -> p x = false | y :: _ => exists a b, l = a ++ y :: b /\ p y = true /\ forall x, In x a -> p x = false end.
Proof.
  induction l as [|z l IH]; [intros x []|]. cbn [filter]. destruct (p z) eqn:P; [exists [], l; split; [reflexivity|split; [exact P|intros x []]]|].
  destruct (filter p l) as [|y ys].
  - intros x [<-|I]; [exact P|apply IH, I].
  - destruct IH as (a & b & -> & PY & H). exists (z :: a), b. split; [reflexivity|]. split; [exact PY|]. intros x [<-|I]; [exact P|apply H, I].
Qed.
Lemma seq_app_nth a b n m i : seq n m = a ++ i :: b -> a = seq n (i - n) /\ (n <= i < n + m)%nat.
Proof.
  revert n m. induction a as [|y a IH]; intros n m H; destruct m as [|m]; try discriminate; cbn [seq app] in H.
  - injection H as E _. subst i. replace (n - n)%nat with 0%nat by lia. split; [reflexivity|lia].
  - injection H as E H. subst y. apply IH in H as [H1 H2]. subst a. split; [|lia]. replace (i - n)%nat with (Datatypes.S (i - Datatypes.S n)) by lia. reflexivity.
Qed.
Lemma separate_spec (L R : str -> Prop) (lset rset : str -> bool) w : (forall l, lset l = true <-> L l) -> (forall r, rset r = true <-> R r) ->
  match separate_lr lset rset 2 w with Some lr => first_split L R w (fst lr) (snd lr) | None => forall l r, ~ first_split L R w l r end.
Proof.
  intros HL HR. unfold separate_lr. pose proof (filter_first (fun i => lset (firstn i w) && rset (skipn i w)) (seq 2 (length w - 2))) as F.
  assert (HB : forall i, (lset (firstn i w) && rset (skipn i w)) = true <-> L (firstn i w) /\ R (skipn i w)) by (intros i; rewrite andb_true_iff, HL, HR; reflexivity).
  destruct (filter _ (seq 2 (length w - 2))) as [|i is].
  - intros l r (-> & L2 & NE & A & B & _). assert (I : In (length l) (seq 2 (length (l ++ r) - 2))) by (apply in_seq; rewrite app_length; destruct r; [congruence|cbn [length]; lia]).
    apply F in I. rewrite firstn_pre, skipn_pre in I. apply HL in A. apply HR in B. rewrite A, B in I. discriminate.
  - destruct F as (a & b & EQ & PI & H). apply seq_app_nth in EQ as [-> RI]. cbn [fst snd]. apply HB in PI as [PL PR]. assert (LI : (i <= length w)%nat) by lia.
    split; [symmetry; apply firstn_skipn|]. rewrite firstn_length_le by exact LI. split; [lia|]. split; [intros X; apply (f_equal (@length _)) in X; rewrite skipn_length in X; cbn [length] in X; lia|]. split; [exact PL|]. split; [exact PR|].
    intros l' r' E L2 LT [A B]. assert (I : In (length l') (seq 2 (i - 2))) by (apply in_seq; lia). apply H in I. subst w. rewrite firstn_pre, skipn_pre in I. apply HL in A. apply HR in B. rewrite A, B in I. discriminate.
Qed.
Lemma app_inj_len {A} (l r l' r' : list A) : l ++ r = l' ++ r' -> length l = length l' -> l = l' /\ r = r'.
Proof. intros E N. apply (f_equal (firstn (length l))) in E as E1. apply (f_equal (skipn (length l))) in E as E2. rewrite firstn_pre, N, firstn_pre in E1. rewrite skipn_pre, N, skipn_pre in E2. auto. Qed.
Lemma first_split_fun L R w l r l' r' : first_split L R w l r -> first_split L R w l' r' -> l = l' /\ r = r'.
Proof.
  intros (E & L2 & NE & A & B & M) (E' & L2' & NE' & A' & B' & M').
  assert (length l = length l') by (destruct (lt_eq_lt_dec (length l) (length l')) as [[X|X]|X]; [exfalso; apply (M' l r E L2 X); auto|exact X|exfalso; apply (M l' r' E' L2' X); auto]).
  rewrite E in E'. apply app_inj_len in E'; auto.
Qed.

Lemma In_dkeys_fst {V} (e : dict str V) w : In w (dkeys e) <-> exists v, In (w, v) e.
Proof. unfold dkeys. rewrite in_map_iff. split; [intros ([k v] & <- & I); exists v; exact I|intros [v I]; exists (w, v); auto]. Qed.
Definition pieces (lset rset : str -> bool) (e : dict str Z) : list ((str * str) * Z) :=
  concat (map (fun wc : str * Z => match separate_lr lset rset 2 (fst wc) with Some lr => [(lr, snd wc)] | None => [] end) e).
(** one pass of the noun and word match *)
Lemma pass_spec E e (P L R : str -> Prop) nouns (rset : str -> bool) rc rm : sub E e P -> (forall l, In l (dkeys nouns) <-> L l) -> (forall r, rset r = true <-> R r) ->
  let cut := fun w l r => P w /\ first_split L R w l r in
  forall n' rc' rm', match_process e nouns rset rc rm = (n', rc', rm') ->
  (forall n, In n (dkeys n') <-> L n) /\ (forall r, In r (dkeys rc') <-> In r (dkeys rc) \/ exists w l, cut w l r) /\
  (forall w, In w rm' <-> In w rm \/ exists l r, cut w l r) /\
  (forall n, exists k, how_much (fun w => exists r, cut w n r) E k /\ dgetd n' n 0 = dgetd nouns n 0 + k) /\
  (forall r, exists k, how_much (fun w => exists l, cut w l r) E k /\ dgetd rc' r 0 = dgetd rc r 0 + k) /\
  (NoDup (dkeys nouns) -> NoDup (dkeys n')) /\ (NoDup (dkeys rc) -> NoDup (dkeys rc')) /\ (forall w, P w -> (exists l r, cut w l r) \/ ~ exists l r, cut w l r).
Proof.
  intros S HL HR cut n' rc' rm' EQ. unfold match_process in EQ. fold (pieces (dmem nouns) rset e) in EQ. injection EQ as E1 E2 E3. 
  assert (HL' : forall l, dmem nouns l = true <-> L l) by (intros l; rewrite dmem_In; apply HL).
  pose proof (fun w => separate_spec L R (dmem nouns) rset w HL' HR) as SP.
  assert (IN : forall lr, In lr (map fst (pieces (dmem nouns) rset e)) <-> exists w, cut w (fst lr) (snd lr)).
  { intros lr. unfold pieces. rewrite hits_In. split.
    - intros (w & I & F). exists w. split; [apply (sub_In E e P w S), I|]. specialize (SP w). rewrite F in SP. exact SP.
    - intros (w & PW & F). exists w. split; [apply (sub_In E e P w S), PW|]. specialize (SP w). destruct (separate_lr (dmem nouns) rset 2 w) as [[l r]|]; [|exfalso; eapply SP, F]. cbn [fst snd] in SP. destruct (first_split_fun _ _ _ _ _ _ _ SP F) as [-> ->]. destruct lr; reflexivity. }
  assert (INm : forall (g : str * str -> str) y, In y (map fst (map (fun p : (str * str) * Z => (g (fst p), snd p)) (pieces (dmem nouns) rset e))) <-> exists lr, In lr (map fst (pieces (dmem nouns) rset e)) /\ y = g lr).
  { intros g y. rewrite map_map. cbn [fst]. rewrite <- (map_map fst g), in_map_iff. split; intros (lr & A & B); exists lr; auto. }
  subst n' rc' rm'. split; [|split; [|split; [|split; [|split; [|split; [|split]]]]]].
  - intros n. rewrite cumulate_keys, (INm fst). rewrite HL. split; [|intros H; left; exact H]. intros [H|(lr & I & ->)]; [exact H|]. apply IN in I as (w & _ & F). apply F.
  - intros r. rewrite cumulate_keys, (INm snd). split; (intros [H|H]; [left; exact H|right]).
    + destruct H as (lr & I & ->). apply IN in I as (w & F). exists w, (fst lr). exact F.
    + destruct H as (w & l & F). exists (l, r). split; [apply IN; exists w; exact F|reflexivity].
  - intros w. rewrite in_app_iff. rewrite <- (map_map fst (fun lr : str * str => fst lr ++ snd lr)), in_map_iff. split; (intros [H|H]; [left; exact H|right]).
    + destruct H as (lr & <- & I). apply IN in I as (w' & F). exists (fst lr), (snd lr). destruct F as [PW F]. replace (fst lr ++ snd lr) with w' by apply F. split; assumption.
    + destruct H as (l & r & PW & F). exists (l, r). split; [symmetry; apply F|]. apply IN. exists w. split; assumption.
  - intros n. eexists. split; [|rewrite cumulate_get; unfold pieces; rewrite (Zsum_hits _ fst); reflexivity].
    apply (sub_sum E e P (fun w => match separate_lr (dmem nouns) rset 2 w with Some b => eqb (fst b) n | None => false end)); [exact S|intros w (r & PW & _); exact PW|].
    intros w PW. specialize (SP w). destruct (separate_lr (dmem nouns) rset 2 w) as [[l r]|]; cbn [fst snd] in *.
    + rewrite eqb_eq. split; [intros <-; exists r; split; assumption|intros (r' & _ & F); apply (first_split_fun _ _ _ _ _ _ _ SP F)].
    + split; [discriminate|]. intros (r & _ & F). exfalso. eapply SP, F.
  - intros n. eexists. split; [|rewrite cumulate_get; unfold pieces; rewrite (Zsum_hits _ snd); reflexivity].
    apply (sub_sum E e P (fun w => match separate_lr (dmem nouns) rset 2 w with Some b => eqb (snd b) n | None => false end)); [exact S|intros w (r & PW & _); exact PW|].
    intros w PW. specialize (SP w). destruct (separate_lr (dmem nouns) rset 2 w) as [[l r]|]; cbn [fst snd] in *.
    + rewrite eqb_eq. split; [intros <-; exists l; split; assumption|intros (r' & _ & F); apply (first_split_fun _ _ _ _ _ _ _ SP F)].
    + split; [discriminate|]. intros (r & _ & F). exfalso. eapply SP, F.
  - intros N. apply cumulate_wf, N.
  - intros N. apply cumulate_wf, N.
  - intros w PW. specialize (SP w). destruct (separate_lr (dmem nouns) rset 2 w) as [[l r]|]; [left; exists l, r; split; assumption|right; intros (l & r & _ & F); eapply SP, F].
Qed.
