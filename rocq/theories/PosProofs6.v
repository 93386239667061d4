(** * Proofs about the part-of-speech extractors: inflected words, one-character nouns, compound nouns *)
From Coq Require Import QArith Permutation.
From Verif Require Import PyBase PyDict PySort CountLemmas PyText HangleModel TokenizerModel UtilsModel NounModel JosaProofs LemmaModel PredModel PosModel PosSpec PosProofs PosProofs2.
Open Scope Z_scope.

Lemma how_much_or (P Q : str -> Prop) E k1 k2 : (forall w, P w -> ~ Q w) -> how_much P E k1 -> how_much Q E k2 -> how_much (fun w => P w \/ Q w) E (k1 + k2).
Proof.
  intros D (b & B & ->) (b' & B' & ->). exists (fun w => b w || b' w). split; [intros w I; rewrite orb_true_iff, (B w I), (B' w I); reflexivity|].
  assert (DJ : forall w, In w (dkeys E) -> b w = true -> b' w = true -> False) by (intros w I X Y; apply (D w); [apply (B w I), X|apply (B' w I), Y]). clear B B' D. induction E as [|[w n] E IH]; [reflexivity|]. cbn [Zsum fst snd].
  assert (IH' := IH (fun w' I => DJ w' (or_intror I))). specialize (DJ w (or_introl eq_refl)). destruct (b w) eqn:X, (b' w) eqn:Y; cbn [orb]; try lia; exfalso; auto.
Qed.
Lemma how_much_none (P : str -> Prop) E : (forall w, ~ P w) -> how_much P E 0.
Proof. intros H. exists (fun _ => false). split; [intros w _; split; [discriminate|intros X; destruct (H w X)]|]. induction E as [|p E IH]; [reflexivity|]. cbn [Zsum]. rewrite <- IH. reflexivity. Qed.
Lemma Zsum_get (e : dict str Z) k : NoDup (dkeys e) -> Zsum (fun p : str * Z => if eqb (fst p) k then snd p else 0) e = dgetd e k 0.
Proof.
  induction e as [|[w c] e IH]; intros N; [reflexivity|]. inversion N as [|? ? NI N']; subst. cbn [Zsum fst snd]. unfold dgetd in *. cbn [dget]. rewrite (IH N'). destruct (eqb_spec w k) as [->|NE]; [|lia]. destruct (dget e k) eqn:D; [exfalso; apply NI, dget_keys; congruence|lia].
Qed.
Lemma cumulate_table c e k : NoDup (dkeys e) -> dgetd (cumulate c e) k 0 = dgetd c k 0 + dgetd e k 0.
Proof. intros N. rewrite cumulate_get, Zsum_get by exact N. reflexivity. Qed.

(** ** inflected words *)
Section Lemmatize.
  Variables (stems eomis : list str) (ST EO : str -> Prop).
  Hypothesis HS : forall s, In s stems <-> ST s.
  Hypothesis HE : forall e, In e eomis <-> EO e.
  Definition known_at (w : str) (i : nat) : list (str * str) :=
    match lemma_candidate [] (firstn i w) (skipn i w) with Err _ => [] | Ok ls => filter (fun se : str * str => mem (fst se) stems && mem (snd se) eomis) ls end.
  Lemma known_at_In w i s e : In (s, e) (known_at w i) <-> cut_analysis ST EO (firstn i w) (skipn i w) s e.
  Proof.
    unfold known_at, cut_analysis. destruct (lemma_candidate [] (firstn i w) (skipn i w)) as [ls|x].
    - rewrite filter_In. cbn [fst snd]. rewrite andb_true_iff, !mem_In, HS, HE. split; [intros (I & A & B); exists ls; auto|intros (cs & [= <-] & I & A & B); auto].
    - split; [intros []|intros (cs & H & _); discriminate].
  Qed.
  Lemma lemmatize_at_eq w is : lemmatize_at stems eomis w is = match filter (fun i => match known_at w i with [] => false | _ => true end) is with [] => None | i :: _ => Some (known_at w i) end.
  Proof.
    induction is as [|i is IH]; [reflexivity|]. cbn [lemmatize_at filter]. rewrite IH. destruct (lemma_candidate [] (firstn i w) (skipn i w)) as [ls|x] eqn:L.
    - assert (KA : known_at w i = filter (fun se : str * str => mem (fst se) stems && mem (snd se) eomis) ls) by (unfold known_at; rewrite L; reflexivity).
      destruct (filter (fun se : str * str => mem (fst se) stems && mem (snd se) eomis) ls) as [|y ys] eqn:F; rewrite KA; [reflexivity|]. cbv beta iota. rewrite KA. reflexivity.
    - assert (KA : known_at w i = []) by (unfold known_at; rewrite L; reflexivity). rewrite KA. reflexivity.
  Qed.
  Lemma pos_lemmatize_spec w : w <> [] -> match pos_lemmatize stems eomis w with
    | Some ls => ls <> [] /\ forall s e, In (s, e) ls <-> longest_analysis ST EO w s e
    | None => forall s e, ~ longest_analysis ST EO w s e
    end.
  Proof.
    intros NW. unfold pos_lemmatize. rewrite lemmatize_at_eq. set (p := fun i => match known_at w i with [] => false | _ => true end).
    pose proof (filter_first p (rev (seq 1 (length w + 1)))) as F.
    assert (PN : forall i, p i = false -> forall s e, ~ cut_analysis ST EO (firstn i w) (skipn i w) s e).
    { intros i H s e C. apply known_at_In in C. unfold p in H. destruct (known_at w i); [destruct C|discriminate]. }
    destruct (filter p (rev (seq 1 (length w + 1)))) as [|i is].
    - intros s e (l & r & -> & NL & C & _). assert (I : In (length l) (rev (seq 1 (length (l ++ r) + 1)))) by (apply -> in_rev; apply in_seq; rewrite app_length; destruct l; [congruence|cbn [length]; lia]).
      apply F in I. apply (PN _ I s e). rewrite firstn_pre, skipn_pre. exact C.
    - destruct F as (a & b & EQ & PI & H). apply (f_equal (@rev nat)) in EQ. rewrite rev_involutive, rev_app_distr in EQ. cbn [rev] in EQ. rewrite <- app_assoc in EQ. cbn [app] in EQ. apply seq_app_nth in EQ as EQ'. destruct EQ' as [RB RI].
      assert (GT : forall j, (i < j <= length w + 1)%nat -> p j = false).
      { intros j J. apply H. assert (I : In j (seq 1 (length w + 1))) by (apply in_seq; lia). rewrite EQ in I. apply in_app_or in I as [I|[I|I]]; [rewrite RB in I; apply in_seq in I; lia|lia|apply in_rev, I]. }
      assert (LF : length (firstn i w) = Nat.min i (length w)) by apply firstn_length.
      assert (LW : (1 <= length w)%nat) by (destruct w; [congruence|cbn [length]; lia]).
      destruct (known_at w i) as [|[s1 e1] K] eqn:KA; [unfold p in PI; rewrite KA in PI; discriminate|].
      assert (C1 : cut_analysis ST EO (firstn i w) (skipn i w) s1 e1) by (apply known_at_In; rewrite KA; left; reflexivity). rewrite <- KA. split; [rewrite KA; discriminate|]. clear KA.
      intros s e. rewrite known_at_In. split.
      + intros C. exists (firstn i w), (skipn i w). split; [symmetry; apply firstn_skipn|]. split; [intros X; rewrite X in LF; cbn [length] in LF; lia|]. split; [exact C|].
        intros l' r' s' e' EQW LT C'. rewrite EQW, app_length in *. apply (PN (length l')) with (s := s') (e := e'); [apply GT; lia|]. rewrite firstn_pre, skipn_pre. exact C'.
      + intros (l & r & EQW & NL & C & MX). destruct (lt_eq_lt_dec (length l) (length (firstn i w))) as [[X|X]|X].
        * exfalso. apply (MX (firstn i w) (skipn i w) s1 e1); [symmetry; apply firstn_skipn|exact X|exact C1].
        * assert (Q : l = firstn i w /\ r = skipn i w) by (apply app_inj_len; [rewrite firstn_skipn; auto|exact X]). destruct Q as [<- <-]. exact C.
        * exfalso. assert (LL : (length l <= length w)%nat) by (rewrite EQW, app_length; lia). apply (PN (length l)) with (s := s) (e := e); [apply GT; lia|]. rewrite EQW, firstn_pre, skipn_pre. exact C.
  Qed.
End Lemmatize.

Lemma lemmatize_eojeols_In e stems eomis w n ls : In (w, (n, ls)) (lemmatize_eojeols e stems eomis) <-> In (w, n) e /\ pos_lemmatize stems eomis w = Some ls.
Proof.
  unfold lemmatize_eojeols. rewrite in_concat. split.
  - intros (L & I & J). apply in_map_iff in I as ([w' n'] & <- & I). cbn [fst snd] in J. destruct (pos_lemmatize stems eomis w') eqn:P; [|destruct J]. destruct J as [[= -> -> ->]|[]]. auto.
  - intros [I P]. eexists. split; [apply in_map_iff; exists (w, n); split; [reflexivity|exact I]|]. cbn [fst snd]. rewrite P. left. reflexivity.
Qed.
Lemma lemmatize_eojeols_keys e stems eomis : dkeys (lemmatize_eojeols e stems eomis) = filter (fun w => match pos_lemmatize stems eomis w with Some _ => true | None => false end) (dkeys e).
Proof. unfold lemmatize_eojeols. induction e as [|[w n] e IH]; [reflexivity|]. cbn [map concat dkeys fst snd filter]. destruct (pos_lemmatize stems eomis w); cbn [app]; unfold dkeys in *; cbn [map fst]; rewrite IH; reflexivity. Qed.

(** ** nouns of one character *)
Definition syl_hits (rc : dict str Z) (e : dict str Z) : dict str Z := filter (fun wc : str * Z => dmem rc (skipn 1 (fst wc))) e.
Lemma syllable_eq e : forall nouns rc rm, syllable_noun_and_r e (nouns, rc, rm) =
  (cumulate nouns (map (fun wc : str * Z => (firstn 1 (fst wc), snd wc)) (syl_hits rc e)), cumulate rc (map (fun wc : str * Z => (skipn 1 (fst wc), snd wc)) (syl_hits rc e)), rm ++ map fst (syl_hits rc e)).
Proof.
  unfold syllable_noun_and_r. induction e as [|[w n] e IH]; intros nouns rc rm; [cbn; rewrite app_nil_r; reflexivity|]. cbn [fold_left fst snd]. unfold syl_hits. cbn [filter fst]. destruct (dmem rc (skipn 1 w)) eqn:D; [|apply IH].
  rewrite IH. assert (F : syl_hits (cumulate rc [(skipn 1 w, n)]) e = syl_hits rc e).
  { unfold syl_hits. apply filter_ext. intros [w' n']. cbn [fst]. apply eq_true_iff_eq. rewrite !dmem_In, cumulate_keys. cbn [map fst In]. apply dmem_In in D. split; [|tauto]. intros [H|[<-|[]]]; auto. }
  rewrite F. fold (syl_hits rc e). cbn [map fst snd]. rewrite <- app_assoc. reflexivity.
Qed.
Section Syllable.
  Variables (E e : dict str Z) (P R : str -> Prop) (nouns rc : dict str Z) (rm : list str).
  Hypothesis S : sub E e P.
  Hypothesis HR : forall r, In r (dkeys rc) <-> R r.
  Hypothesis NW : forall w, P w -> w <> [].
  Definition scut (w l r : str) : Prop := P w /\ w = l ++ r /\ length l = 1%nat /\ R r.
  Lemma scut_iff w l r : scut w l r <-> P w /\ R (skipn 1 w) /\ l = firstn 1 w /\ r = skipn 1 w.
  Proof.
    unfold scut. split.
    - intros (PW & -> & L & RR). rewrite <- L, firstn_pre, skipn_pre. auto.
    - intros (PW & RR & -> & ->). split; [exact PW|]. split; [symmetry; apply firstn_skipn|]. split; [|exact RR]. specialize (NW w PW). destruct w; [congruence|reflexivity].
  Qed.
  Lemma syl_hits_In w : In w (map fst (syl_hits rc e)) <-> P w /\ R (skipn 1 w).
  Proof.
    rewrite <- (sub_In E e P w S), <- HR, <- (dmem_In rc). unfold syl_hits, dkeys. rewrite !in_map_iff. split.
    - intros ([w' n] & <- & I). apply filter_In in I as [I B]. split; [exists (w', n); auto|exact B].
    - intros [([w' n] & <- & I) B]. exists (w', n). split; [reflexivity|]. apply filter_In. auto.
  Qed.
  Lemma syllable_spec n' rc' rm' : syllable_noun_and_r e (nouns, rc, rm) = (n', rc', rm') ->
    (forall n, In n (dkeys n') <-> In n (dkeys nouns) \/ exists w r, scut w n r) /\ (forall r, In r (dkeys rc') <-> R r) /\ (forall w, In w rm' <-> In w rm \/ exists l r, scut w l r) /\
    (forall n, exists k, how_much (fun w => exists r, scut w n r) E k /\ dgetd n' n 0 = dgetd nouns n 0 + k) /\
    (forall r, exists k, how_much (fun w => exists l, scut w l r) E k /\ dgetd rc' r 0 = dgetd rc r 0 + k) /\
    (NoDup (dkeys nouns) -> NoDup (dkeys n')) /\ (NoDup (dkeys rc) -> NoDup (dkeys rc')) /\ (forall w, P w -> (exists l r, scut w l r) \/ ~ exists l r, scut w l r).
  Proof.
    rewrite syllable_eq. intros EQ. injection EQ as <- <- <-. 
    assert (SM : forall (g : str -> str) k, Zsum (fun p : str * Z => if eqb (fst p) k then snd p else 0) (map (fun wc : str * Z => (g (fst wc), snd wc)) (syl_hits rc e)) = Zsum (fun wc : str * Z => if dmem rc (skipn 1 (fst wc)) && eqb (g (fst wc)) k then snd wc else 0) e).
    { intros g k. unfold syl_hits. clear. induction e as [|[w n] e' IH]; [reflexivity|]. cbn [filter Zsum fst snd]. destruct (dmem rc (skipn 1 w)); cbn [map Zsum fst snd andb]; rewrite IH; lia. }
    assert (KM : forall (g : str -> str) n, In n (map fst (map (fun wc : str * Z => (g (fst wc), snd wc)) (syl_hits rc e))) <-> exists w, g w = n /\ In w (map fst (syl_hits rc e))).
    { intros g n. rewrite !in_map_iff. split.
      - intros ([n' k] & Q & I). cbn [fst] in Q. subst n'. apply in_map_iff in I as ([w c] & Q & I). cbn [fst snd] in Q. injection Q as Q1 Q2. exists w. split; [exact Q1|]. apply in_map_iff. exists (w, c). auto.
      - intros (w & <- & I). apply in_map_iff in I as ([w' c] & <- & I). exists (g w', c). split; [reflexivity|]. apply in_map_iff. exists (w', c). auto. }
    split; [|split; [|split; [|split; [|split; [|split; [|split]]]]]].
    - intros n. rewrite cumulate_keys, (KM (fun w => firstn 1 w)). split; (intros [H|H]; [left; exact H|right]).
      + destruct H as (w & <- & I). apply syl_hits_In in I as [PW RR]. exists w, (skipn 1 w). apply scut_iff. auto.
      + destruct H as (w & r & C). apply scut_iff in C as (PW & RR & -> & _). exists w. split; [reflexivity|]. apply syl_hits_In. auto.
    - intros r. rewrite cumulate_keys, (KM (fun w => skipn 1 w)), HR. split; [|auto]. intros [H|(w & <- & I)]; [exact H|]. apply syl_hits_In in I as [_ RR]. exact RR.
    - intros w. rewrite in_app_iff, syl_hits_In. split; (intros [H|H]; [left; exact H|right]).
      + destruct H as [PW RR]. exists (firstn 1 w), (skipn 1 w). apply scut_iff. auto.
      + destruct H as (l & r & C). apply scut_iff in C. tauto.
    - intros n. eexists. split; [|rewrite cumulate_get, (SM (fun w => firstn 1 w)); reflexivity].
      apply (sub_sum E e P (fun w => dmem rc (skipn 1 w) && eqb (firstn 1 w) n)); [exact S|intros w (r & PW & _); exact PW|]. intros w PW. rewrite andb_true_iff, dmem_In, HR, eqb_eq. split.
      + intros [RR <-]. exists (skipn 1 w). apply scut_iff. auto.
      + intros (r & C). apply scut_iff in C as (_ & RR & -> & _). auto.
    - intros n. eexists. split; [|rewrite cumulate_get, (SM (fun w => skipn 1 w)); reflexivity].
      apply (sub_sum E e P (fun w => dmem rc (skipn 1 w) && eqb (skipn 1 w) n)); [exact S|intros w (r & PW & _); exact PW|]. intros w PW. rewrite andb_true_iff, dmem_In, HR, eqb_eq. split.
      + intros [RR <-]. exists (firstn 1 w). apply scut_iff. auto.
      + intros (r & C). apply scut_iff in C as (_ & RR & _ & ->). auto.
    - intros N. apply cumulate_wf, N.
    - intros N. apply cumulate_wf, N.
    - intros w PW. destruct (In_dec_str (skipn 1 w) (dkeys rc)) as [I|I].
      + left. exists (firstn 1 w), (skipn 1 w). apply scut_iff. split; [exact PW|]. split; [apply HR, I|auto].
      + right. intros (l & r & C). apply scut_iff in C as (_ & RR & _). apply I, HR, RR.
  Qed.
End Syllable.
