(** * Properties C43-C45: BaseVectorizer and sent_to_word_contexts_matrix *)
From Coq Require Import QArith Qround Lqa.
From Verif Require Import PyBase PyDict PySort PyText PyFile CountLemmas SortLemmas QLemmas UtilsSpec UtilsProofs UtilsProofs3 UtilsProofs5 VectorizerModel VectorizerSpec VectorizerProofs VectorizerProofs2 VectorizerProofs3 VectorizerProofs4.
Open Scope Z_scope.

Definition conf0 : vconf str := mkVconf split 0 99999999 0 1 [] true.
Definition docs0 : list str := [u "a b a"; u "b c"; u "b"].

(** ** C43: after fit, and after load of a vocabulary without repetitions, terms and indices 0..n-1 are in bijection *)
Theorem C43_fit_bijection {D} (c : vconf D) docs v : fit c docs = Ok v -> coherent v /\ vocabs v = idx2vocab v.
Proof.
  rewrite fit_eq. destruct docs as [|d docs]; [discriminate|]. intros E. injection E as <-. pose proof (fterms_NoDup c (d :: docs)) as N. split; [apply set_vocab_coherent, N|].
  unfold vocabs. rewrite (set_vocab_keys _ N). apply map_fst_sort_enum.
Qed.
Print Assumptions C43_fit_bijection.
Example C43_fit_example : option_map idx2vocab (match fit conf0 docs0 with Ok v => Some v | _ => None end) = Some [u "b"; u "a"; u "c"].
Proof. vm_compute. reflexivity. Qed.
Theorem C43_set_bijection l : coherent (set_vocabulary l) <-> NoDup l.
Proof. split; [apply coherent_set_NoDup|apply set_vocab_coherent]. Qed.
Print Assumptions C43_set_bijection.

(** encoding a document and decoding it gives its in-vocabulary tokens, in order; decoding and encoding drops the indices out of range *)
Theorem C43_decode_encode v toks : coherent v -> decode_list v (encode_list v toks) = Ok (filter (fun t => mem t (idx2vocab v)) toks).
Proof. intros C. apply decode_encode_list, C. Qed.
Print Assumptions C43_decode_encode.
Theorem C43_encode_decode v is : coherent v -> exists toks, decode_list v is = Ok toks /\ encode_list v toks = filter (fun i => (0 <=? i) && (i <? n_vocabs v)) is.
Proof. intros C. apply encode_decode_list, C. Qed.
Print Assumptions C43_encode_decode.
(** the bag of words maps each index to the number of occurrences of its term *)
Theorem C43_bow v toks i : coherent v -> dget (encode_bow v toks) i =
  if (0 <=? i) && (i <? n_vocabs v) then (let n := occ (nth (Z.to_nat i) (idx2vocab v) []) toks in if 0 <? n then Some n else None) else None.
Proof. intros C. apply encode_bow_get, C. Qed.
Print Assumptions C43_bow.
Theorem C43_decode_bow v toks : coherent v -> exists d, decode_bow v (encode_bow v toks) = Ok d /\ NoDup (map fst d) /\
  forall t, dget d t = if mem t (idx2vocab v) && mem t toks then Some (occ t toks) else None.
Proof.
  intros C. exists (dfilter (fun t _ => mem t (idx2vocab v)) (counter toks)). split; [apply decode_bow_encode, C|]. split; [apply (dwf_dfilter _ _ (counter_wf toks))|].
  intros t. rewrite dget_dfilter_key, counter_get. destruct (mem t (idx2vocab v)); reflexivity.
Qed.
Print Assumptions C43_decode_bow.
(** transform: entry (i, j) is the number of occurrences of term j in document i; no place is stored twice, no zero is stored *)
Theorem C43_transform {D} (c : vconf D) v docs : coherent v -> docs <> [] -> exists m, transform c v docs = Ok m /\
  nrows m = Z.of_nat (length docs) /\ ncols m = Z.of_nat (length (idx2vocab v)) /\ NoDup (map fst (triplets m)) /\
  (forall i j n, In (i, j, n) (triplets m) -> 0 <= i < nrows m /\ 0 <= j < ncols m /\ 0 < n) /\
  forall i j d t, nth_error docs i = Some d -> nth_error (idx2vocab v) j = Some t -> entryZ m (Z.of_nat i) (Z.of_nat j) = occ t (vtok c d).
Proof.
  intros C NE. destruct (transform c v docs) as [m|e] eqn:E.
  2:{ exfalso. unfold transform in E. destruct docs; [congruence|discriminate]. }
  exists m. split; [reflexivity|]. pose proof (transform_eq v c docs m E) as (_ & Er & Ec & _). split; [exact Er|]. split; [rewrite Ec; apply C|].
  split; [apply (transform_NoDup v C c docs m E)|]. split; [intros i j n; apply (transform_range v C c docs m i j n E)|].
  intros i j d t. apply (transform_entry v C c docs m i j d t E).
Qed.
Print Assumptions C43_transform.
Example C43_transform_example : match fit_transform conf0 docs0 with Ok (v, m) => triplets m = [(0, 1, 2); (0, 0, 1); (1, 0, 1); (1, 2, 1); (2, 0, 1)] | _ => False end.
Proof. vm_compute. reflexivity. Qed.
(** to_file writes the Matrix Market form of that same matrix, with the right number of elements in the header *)
Theorem C43_to_file {D} (c : vconf D) v docs m : coherent v -> transform c v docs = Ok m -> to_file c v docs = Ok (mm_file m).
Proof. intros C. apply to_file_mm, C. Qed.
Print Assumptions C43_to_file.
(** save and load *)
Theorem C43_save_load v : coherent v -> Forall (fun t => strip t = t /\ no_nl t) (idx2vocab v) ->
  let v' := v_load (v_save v) in idx2vocab v' = idx2vocab v /\ n_vocabs v' = n_vocabs v /\ forall t, dget (vocabulary v') t = dget (vocabulary v) t.
Proof.
  intros (N & L & B) F. cbv zeta. rewrite (load_save v F). cbn [idx2vocab n_vocabs set_vocabulary]. split; [reflexivity|]. split; [symmetry; exact L|].
  intros t. destruct (set_vocab_coherent _ N) as (_ & _ & B').
  destruct (dget (vocabulary (set_vocabulary (idx2vocab v))) t) as [i|] eqn:E.
  - apply B' in E. symmetry. apply B. exact E.
  - destruct (dget (vocabulary v) t) as [i|] eqn:E'; [|reflexivity]. apply B in E'. apply B' in E'. congruence.
Qed.
Print Assumptions C43_save_load.
(** with the default tokenizer a fitted vectorizer is restored exactly *)
Theorem C43_save_load_default (c : vconf str) docs v : vtok c = split -> fit c docs = Ok v -> v_load (v_save v) = v.
Proof.
  intros T E. rewrite load_save.
  - rewrite fit_eq in E. destruct docs as [|d docs]; [discriminate|]. injection E as <-. reflexivity.
  - rewrite fit_eq in E. destruct docs as [|dx docsx] eqn:ED; [discriminate|]. rewrite <- ED in *. injection E as <-. cbn [idx2vocab set_vocabulary]. apply Forall_forall. intros t I.
    apply fterms_In in I as [(d' & _ & I) _]. rewrite T in I. eapply split_tokens_ok, I.
Qed.
Print Assumptions C43_save_load_default.
Example C43_save_load_example : exists v, fit conf0 docs0 = Ok v /\ v_save v = u "b" ++ [10%N] ++ u "a" ++ [10%N] ++ u "c" ++ [10%N].
Proof. eexists. split; [vm_compute; reflexivity|]. vm_compute. reflexivity. Qed.

(** ** C44: the fitted vocabulary is exactly the terms whose document frequency passes all four limits, by decreasing document
    frequency, ties in order of first appearance *)
Theorem C44_vocabulary_exact {D} (c : vconf D) docs v : fit c docs = Ok v ->
  idx2vocab v = sort (fun x y => - doc_freq (vtok c) docs x <=? - doc_freq (vtok c) docs y)
    (filter (fun t => let n := doc_freq (vtok c) docs t in
               (Qfloor (inject_Z (Z.of_nat (length docs)) * min_df c) <=? n) && (n <=? Qfloor (inject_Z (Z.of_nat (length docs)) * max_df c)) &&
               ((min_tf c <=? n) && (n <=? max_tf c)))
       (first_seen (concat (map (vtok c) docs)))).
Proof. rewrite fit_eq. destruct docs as [|d docs]; [discriminate|]. intros E. injection E as <-. reflexivity. Qed.
Print Assumptions C44_vocabulary_exact.
Theorem C44_constructor {D} (c : vconf D) : (exists v, v_new c = Ok v) <-> (0 <= min_df c < 1)%Q /\ (0 < max_df c <= 1)%Q.
Proof.
  unfold v_new. assert (Q : forall a b, negb (Qle_bool a b) = true <-> (b < a)%Q).
  { intros a b. rewrite negb_true_iff. split; [intros X; apply Qnot_le_lt; intros Y; apply Qle_bool_iff in Y; congruence|]. intros X. destruct (Qle_bool a b) eqn:Y; [|reflexivity]. apply Qle_bool_iff in Y. exfalso. apply (Qlt_not_le _ _ X Y). }
  destruct (Qle_bool 0 (min_df c) && negb (Qle_bool 1 (min_df c)) && (negb (Qle_bool (max_df c) 0) && Qle_bool (max_df c) 1)) eqn:E.
  - rewrite !andb_true_iff, !Q, !Qle_bool_iff in E. split; [intros _; tauto|eauto].
  - split; [intros (v & X); discriminate|]. intros H. exfalso. rewrite <- not_true_iff_false, !andb_true_iff, !Q, !Qle_bool_iff in E. tauto.
Qed.
Print Assumptions C44_constructor.
Theorem C44_membership {D} (c : vconf D) docs v t : fit c docs = Ok v ->
  (In t (idx2vocab v) <-> (exists d, In d docs /\ In t (vtok c d)) /\
     Qfloor (inject_Z (Z.of_nat (length docs)) * min_df c) <= doc_freq (vtok c) docs t <= Qfloor (inject_Z (Z.of_nat (length docs)) * max_df c) /\
     min_tf c <= doc_freq (vtok c) docs t <= max_tf c).
Proof.
  rewrite fit_eq. destruct docs as [|dx docsx] eqn:ED; [discriminate|]. rewrite <- ED. clear ED. intros E. injection E as <-. cbn [idx2vocab set_vocabulary]. rewrite fterms_In.
  unfold fpass. cbv zeta. rewrite !andb_true_iff, !Z.leb_le. tauto.
Qed.
Print Assumptions C44_membership.
Theorem C44_decreasing {D} (c : vconf D) docs v : fit c docs = Ok v -> StronglySorted (fun x y => doc_freq (vtok c) docs y <= doc_freq (vtok c) docs x) (idx2vocab v).
Proof. intros E. rewrite (C44_vocabulary_exact c docs v E). apply sorted_desc. Qed.
Print Assumptions C44_decreasing.
Theorem C44_fit_defined {D} (c : vconf D) docs : (exists v, fit c docs = Ok v) <-> docs <> [].
Proof. rewrite fit_eq. destruct docs as [|d docs]; split; [intros [v E]; discriminate|congruence|discriminate|eauto]. Qed.
Print Assumptions C44_fit_defined.
(** min_tf does not bound the number of occurrences: a term that occurs min_tf times in one document is dropped *)
Theorem C44_term_frequency_refuted : exists (c : vconf str) docs v t, fit c docs = Ok v /\ min_tf c <= word_freq (vtok c) docs t <= max_tf c /\
  min_df c = 0%Q /\ max_df c = 1%Q /\ ~ In t (idx2vocab v).
Proof. exists (mkVconf split 2 99999999 0 1 [] true), [u "a a a"; u "b"], (mkVocab [] [] 0), (u "a"). vm_compute. intuition congruence. Qed.
(** stopwords and lowercase have no effect *)
Theorem C44_stopwords_ignored {D} (c : vconf D) docs sw lc : fit (mkVconf (vtok c) (min_tf c) (max_tf c) (min_df c) (max_df c) sw lc) docs = fit c docs.
Proof. reflexivity. Qed.
Print Assumptions C44_stopwords_ignored.

(** ** C45: the word-context matrix *)
Lemma matrix_unfold {S} (tok : S -> list str) order sents windows mtf dyn vb m i2v : (forall l, Permutation (order l) l) ->
  sent_to_word_contexts_matrix tok order sents windows mtf dyn vb = Ok (m, i2v) ->
  let V := set_vocabulary (wterms tok order mtf sents) in let d := word_context tok (dmem (vocabulary V)) (weights windows dyn) sents in
  i2v = wterms tok order mtf sents /\ coherent V /\ cwf (dmem (vocabulary V)) d /\ etrip V d <> [] /\
  m = mkMatrix (zmax (map (fun t => fst (fst t)) (etrip V d)) + 1) (zmax (map (fun t => snd (fst t)) (etrip V d)) + 1) (etrip V d).
Proof.
  intros P E. cbv zeta. destruct (scanning_eq tok order mtf sents P) as [N SE]. unfold sent_to_word_contexts_matrix in E. rewrite SE in E.
  set (V := set_vocabulary (wterms tok order mtf sents)) in *. set (d := word_context tok (dmem (vocabulary V)) (weights windows dyn) sents) in *.
  assert (coherent V) as C by (apply set_vocab_coherent, N).
  assert (cwf (dmem (vocabulary V)) d) as W. { unfold d. rewrite word_context_events. apply cwf_events; [apply events_ok|]. split; [apply dwf_nil|constructor]. }
  assert ((do x <- encode_as_matrix d (vocabulary V); Ok (x, wterms tok order mtf sents)) = Ok (m, i2v)) as E'.
  { clear -E. clearbody d. clearbody V. destruct sents as [|s0 ss], vb; (exact E || discriminate E). }
  rewrite (encode_eq V d W) in E'. destruct (etrip V d) as [|t l]; [discriminate|]. cbn [bind] in E'. injection E' as <- <-. split; [reflexivity|]. split; [exact C|]. split; [exact W|]. split; [discriminate|reflexivity].
Qed.
Lemma nth_dget V i t : coherent V -> nth_error (idx2vocab V) i = Some t -> dget (vocabulary V) t = Some (Z.of_nat i).
Proof. intros (_ & _ & B) E. apply B. rewrite Nat2Z.id. split; [lia|exact E]. Qed.

(** rows and columns: exactly the words that occur at least min_tf times, by decreasing frequency *)
Theorem C45_vocabulary {S} (tok : S -> list str) order sents windows mtf dyn vb m i2v : (forall l, Permutation (order l) l) ->
  sent_to_word_contexts_matrix tok order sents windows mtf dyn vb = Ok (m, i2v) ->
  NoDup i2v /\ (forall w, In w i2v <-> (exists s, In s sents /\ In w (tok s)) /\ mtf <= word_freq tok sents w) /\
  StronglySorted (fun x y => word_freq tok sents y <= word_freq tok sents x) i2v.
Proof.
  intros P E. destruct (matrix_unfold _ _ _ _ _ _ _ _ _ P E) as (-> & C & _). split; [apply C|]. split; [intros w; apply wterms_In, P|apply sorted_desc].
Qed.
Print Assumptions C45_vocabulary.
(** the entry of two words is the sum, over all sentences and all pairs of positions, of the weight of their distance *)
Theorem C45_cooccurrence {S} (tok : S -> list str) order sents windows mtf dyn vb m i2v i j a b : (forall l, Permutation (order l) l) ->
  sent_to_word_contexts_matrix tok order sents windows mtf dyn vb = Ok (m, i2v) -> nth_error i2v i = Some a -> nth_error i2v j = Some b ->
  (entryQ m (Z.of_nat i) (Z.of_nat j) == cooc tok windows dyn sents a b)%Q.
Proof.
  intros P E Ei Ej. destruct (matrix_unfold _ _ _ _ _ _ _ _ _ P E) as (-> & C & W & _ & ->). set (V := set_vocabulary (wterms tok order mtf sents)) in *.
  apply (nth_dget V i a C) in Ei. apply (nth_dget V j b C) in Ej. rewrite (etrip_entry V C _ W _ _ a b _ _ Ei Ej). apply corpus_sum; unfold dmem; [rewrite Ei|rewrite Ej]; reflexivity.
Qed.
Print Assumptions C45_cooccurrence.
Definition sents0 : list str := [u "a b a c"; u "b c"].
Example C45_example : match sent_to_word_contexts_matrix split (fun l => l) sents0 2 1 true false with
  | Ok (m, i2v) => i2v = [u "a"; u "b"; u "c"] /\ nrows m = 3 /\ (entryQ m 0 1 == 2)%Q /\ (entryQ m 0 0 == 1)%Q /\ (entryQ m 1 2 == 3 # 2)%Q | _ => False end.
Proof. vm_compute. repeat split; reflexivity. Qed.
(** each place is stored once, inside the shape *)
Theorem C45_places {S} (tok : S -> list str) order sents windows mtf dyn vb m i2v : (forall l, Permutation (order l) l) ->
  sent_to_word_contexts_matrix tok order sents windows mtf dyn vb = Ok (m, i2v) ->
  NoDup (map fst (triplets m)) /\ forall i j q, In (i, j, q) (triplets m) -> 0 <= i < nrows m /\ 0 <= j < ncols m.
Proof.
  intros P E. destruct (matrix_unfold _ _ _ _ _ _ _ _ _ P E) as (_ & C & W & NE & ->). set (V := set_vocabulary (wterms tok order mtf sents)) in *. cbn [triplets nrows ncols].
  split; [apply etrip_NoDup; assumption|].
  assert (forall i j q, In (i, j, q) (etrip V (word_context tok (dmem (vocabulary V)) (weights windows dyn) sents)) -> 0 <= i /\ 0 <= j) as NN.
  { intros i j q I. apply (etrip_In V _ W) in I as (a & b & Ea & Eb & _). apply C in Ea as [? _]. apply C in Eb as [? _]. auto. }
  intros i j q I. pose proof (NN i j q I).
  set (ts := etrip V _) in *.
  destruct (zmax_spec (map (fun t => fst (fst t)) ts)) as [_ U1]. { destruct ts; [tauto|discriminate]. } { intros x Ix. apply in_map_iff in Ix as ([[a b] c] & <- & Ix). apply NN in Ix. cbn. tauto. }
  destruct (zmax_spec (map (fun t => snd (fst t)) ts)) as [_ U2]. { destruct ts; [tauto|discriminate]. } { intros x Ix. apply in_map_iff in Ix as ([[a b] c] & <- & Ix). apply NN in Ix. cbn. tauto. }
  specialize (U1 i). specialize (U2 j). assert (i <= zmax (map (fun t => fst (fst t)) ts)) by (apply U1, in_map_iff; exists (i, j, q); auto).
  assert (j <= zmax (map (fun t => snd (fst t)) ts)) by (apply U2, in_map_iff; exists (i, j, q); auto). lia.
Qed.
Print Assumptions C45_places.
(** the matrix is symmetric, also with dynamic weights *)
Lemma out_zero m i j : (forall q, ~ In (i, j, q) (triplets m)) -> (entryQ m i j == 0)%Q.
Proof.
  intros N. unfold entryQ. assert (filter (fun t : Z * Z * Q => (fst (fst t) =? i) && (snd (fst t) =? j)) (triplets m) = []) as ->; [|reflexivity].
  induction (triplets m) as [|[[a b] q] ts IH]; [reflexivity|]. cbn [filter fst snd]. destruct (Z.eqb_spec a i) as [->|]; [destruct (Z.eqb_spec b j) as [->|]|]; cbn [andb].
  - exfalso. apply (N q). left. reflexivity.
  - apply IH. intros q' I. apply (N q'). right. exact I.
  - apply IH. intros q' I. apply (N q'). right. exact I.
Qed.
Theorem C45_symmetric {S} (tok : S -> list str) order sents windows mtf dyn vb m i2v i j : (forall l, Permutation (order l) l) ->
  sent_to_word_contexts_matrix tok order sents windows mtf dyn vb = Ok (m, i2v) -> (entryQ m i j == entryQ m j i)%Q.
Proof.
  intros P E. pose proof (matrix_unfold _ _ _ _ _ _ _ _ _ P E) as (EI & C & W & _ & EM). set (V := set_vocabulary (wterms tok order mtf sents)) in *.
  assert (forall i j q, In (i, j, q) (triplets m) -> exists a b, dget (vocabulary V) a = Some i /\ dget (vocabulary V) b = Some j) as T.
  { intros i' j' q I. rewrite EM in I. cbn [triplets] in I. apply (etrip_In V _ W) in I as (a & b & Ea & Eb & _). eauto. }
  assert (forall i j a b, dget (vocabulary V) a = Some i -> dget (vocabulary V) b = Some j -> (entryQ m i j == cooc tok windows dyn sents a b)%Q) as A.
  { intros i' j' a b Ea Eb. apply C in Ea as [Gi Ei]. apply C in Eb as [Gj Ej]. rewrite <- (Z2Nat.id i' Gi), <- (Z2Nat.id j' Gj). apply (C45_cooccurrence tok order sents windows mtf dyn vb m i2v); try assumption.
    - rewrite EI. exact Ei.
    - rewrite EI. exact Ej. }
  destruct (C) as (_ & _ & B).
  destruct (nth_error (idx2vocab V) (Z.to_nat i)) as [a|] eqn:Ni, (nth_error (idx2vocab V) (Z.to_nat j)) as [b|] eqn:Nj; [|rewrite !out_zero; [reflexivity| |]..].
  - destruct (Z.leb_spec 0 i) as [Li|Li], (Z.leb_spec 0 j) as [Lj|Lj]; [|rewrite !out_zero; [reflexivity| |]..].
    + rewrite (A i j a b), (A j i b a); [apply cooc_sym|apply B; auto..].
    + intros q I. apply T in I as (x & y & Ex & Ey). apply B in Ex as [? _]. lia.
    + intros q I. apply T in I as (x & y & Ex & Ey). apply B in Ey as [? _]. lia.
    + intros q I. apply T in I as (x & y & Ex & Ey). apply B in Ey as [? _]. lia.
    + intros q I. apply T in I as (x & y & Ex & Ey). apply B in Ex as [? _]. lia.
    + intros q I. apply T in I as (x & y & Ex & Ey). apply B in Ex as [? _]. lia.
    + intros q I. apply T in I as (x & y & Ex & Ey). apply B in Ex as [? _]. lia.
  - intros q I. apply T in I as (x & y & Ex & Ey). apply B in Ex as [_ Ex]. congruence.
  - intros q I. apply T in I as (x & y & Ex & Ey). apply B in Ey as [_ Ey]. congruence.
  - intros q I. apply T in I as (x & y & Ex & Ey). apply B in Ey as [_ Ey]. congruence.
  - intros q I. apply T in I as (x & y & Ex & Ey). apply B in Ex as [_ Ex]. congruence.
  - intros q I. apply T in I as (x & y & Ex & Ey). apply B in Ex as [_ Ex]. congruence.
  - intros q I. apply T in I as (x & y & Ex & Ey). apply B in Ex as [_ Ex]. congruence.
Qed.
Print Assumptions C45_symmetric.
(** it is square; its side is one more than the largest index of a word that has any context *)
Theorem C45_shape {S} (tok : S -> list str) order sents windows mtf dyn vb m i2v : (forall l, Permutation (order l) l) ->
  sent_to_word_contexts_matrix tok order sents windows mtf dyn vb = Ok (m, i2v) ->
  nrows m = ncols m /\ nrows m <= Z.of_nat (length i2v) /\
  (exists i j a b, nrows m = Z.of_nat i + 1 /\ nth_error i2v i = Some a /\ nth_error i2v j = Some b /\ (0 < cooc tok windows dyn sents a b)%Q) /\
  (forall i j a b, nrows m <= Z.of_nat i -> nth_error i2v i = Some a -> nth_error i2v j = Some b -> (cooc tok windows dyn sents a b == 0)%Q).
Proof.
  intros P E. pose proof (matrix_unfold _ _ _ _ _ _ _ _ _ P E) as (EI & C & W & NE & EM). set (V := set_vocabulary (wterms tok order mtf sents)) in *.
  set (d := word_context tok (dmem (vocabulary V)) (weights windows dyn) sents) in *. set (ts := etrip V d) in *.
  assert (forall i j, (exists q, In (i, j, q) ts) <-> exists a b, dget (vocabulary V) a = Some i /\ dget (vocabulary V) b = Some j /\ (0 < cooc tok windows dyn sents a b)%Q) as T.
  { intros i j. split.
    - intros [q I]. apply (etrip_In V _ W) in I as (a & b & Ea & Eb & Q). exists a, b. split; [exact Ea|]. split; [exact Eb|].
      apply (present tok (dmem (vocabulary V))); [unfold dmem; rewrite Ea; reflexivity|unfold dmem; rewrite Eb; reflexivity|]. fold d. rewrite Q. discriminate.
    - intros (a & b & Ea & Eb & Q). apply (present tok (dmem (vocabulary V))) in Q; [|unfold dmem; rewrite Ea; reflexivity|unfold dmem; rewrite Eb; reflexivity]. fold d in Q.
      destruct (qget d a b) as [q|] eqn:G; [|congruence]. exists q. apply (etrip_In V _ W). exists a, b. auto. }
  assert (forall i j, (exists q, In (i, j, q) ts) -> exists q, In (j, i, q) ts) as TS.
  { intros i j I. apply T in I as (a & b & Ea & Eb & Q). apply T. exists b, a. rewrite cooc_sym in Q. auto. }
  assert (forall i j, (exists q, In (i, j, q) ts) -> 0 <= i < Z.of_nat (length i2v)) as R.
  { intros i j I. apply T in I as (a & b & Ea & _). apply C in Ea as [G Ea]. assert (nth_error (idx2vocab V) (Z.to_nat i) <> None) as X by congruence. apply nth_error_Some in X.
    rewrite EI. change (idx2vocab V) with (wterms tok order mtf sents) in X. lia. }
  assert (forall x, In x (map (fun t : Z * Z * Q => fst (fst t)) ts) <-> exists j q, In (x, j, q) ts) as F1.
  { intros x. rewrite in_map_iff. split; [intros ([[a b] q] & <- & I); eauto|intros (j & q & I); exists (x, j, q); auto]. }
  assert (forall x, In x (map (fun t : Z * Z * Q => snd (fst t)) ts) <-> exists j q, In (x, j, q) ts) as F2.
  { intros x. rewrite in_map_iff. split; [intros ([[a b] q] & <- & I); cbn; destruct (TS a b) as [q' I']; eauto|].
    intros (j & q & I). destruct (TS x j) as [q' I']; [eauto|]. exists (j, x, q'). auto. }
  assert (map (fun t : Z * Z * Q => fst (fst t)) ts <> [] /\ map (fun t : Z * Z * Q => snd (fst t)) ts <> []) as [NE1 NE2] by (destruct ts; [tauto|split; discriminate]).
  destruct (zmax_spec (map (fun t => fst (fst t)) ts) NE1) as [I1 U1]. { intros x Ix. apply F1 in Ix as (j & q & Ix). apply (R x j). eauto. }
  destruct (zmax_spec (map (fun t => snd (fst t)) ts) NE2) as [I2 U2]. { intros x Ix. apply F2 in Ix as (j & q & Ix). apply (R x j). eauto. }
  rewrite EM. cbn [nrows ncols].
  split. { apply F1, F2, U2 in I1. apply F2, F1, U1 in I2. lia. }
  apply F1 in I1 as (j & q & I1). pose proof (R _ _ (ex_intro _ q I1)) as RI. split; [lia|]. split.
  - apply (ex_intro (fun q => In (_, j, q) ts)) in I1. apply T in I1 as (a & b & Ea & Eb & Q). apply C in Ea as [Ga Ea]. apply C in Eb as [Gb Eb].
    exists (Z.to_nat (zmax (map (fun t => fst (fst t)) ts))), (Z.to_nat j), a, b. rewrite Z2Nat.id by exact Ga. rewrite EI. auto.
  - intros i' j' a b L Ei Ej. rewrite EI in Ei, Ej. change (wterms tok order mtf sents) with (idx2vocab V) in Ei, Ej. apply (nth_dget V i' a C) in Ei. apply (nth_dget V j' b C) in Ej.
    destruct (Qlt_le_dec 0 (cooc tok windows dyn sents a b)) as [Q|Q].
    + assert (exists q, In (Z.of_nat i', Z.of_nat j', q) ts) as [q' I'] by (apply T; exists a, b; auto).
      assert (Z.of_nat i' <= zmax (map (fun t => fst (fst t)) ts)) by (apply U1, F1; eauto). lia.
    + apply Qle_antisym; [exact Q|]. apply Qsum_nonneg. intros s _. apply cooc1_nonneg.
Qed.
Print Assumptions C45_shape.
(** the number of rows need not be the size of the vocabulary *)
Theorem C45_shape_refuted : exists sents m i2v, sent_to_word_contexts_matrix split (fun l => l) sents 1 1 false false = Ok (m, i2v) /\ nrows m <> Z.of_nat (length i2v).
Proof. exists [u "a b"; u "c"]. do 2 eexists. split; [vm_compute; reflexivity|]. vm_compute. discriminate. Qed.
(** the call succeeds iff some two frequent words co-occur (otherwise scipy cannot infer a shape) *)
Theorem C45_defined {S} (tok : S -> list str) order sents windows mtf dyn vb : (forall l, Permutation (order l) l) ->
  ((exists m i2v, sent_to_word_contexts_matrix tok order sents windows mtf dyn vb = Ok (m, i2v)) <->
   exists a b, mtf <= word_freq tok sents a /\ mtf <= word_freq tok sents b /\ (0 < cooc tok windows dyn sents a b)%Q).
Proof.
  intros P. split.
  - intros (m & i2v & E). destruct (C45_shape _ _ _ _ _ _ _ _ _ P E) as (_ & _ & (i & j & a & b & _ & Ei & Ej & Q) & _). destruct (C45_vocabulary _ _ _ _ _ _ _ _ _ P E) as (_ & M & _).
    exists a, b. apply nth_error_In, M in Ei. apply nth_error_In, M in Ej. tauto.
  - intros (a & b & Fa & Fb & Q).
    assert (forall c, (exists b, 0 < cooc tok windows dyn sents c b)%Q -> exists s, In s sents /\ In c (tok s)) as O.
    { intros c [b' Q']. destruct (existsb (fun s => mem c (tok s)) sents) eqn:X.
      - apply existsb_exists in X as (s & I & M). exists s. split; [exact I|apply mem_In, M].
      - exfalso. assert (cooc tok windows dyn sents c b' == 0)%Q as Z; [|rewrite Z in Q'; discriminate Q'].
        unfold cooc. apply Qsum_zero. intros s I. unfold cooc1. apply Qsum_zero. intros i Ii. apply in_seq in Ii. apply Qsum_zero. intros j _.
        destruct (eqb_spec (nth i (tok s) []) c) as [E|]; [|reflexivity]. exfalso.
        assert (existsb (fun s => mem c (tok s)) sents = true) as Y; [|congruence]. apply existsb_exists. exists s. split; [exact I|]. apply mem_In. rewrite <- E. apply nth_In. lia. }
    destruct (scanning_eq tok order mtf sents P) as [N SE]. set (V := set_vocabulary (wterms tok order mtf sents)) in *.
    set (d := word_context tok (dmem (vocabulary V)) (weights windows dyn) sents).
    assert (coherent V) as C by (apply set_vocab_coherent, N).
    assert (cwf (dmem (vocabulary V)) d) as W. { unfold d. rewrite word_context_events. apply cwf_events; [apply events_ok|]. split; [apply dwf_nil|constructor]. }
    assert (dmem (vocabulary V) a = true) as Da. { rewrite (coh_memb V C). apply mem_In. apply (wterms_In tok order mtf sents a P). split; [apply O; eauto|exact Fa]. }
    assert (dmem (vocabulary V) b = true) as Db. { rewrite (coh_memb V C). apply mem_In. apply (wterms_In tok order mtf sents b P). split; [apply O; exists a; rewrite cooc_sym; exact Q|exact Fb]. }
    pose proof Q as Q'. apply (present tok (dmem (vocabulary V)) windows dyn sents a b Da Db) in Q'. fold d in Q'. destruct (qget d a b) as [q|] eqn:G; [|congruence].
    assert (In (idx V a, idx V b, q) (etrip V d)) as I. { apply (etrip_In V _ W). exists a, b. split; [apply idx_get, Da|]. split; [apply idx_get, Db|exact G]. }
    assert (exists x, encode_as_matrix d (vocabulary V) = Ok x) as [x X]. { rewrite (encode_eq V d W). destruct (etrip V d); [destruct I|eauto]. }
    exists x, (wterms tok order mtf sents). unfold sent_to_word_contexts_matrix. rewrite SE. fold d. rewrite X. cbn [bind].
    destruct sents as [|s0 sents']; [|reflexivity]. destruct (O a) as (s & [] & _). eauto.
Qed.
Print Assumptions C45_defined.
