(** * Property theorems for the normalisers (C12 - C17, C59) *)
From Verif Require Import PyBase PyText PyRe PyReProofs HangleModel HangleSpec NormalizerModel NormalizerSpec NormalizerProofs NormalizerProofs2.
Open Scope N_scope.

(** an approximation of [\w], used only in the examples *)
Definition word_ex (c : N) : bool := hangle_c c || alphabet_c c || number_c c || (c =? 95).

(** C12: the result is the maximal runs of kept characters joined by single spaces *)
Theorem C12_only_hangle : forall keep s ws, (forall c, keep c = true <-> hangul c) ->
  MaxRuns keep s ws -> only_hangle s = join [32] ws.
Proof.
  intros keep s ws K M. rewrite only_hangle_runs. f_equal. apply runs_MaxRuns_iff in M. rewrite M.
  apply runs_iff_ext. intros c. rewrite K. apply hangle_c_iff.
Qed.
Print Assumptions C12_only_hangle.
Theorem C12_only_hangle_number : forall keep s ws, (forall c, keep c = true <-> hangul c \/ digit c) ->
  MaxRuns keep s ws -> only_hangle_number s = join [32] ws.
Proof.
  intros keep s ws K M. rewrite only_hangle_number_runs. f_equal. apply runs_MaxRuns_iff in M. rewrite M.
  apply runs_iff_ext. intros c. rewrite K, orb_true_iff, hangle_c_iff, number_c_iff. reflexivity.
Qed.
Print Assumptions C12_only_hangle_number.
Theorem C12_only_text : forall keep s ws, (forall c, keep c = true <-> text_char c) ->
  MaxRuns keep s ws -> only_text s = join [32] ws.
Proof.
  intros keep s ws K M. rewrite only_text_runs. f_equal. apply runs_MaxRuns_iff in M. rewrite M.
  apply runs_iff_ext. intros c. rewrite K. apply text_c_iff.
Qed.
Print Assumptions C12_only_text.
(** consequences, for each of the three functions *)
Theorem C12_facts : forall f keep,
  (f = only_hangle /\ (forall c, keep c = true <-> hangul c)) \/
  (f = only_hangle_number /\ (forall c, keep c = true <-> hangul c \/ digit c)) \/
  (f = only_text /\ (forall c, keep c = true <-> text_char c)) -> forall s,
  Forall (fun c => keep c = true \/ c = 32) (f s) /\ filter keep (f s) = filter keep s /\ f (f s) = f s /\ MaxRuns keep s (split (f s)).
Proof.
  intros f keep H. apply keep_join_facts.
  - intros c E. apply text_nonspace. destruct H as [[_ K]|[[_ K]|[_ K]]]; apply K in E; unfold text_char; tauto.
  - intros s. destruct H as [[-> K]|[[-> K]|[-> K]]].
    + rewrite only_hangle_runs. f_equal. apply runs_iff_ext. intros c. rewrite K. apply hangle_c_iff.
    + rewrite only_hangle_number_runs. f_equal. apply runs_iff_ext. intros c. rewrite K, orb_true_iff, hangle_c_iff, number_c_iff. reflexivity.
    + rewrite only_text_runs. f_equal. apply runs_iff_ext. intros c. rewrite K. apply text_c_iff.
Qed.
Print Assumptions C12_facts.
Example C12_nonvacuous : only_hangle (u "  가나ㅋ3, abc 다") = u "가나ㅋ 다" /\ only_hangle_number (u "가3-4나") = u "가3 4나"
  /\ only_text (u "(가)-나 #x!") = u "(가) 나 x!".
Proof. vm_compute. auto. Qed.

(** C13 *)
Theorem C13_normalize_keeps_enabled_classes : forall word alphabet number punctuation symbol remove_repeat s keep ws,
  (remove_repeat <= 0)%Z ->
  (forall c, keep c = true <-> (hangul c \/ In c (u """'") \/ (alphabet = true /\ letter c) \/ (number = true /\ digit c) \/
     (punctuation = true /\ In c (u ",.?!")) \/ (symbol = true /\ In c (u "()[]{}")))) ->
  MaxRuns keep s ws ->
  normalize word s alphabet number punctuation symbol remove_repeat = join [32] ws.
Proof.
  intros * R K M. rewrite normalize_runs by exact R. f_equal. apply runs_MaxRuns_iff in M. rewrite M.
  apply runs_iff_ext. intros c. rewrite K. apply norm_keep_iff.
Qed.
Print Assumptions C13_normalize_keeps_enabled_classes.
(** with [remove_repeat = n > 0] each of these runs additionally has its repeats of three or more equal word characters
    shortened to [n] *)
Theorem C13_normalize_remove_repeat : forall word alphabet number punctuation symbol n s keep ws,
  (forall c, word c = true -> is_space c = false) -> (0 < n)%Z ->
  (forall c, keep c = true <-> (hangul c \/ In c (u """'") \/ (alphabet = true /\ letter c) \/ (number = true /\ digit c) \/
     (punctuation = true /\ In c (u ",.?!")) \/ (symbol = true /\ In c (u "()[]{}")))) ->
  MaxRuns keep s ws -> exists vs, Forall2 (BlockSub word 1 2 (Z.to_nat n)) ws vs /\
  normalize word s alphabet number punctuation symbol n = join [32] vs.
Proof.
  intros * W P K M. exists (map (re_repeat_sub word 1 2 (Z.to_nat n)) ws). split.
  - clear M. induction ws; constructor; [|assumption]. apply re_repeat_sub_spec; [repeat constructor|reflexivity].
  - rewrite normalize_repeat_runs by assumption. f_equal. f_equal. apply runs_MaxRuns_iff in M. rewrite M.
    apply runs_iff_ext. intros c. rewrite K. apply norm_keep_iff.
Qed.
Print Assumptions C13_normalize_remove_repeat.
Theorem C13_normalize_idempotent : forall word alphabet number punctuation symbol s,
  let f s := normalize word s alphabet number punctuation symbol 0 in f (f s) = f s.
Proof.
  intros word a n p y s f. apply (keep_join_facts (norm_keep a n p y) f).
  - apply norm_keep_nonspace.
  - intros t. apply normalize_runs. reflexivity.
Qed.
Print Assumptions C13_normalize_idempotent.
(** naive claim "with every flag off only Hangul survives" is false, and the hyphen never survives *)
Theorem C13_only_hangul_by_default_refuted : exists s c, In c (normalize word_ex s false false false false 0) /\ ~ hangul c /\ c <> 32.
Proof.
  exists (u "'가'"), 39. split; [vm_compute; auto|]. unfold hangul, syllable, consonant, vowel. lia.
Qed.
Print Assumptions C13_only_hangul_by_default_refuted.
Theorem C13_hyphen_never_kept : forall word a n p y r s, (r <= 0)%Z -> ~ In 45 (normalize word s a n p y r).
Proof.
  intros word a n p y r s R I. rewrite normalize_runs in I by exact R.
  pose proof (keep_join_facts (norm_keep a n p y) (fun s => join [SP] (runs (norm_keep a n p y) s)) (norm_keep_nonspace a n p y) (fun _ => eq_refl) s) as (F & _).
  rewrite Forall_forall in F. destruct (F _ I) as [H|H]; [|discriminate].
  unfold norm_keep in H. rewrite !andb_true_iff in H. destruct H as ((((H & _) & _) & _) & _). vm_compute in H. discriminate.
Qed.
Print Assumptions C13_hyphen_never_kept.
Example C13_nonvacuous : normalize word_ex (u "가나ㅋㅋㅋㅋ-abc, (12)!") true false true false 2 = u "가나ㅋㅋ abc, !"
  /\ normalize word_ex (u "가나ㅋㅋㅋㅋ-abc, (12)!") false true false true 0 = u "가나ㅋㅋㅋㅋ (12)".
Proof. vm_compute. auto. Qed.

(** C14: [expand gs] is the string given by its maximal runs of equal characters *)
Theorem C14_every_string_has_runs : forall s, exists gs, maximal gs /\ expand gs = s.
Proof. exact expand_exists. Qed.
Print Assumptions C14_every_string_has_runs.
Theorem C14_repeat_normalize_exact : forall word gs n, maximal gs -> (0 < n)%Z ->
  repeat_normalize word (expand gs) n =
  join [32] (split (expand (map (fun g => if word (fst g) && (3 <=? snd g)%nat then (fst g, Z.to_nat n) else g) gs))).
Proof.
  intros word gs n M P. unfold repeat_normalize. replace (0 <? n)%Z with true by (symmetry; apply Z.ltb_lt; exact P).
  rewrite strip_collapse. unfold repeat_sub. rewrite re1_expand by exact M. reflexivity.
Qed.
Print Assumptions C14_repeat_normalize_exact.
Theorem C14_nonpositive_only_whitespace : forall word s n, (n <= 0)%Z -> repeat_normalize word s n = join [32] (split s).
Proof. exact repeat_normalize_neg. Qed.
Print Assumptions C14_nonpositive_only_whitespace.
Theorem C14_idempotent : forall word s n, (forall c, word c = true -> is_space c = false) ->
  repeat_normalize word (repeat_normalize word s n) n = repeat_normalize word s n.
Proof. exact repeat_normalize_idem. Qed.
Print Assumptions C14_idempotent.
Theorem C14_no_long_run_remains : forall word s n c a b, (forall c, word c = true -> is_space c = false) -> (0 < n <= 2)%Z ->
  word c = true -> repeat_normalize word s n <> a ++ [c; c; c] ++ b.
Proof. exact repeat_normalize_no3. Qed.
Print Assumptions C14_no_long_run_remains.
Example C14_nonvacuous : repeat_normalize word_ex (u "ㅋㅋㅋㅋ  와와 !!!! 하하하") 2 = u "ㅋㅋ 와와 !!!! 하하" /\
  repeat_normalize word_ex (u "ㅋㅋㅋ") 5 = u "ㅋㅋㅋㅋㅋ".
Proof. vm_compute. auto. Qed.

(** C15 *)
Theorem C15_emoticon_exact : forall word s n, exists t, Neighbours Emoticon None s t /\
  emoticon_normalize word s n = Ok (repeat_normalize word t n).
Proof. exact emoticon_normalize_spec. Qed.
Print Assumptions C15_emoticon_exact.
Theorem C15_emoticon_rule_is_a_function : forall p c n a1 a2, Emoticon p c n a1 -> Emoticon p c n a2 -> a1 = a2.
Proof. exact emoticon_det. Qed.
Print Assumptions C15_emoticon_rule_is_a_function.
Theorem C15_without_lone_consonants_only_repeats : forall word s n, Forall (fun c => ~ consonant c) s ->
  emoticon_normalize word s n = Ok (repeat_normalize word s n).
Proof.
  intros word s n F. destruct (emoticon_normalize_spec word s n) as (t & Nb & E). rewrite E.
  rewrite (emoticon_id None s t F); [reflexivity| |exact Nb]. intros (x & X & _). discriminate.
Qed.
Print Assumptions C15_without_lone_consonants_only_repeats.
(** naive claim "no syllable is lost" is false *)
Theorem C15_no_syllable_lost_refuted : exists s, emoticon_normalize word_ex s 2 = Ok (u "ㅋ") /\ s = u "아ㅋ".
Proof. exists (u "아ㅋ"). split; [vm_compute; reflexivity|reflexivity]. Qed.
Print Assumptions C15_no_syllable_lost_refuted.
Example C15_nonvacuous : emoticon_normalize word_ex (u "앜ㅋㅋㅋㅋ ㅋ쿠ㅜㅜ") 2 = Ok (u "아ㅋㅋ ㅋㅋㅜㅜ").
Proof. vm_compute. reflexivity. Qed.

(** C16 *)
Theorem C16_remain_hangle_on_last : forall e,
  (Forall (fun c => ~ hangul c) e -> remain_hangle_on_last e = []) /\
  (forall p h q, e = p ++ h :: q -> hangul h -> Forall (fun c => ~ hangul c) q -> remain_hangle_on_last e = lstrip (p ++ [h])).
Proof. exact remain_spec. Qed.
Print Assumptions C16_remain_hangle_on_last.
(** every run of kept characters is cut after its last Hangul character (and dropped if it has none) *)
Theorem C16_lrgraph_sentence_exact : forall keep s ws,
  (forall c, keep c = true <-> hangul c \/ letter c \/ digit c \/ In c (u ",.?!""'")) -> MaxRuns keep s ws ->
  exists vs, normalize_sent_for_lrgraph s = join [32] (filter (fun v => negb (length v =? 0)%nat) vs) /\
    Forall2 (fun w v => (exists r, w = v ++ r /\ Forall (fun c => ~ hangul c) r) /\ (v = [] \/ exists p h, v = p ++ [h] /\ hangul h)) ws vs.
Proof.
  intros keep s ws K M. exists (map remain_hangle_on_last ws). apply runs_MaxRuns_iff in M.
  assert (E : ws = runs lr_keep s). { rewrite M. apply runs_iff_ext. intros c. rewrite K, lr_keep_iff. reflexivity. }
  split.
  - rewrite lrgraph_runs, E. f_equal. apply filter_ext. intros [|]; reflexivity.
  - pose proof (runs_Forall lr_keep s) as F. rewrite <- E in F. clear E M. induction F as [|w ws [_ Fw] F IH]; constructor; [|exact IH].
    apply remain_word. eapply Forall_impl; [|exact Fw]. intros c. apply lr_keep_nonspace.
Qed.
Print Assumptions C16_lrgraph_sentence_exact.
Theorem C16_lrgraph_sentence_facts : forall s,
  normalize_sent_for_lrgraph (normalize_sent_for_lrgraph s) = normalize_sent_for_lrgraph s /\
  Forall (fun e => (exists p h, e = p ++ [h] /\ hangul h) /\ Forall (fun c => hangul c \/ letter c \/ digit c \/ In c (u ",.?!""'")) e)
    (split (normalize_sent_for_lrgraph s)).
Proof.
  intros s. split; [apply lrgraph_idem|]. rewrite lrgraph_runs. rewrite split_join.
  - pose proof (lr_runs_words s) as F. rewrite Forall_forall in F |- *. intros w I. split.
    + apply filter_In in I as [I NE]. apply in_map_iff in I as (v & <- & I). pose proof (runs_Forall lr_keep s) as G. rewrite Forall_forall in G.
      destruct (remain_word v) as [_ [E|E]]; [|rewrite E in NE; discriminate|exact E].
      destruct (G v I) as [_ Gv]. eapply Forall_impl; [|exact Gv]. intros c. apply lr_keep_nonspace.
    + destruct (F w I) as [_ Fw]. eapply Forall_impl; [|exact Fw]. intros c. apply lr_keep_iff.
  - eapply Forall_impl; [|apply lr_runs_words]. intros w [NE Fw]. split; [exact NE|]. eapply Forall_impl; [|exact Fw].
    intros c H. apply nonspace_true. apply lr_keep_nonspace, H.
Qed.
Print Assumptions C16_lrgraph_sentence_facts.
Example C16_nonvacuous : normalize_sent_for_lrgraph (u "이것은(괄호)입니다. abc 3번째!! 끝ab") = u "이것은 괄호 입니다 3번째 끝" /\
  remain_hangle_on_last (u " a가b나12") = u "a가b나".
Proof. vm_compute. auto. Qed.

(** C17 *)
Theorem C17_tokenizer_normalize_exact : forall word s n, exists ts, tok_normalize word s n = Ok (join [32] ts) /\
  Forall2 (fun e t => exists t0, Pairs Emoji e t0 /\ ((0 < n)%Z -> Shortened word (Z.to_nat n) t0 t) /\ ((n <= 0)%Z -> t = t0)) (split s) ts /\
  Forall (fun t => t <> [] /\ Forall (fun c => nonspace c = true) t) ts.
Proof. exact tok_normalize_spec. Qed.
Print Assumptions C17_tokenizer_normalize_exact.
Theorem C17_unchanged_without_jamo_and_repeats : forall word ws n,
  Forall (fun e => e <> [] /\ Forall (fun c => is_space c = false /\ ~ consonant c /\ ~ vowel c) e /\
    (forall a b r, (1 <= length b <= 4)%nat -> Forall (fun c => word c = true) b -> e <> a ++ times 4 b ++ r)) ws ->
  tok_normalize word (join [32] ws) n = Ok (join [32] ws).
Proof. exact tok_unchanged. Qed.
Print Assumptions C17_unchanged_without_jamo_and_repeats.
Example C17_nonvacuous : tok_normalize word_ex (u "앜ㅋㅋㅋㅋ 하하하하하 ㅋ쿠ㅜㅜ 가나가나가나가나") 2 = Ok (u "아ㅋㅋ 하하 ㅋㅋㅜㅜㅜ 가나가나") /\
  tok_normalize word_ex (u "학교 가나다") 2 = Ok (u "학교 가나다").
Proof. vm_compute. auto. Qed.

(** C59: the deprecated soynlp.hangle.normalize *)
Theorem C59_hangle_normalize_exact : forall word s english number punctuation r remains keep ws,
  (r <= 0)%Z ->
  (forall c, keep c = true <-> (is_space c = false /\ (hangul c \/ (english = true /\ letter c) \/ (number = true /\ digit c) \/
     (punctuation = true /\ In c (u "!""',.?`")) \/ In c remains))) ->
  MaxRuns keep s ws -> old_normalize word s english number punctuation r remains = join [32] ws.
Proof.
  intros * R K M. rewrite old_normalize_runs. replace (0 <? r)%Z with false by (symmetry; apply Z.ltb_ge; exact R).
  f_equal. apply runs_MaxRuns_iff in M. rewrite M. apply runs_iff_ext. intros c. rewrite K. apply old_keep_iff.
Qed.
Print Assumptions C59_hangle_normalize_exact.
(** with [remove_repeat = n > 0] runs of four or more equal word characters are first shortened to [n] *)
Theorem C59_hangle_normalize_repeats : forall word gs english number punctuation r remains keep ws,
  (0 < r)%Z -> maximal gs ->
  (forall c, keep c = true <-> (is_space c = false /\ (hangul c \/ (english = true /\ letter c) \/ (number = true /\ digit c) \/
     (punctuation = true /\ In c (u "!""',.?`")) \/ In c remains))) ->
  MaxRuns keep (expand (map (fun g => if word (fst g) && (4 <=? snd g)%nat then (fst g, Z.to_nat r) else g) gs)) ws ->
  old_normalize word (expand gs) english number punctuation r remains = join [32] ws.
Proof.
  intros * R G K M. rewrite old_normalize_runs. replace (0 <? r)%Z with true by (symmetry; apply Z.ltb_lt; exact R).
  rewrite re1_expand by exact G. f_equal. apply runs_MaxRuns_iff in M. rewrite M. apply runs_iff_ext. intros c. rewrite K. apply old_keep_iff.
Qed.
Print Assumptions C59_hangle_normalize_repeats.
Example C59_nonvacuous : old_normalize word_ex (u "가나ㅋㅋㅋㅋㅋ abc, (12)!") false true true 2 [40] = u "가나ㅋㅋ , (12 !".
Proof. vm_compute. reflexivity. Qed.
