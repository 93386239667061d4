(** * What the calls raise: more about C45, C47, C61, C68, C72, C79 *)
From Coq Require Import QArith Permutation.
From Verif Require Import PyBase PyDict PySort PyText PyFile CountLemmas TokenizerModel UtilsModel UtilsSpec UtilsProofs UtilsProofs5 VectorizerModel VectorizerSpec VectorizerProofs VectorizerProofs2 VectorizerProofs3 VectorizerProofs4 VectorizerProps.
From Verif Require Import TaggerModel TaggerSpec NounModel LemmaModel PredModel PosModel PosSpec PosProps.
Open Scope Z_scope.

(** ** C45: when no two frequent words co-occur the call raises ValueError, and UnboundLocalError on no sentence at all with [verbose] *)
Theorem C45_raises {S} (tok : S -> list str) order sents windows mtf dyn vb e : (forall l, Permutation (order l) l) ->
  sent_to_word_contexts_matrix tok order sents windows mtf dyn vb = Err e -> e = if vb then match sents with [] => UnboundLocalError | _ => ValueError end else ValueError.
Proof.
  intros P E. unfold sent_to_word_contexts_matrix in E. destruct (scanning_eq tok order mtf sents P) as [N SE]. rewrite SE in E.
  set (V := set_vocabulary (wterms tok order mtf sents)) in *. set (d := word_context tok (dmem (vocabulary V)) (weights windows dyn) sents) in *.
  assert (W : cwf (dmem (vocabulary V)) d). { unfold d. rewrite word_context_events. apply cwf_events; [apply events_ok|]. split; [apply dwf_nil|constructor]. }
  assert (Q : (do x <- encode_as_matrix d (vocabulary V); Ok (x, idx2vocab V)) = Err e -> e = ValueError).
  { rewrite (encode_eq V d W). destruct (etrip V d); [|discriminate]. cbn [bind]. congruence. }
  destruct sents as [|s ss]; [destruct vb; [congruence|apply Q, E]|]. destruct vb; apply Q, E.
Qed.
Print Assumptions C45_raises.
Example C45_raises_ex : sent_to_word_contexts_matrix (fun s : str => split s) (fun l => l) [] 3 1 true true = Err UnboundLocalError /\
  sent_to_word_contexts_matrix (fun s : str => split s) (fun l => l) [] 3 1 true false = Err ValueError /\
  sent_to_word_contexts_matrix (fun s : str => split s) (fun l => l) [u "a"; u "b"] 3 1 true true = Err ValueError.
Proof. vm_compute. auto. Qed.

(** ** C47: removing words when the tag was given a list, or the words are given as a list: TypeError, and nothing changes *)
Theorem C47_remove_list : forall d tag a r, dget (tags d) tag = Some r -> (exists l, deref d r = OList l) \/ (exists l, arg_obj d a = OList l) ->
  remove_words d tag (Some a) = (d, Some TypeError).
Proof.
  intros d tag a r G H. unfold remove_words. rewrite G. destruct (deref d r) as [s|l] eqn:D; [|reflexivity]. destruct (arg_obj d a) as [w|l] eqn:E; [|reflexivity].
  destruct H as [[l H]|[l H]]; discriminate.
Qed.
Print Assumptions C47_remove_list.
Example C47_remove_list_ex : exists d d', tdict_new [(u "Noun", [u "a"])] = Ok d /\
  add_words (mkT (heap d ++ [OList [u "b"]]) (tags d) (maxlen d)) (u "Verb") (AObj 1) true = (d', None) /\
  remove_words d' (u "Verb") (Some (AStr (u "b"))) = (d', Some TypeError) /\ remove_words d' (u "Noun") (Some (AObj 1)) = (d', Some TypeError).
Proof. eexists. eexists. split; [vm_compute; reflexivity|]. split; [vm_compute; reflexivity|]. split; vm_compute; reflexivity. Qed.

(** ** C61: sentences and a graph at the same time are refused; nothing else raises *)
Theorem C61_both_given : forall d sents lm rm, 1 < lm -> 0 < rm -> (exists e, lrg_new d sents lm rm = Err e) <-> d <> [] /\ sents <> [].
Proof.
  intros d sents lm rm L R. unfold lrg_new. replace (lm >? 1) with true by (symmetry; apply Z.gtb_lt; lia). replace (rm >? 0) with true by (symmetry; apply Z.gtb_lt; lia). cbn [negb].
  destruct sents as [|s ss]; cbn [bind].
  - split; [intros [e E]; destruct d; cbn [check_lrgraph bind] in E; discriminate|intros [_ H]; congruence].
  - destruct d as [|p d]; cbn [bind]; [|split; [intros _; split; discriminate|eauto]].
    split; [|intros [H _]; congruence]. intros [e E]. destruct (construct_graph lm rm (s :: ss)); cbn [check_lrgraph bind] in E; discriminate.
Qed.
Print Assumptions C61_both_given.
Theorem C61_both_given_raises : forall d sents lm rm, 1 < lm -> 0 < rm -> d <> [] -> sents <> [] -> lrg_new d sents lm rm = Err ValueError.
Proof.
  intros d sents lm rm L R D S. unfold lrg_new. replace (lm >? 1) with true by (symmetry; apply Z.gtb_lt; lia). replace (rm >? 0) with true by (symmetry; apply Z.gtb_lt; lia). cbn [negb].
  destruct sents; [congruence|]. destruct d; [congruence|reflexivity].
Qed.
Print Assumptions C61_both_given_raises.

(** ** C68: a blank word cannot be decomposed *)
Lemma split_spaces s : spaces s -> split s = [].
Proof. intros H. rewrite <- (app_nil_r s), spaces_split by exact H. reflexivity. Qed.
Theorem C68_blank : forall features scores ms w, spaces w -> decompose_compound features (decomposer_scores scores ms) w = Err IndexError.
Proof.
  intros features scores ms w B. unfold decompose_compound, decompose_tokens, ms_tokenize. rewrite (split_spaces w B). reflexivity.
Qed.
Print Assumptions C68_blank.

(** ** C72: a frequency list is refused, with ValueError, iff one of its lines is not a word and an integer *)
Theorem C72_dictionary_raises : forall ls mf,
  ((exists e, load_frequent ls mf = Err e) <-> exists line, In line ls /\ ~ exists w n k, split line = [w; n] /\ parse_int n = Ok k) /\
  (forall e, load_frequent ls mf = Err e -> e = ValueError).
Proof.
  intros ls mf. pose proof parse_int_error as PI.
  induction ls as [|line ls [IH1 IH2]]; cbn [load_frequent].
  - split; [|discriminate]. split; [intros [e H]; discriminate|intros (l & [] & _)].
  - assert (G : (exists w n k, split line = [w; n] /\ parse_int n = Ok k) \/ ~ (exists w n k, split line = [w; n] /\ parse_int n = Ok k)).
    { destruct (split line) as [|a [|b [|c l]]] eqn:SL; try (right; intros (w & n & k & H & _); discriminate).
      destruct (parse_int b) as [k|e] eqn:P; [left; eauto|right]. intros (w & n & k & H & Q). injection H as <- <-. congruence. }
    destruct G as [(w & n & k & SL & P)|G].
    + rewrite SL, P. cbn [bind]. destruct (load_frequent ls mf) as [r|e] eqn:L; cbn [bind].
      * split; [|discriminate]. split; [intros [e H]; discriminate|]. intros (l & [<-|I] & H); [exfalso; apply H; eauto|]. destruct (proj2 IH1) as [e H']; [eauto|discriminate].
      * split; [|intros e' H; apply IH2; congruence]. split; [|eauto]. intros _. destruct (proj1 IH1) as (l & I & H); [eauto|]. exists l. split; [right; exact I|exact H].
    + assert (X : (match split line with [w; n] => do f <- parse_int n; do r <- load_frequent ls mf; Ok (if f <? mf then r else w :: r) | _ => Err ValueError end) = Err ValueError).
      { destruct (split line) as [|a [|b [|c l]]] eqn:SL; try reflexivity. destruct (parse_int b) as [k|e] eqn:P; [exfalso; apply G; eauto|]. cbn [bind]. f_equal. apply (PI b), P. }
      rewrite X. split; [|congruence]. split; [|eauto]. intros _. exists line. split; [left; reflexivity|exact G].
Qed.
Print Assumptions C72_dictionary_raises.
Example C72_dictionary_raises_ex : load_frequent [u "a 3"; u "b"] 1 = Err ValueError /\ load_frequent [u "a 3"; u "b x"] 1 = Err ValueError /\ load_frequent [u "a 3"; u "b 1 2"] 1 = Err ValueError /\ load_frequent [u "a 3"; u "b 0"] 1 = Ok [u "a"].
Proof. vm_compute. auto. Qed.

(** ** C79: a character at the seam that is not Hangul makes extract raise TypeError: the last one of the stem, or the first one of the ending after ㄹ, ㅂ or ㅡ *)
Definition seam (s e w : str) : posx := mkX [] [(w, (1, [(s, e)])); (u "먹고", (1, [(u "먹", u "고")]))] [] [] [] [] [] [] [(u "먹고" ++ w, 1)].
Theorem C79_seam_raises : Forall (fun t : str * str * str => let '(s, e, w) := t in trained (seam s e w) /\ pos_extract None (seam s e w) = Err TypeError)
  [(u "a", u "다", u "a다"); (u "걸", u "x", u "걸x"); (u "쓰", u "x", u "쓰x")].
Proof.
  assert (T : forall s e w : str, w <> u "먹고" -> (Forall (fun c => is_space c = false) w) -> trained (seam s e w)).
  { intros s e w NW F. unfold trained, seam. cbn [x_eoj x_adj x_verb]. split; [constructor; [intros []|constructor]|]. split; [constructor; [intros [E|[]]; apply NW; symmetry; exact E|constructor; [intros []|constructor]]|]. split; [constructor|]. split; [|split].
    - intros x n D. apply dget_In in D as [E|[]]. injection E as <- <-. split; [lia|]. split; [discriminate|]. constructor; [reflexivity|]. constructor; [reflexivity|exact F].
    - intros x p D. apply dget_In in D as [E|[E|[]]]; injection E as <- <-; repeat constructor; intros [].
    - intros x p D. discriminate. }
  repeat (apply Forall_cons; [split; [apply T; [discriminate|repeat (constructor; [reflexivity|]); constructor]|vm_compute; reflexivity]|]). constructor.
Qed.
Print Assumptions C79_seam_raises.
