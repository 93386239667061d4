(** * Tokenizers that share score dicts with their caller, tokenizer/_tokenizer.py:78-125, 228-275 and tokenizer/_noun_tokenizer.py:3-9, 66-72 *)
From Coq Require Import QArith Lia.
From Verif Require Import PyBase PyDict PySort PyText CountLemmas TokenizerModel LRTokModel TokShareModel TokShareSpec TokShareProofs.
Open Scope nat_scope.

(** ** C99 *)
(** Every answer, at every moment of every history: a function of what the dict handed to the constructor contains now and, for MaxLRScoreTokenizer, contained then *)
Theorem C99_answers : forall ops i s, ask ops i s = match born i [] ops with Some (before, m) => Some (expected before m ops s) | None => None end.
Proof. exact ask_expected. Qed.
Print Assumptions C99_answers.

(** What the constructors and the dict operations raise *)
Theorem C99_outcomes : forall ops m r w x d,
  snd (fst (sstep (srun ops) (SMake m))) = (if refuses m then Some ZeroDivisionError else None)
  /\ snd (fst (sstep (srun ops) (SDel r w))) = (if dmem (contents r ops) w then None else Some KeyError)
  /\ snd (fst (sstep (srun ops) (SSet r w x))) = None /\ snd (fst (sstep (srun ops) (SDict d))) = None.
Proof.
  intros ops m r w x d. repeat split.
  - pose proof (construct_ok ops m) as K. cbn [sstep]. destruct (construct (srun ops) m) as [t|e]; destruct K as [R K]; rewrite R; [reflexivity|]. rewrite K. reflexivity.
  - cbn [sstep]. rewrite dict_of_contents. destruct (dmem (contents r ops) w); reflexivity.
Qed.
Print Assumptions C99_outcomes.

(** the dicts a constructor call keeps *)
Definition keeps (m : make) (r : nat) : bool :=
  match m with
  | MakeL (Some r') _ | MakeMax (Some r') _ _ | MakeNounL r' | MakeNoun (Some r') => r =? r'
  | MakeLR _ _ Pl Pr _ _ _ => match Pl with Some r' => r =? r' | None => false end || match Pr with Some r' => r =? r' | None => false end
  | _ => false
  end.
Definition writes_to (o : sop) (r : nat) : bool := match o with SSet r' _ _ | SDel r' _ => r =? r' | _ => false end.
Lemma expected_contents before m now now' s : (forall r, keeps m r = true -> contents r now = contents r now') -> expected before m now s = expected before m now' s.
Proof.
  intros H. assert (LK : forall r, keeps m r = true -> looked_up before now (Some r) = looked_up before now' (Some r)) by (intros r K; cbn [looked_up]; rewrite (H r K); reflexivity).
  destruct m as [[r|] ds|[r|] ml ds|r|[r|]|Dl Dr Pl Pr g b p]; cbn [expected keeps] in *; try reflexivity.
  - rewrite (LK r) by apply Nat.eqb_refl. reflexivity.
  - rewrite (LK r) by apply Nat.eqb_refl. reflexivity.
  - rewrite (H r) by apply Nat.eqb_refl. reflexivity.
  - rewrite (LK r) by apply Nat.eqb_refl. reflexivity.
  - destruct (lr_new _ _ _ _ g b) as [[dl dr]|e]; [|reflexivity].
    assert (P : looked_up before now Pl = looked_up before now' Pl) by (destruct Pl as [r|]; [apply LK; rewrite Nat.eqb_refl; reflexivity|reflexivity]).
    assert (P' : looked_up before now Pr = looked_up before now' Pr) by (destruct Pr as [r|]; [apply LK; rewrite Nat.eqb_refl; apply orb_true_r|reflexivity]).
    rewrite P, P'. reflexivity.
Qed.
Lemma born_app i ops later before : forall b0, born i b0 ops = Some before -> born i b0 (ops ++ later) = Some before.
Proof.
  revert i. induction ops as [|o ops IH]; intros i b0 B; [discriminate|]. cbn [app born] in *. destruct o as [d|r w x|r w|m|j s]; try exact (IH _ _ B).
  destruct (refuses m); [exact (IH _ _ B)|]. destruct i; [exact B|exact (IH _ _ B)].
Qed.
Lemma contents_frame ops later r : r < ndicts ops -> Forall (fun o => writes_to o r = false) later -> contents r (ops ++ later) = contents r ops.
Proof.
  intros L F. unfold contents. rewrite made_at_app. destruct (made_at r ops) as [[d l]|] eqn:E; [|apply made_at_none in E; lia]. rewrite fold_left_app. generalize (fold_left (edit r) l d). clear -F.
  induction F as [|o later W F IH]; intros d; [reflexivity|]. cbn [fold_left]. replace (edit r d o) with d; [apply IH|]. destruct o; cbn [edit writes_to] in *; rewrite ?(Nat.eqb_sym _ r), ?W; reflexivity.
Qed.
(** A tokenizer's answers depend on nothing else: whatever the caller does with other dicts, whatever other tokenizers are made, and however many sentences any of
    them is given, its answers stay. *)
Theorem C99_frame : forall ops later i s before m, born i [] ops = Some (before, m) -> (forall r, keeps m r = true -> r < ndicts ops) ->
  Forall (fun o => forall r, keeps m r = true -> writes_to o r = false) later -> ask (ops ++ later) i s = ask ops i s.
Proof.
  intros ops later i s before m B K F. rewrite !ask_expected, (born_app i ops later _ _ B), B. f_equal. apply expected_contents. intros r Kr. apply contents_frame; [exact (K r Kr)|].
  eapply Forall_impl; [|exact F]. intros o H. exact (H r Kr).
Qed.
Print Assumptions C99_frame.

Lemma contents_in_range r ops : contents r ops <> [] -> r < ndicts ops.
Proof. intros H. destruct (Nat.lt_ge_cases r (ndicts ops)) as [L|L]; [exact L|]. exfalso. apply H, contents_none, L. Qed.
Lemma expected_live before m now s r : keeps m r = true -> contents r before <> [] -> match m with MakeLR _ _ _ _ _ _ _ => False | _ => True end ->
  expected before m now s = match m with
    | MakeL _ ds => Words (Ok (ltok_flat (contents r now) ds 0%Q s))
    | MakeMax _ ml ds => Words (ms_tokenize_flat (contents r now) ds ml s)
    | MakeNounL _ => Words (Ok (nl_tokenize (dmem (contents r now)) s true))
    | _ => Words (nm_tokenize_flat (contents r now) s true) end.
Proof.
  intros K NE X. assert (LK : looked_up before now (Some r) = contents r now) by (cbn [looked_up]; destruct (contents r before); [congruence|reflexivity]).
  destruct m as [[r'|] ds|[r'|] ml ds|r'|[r'|]|]; cbn [keeps expected] in *; try discriminate; try contradiction; apply Nat.eqb_eq in K; subst r'; rewrite ?LK; reflexivity.
Qed.
(** A tokenizer made from a dict that had entries uses the dict itself, for ever: its answers are those of the same tokenizer made now, also after all
    entries were deleted and others were set (the dict need not have entries now for the kept tokenizer) *)
Theorem C99_live : forall ops i s before m r, born i [] ops = Some (before, m) -> keeps m r = true -> contents r before <> [] -> contents r ops <> [] ->
  match m with MakeLR _ _ _ _ _ _ _ => False | _ => True end -> ask ops i s = ask (ops ++ [SMake m]) (length (s_toks (srun ops))) s.
Proof.
  intros ops i s before m r B K NE NE' X. rewrite !ask_expected, B. destruct (toks_ok ops) as [L _].
  assert (R : refuses m = false) by (destruct m; try reflexivity; contradiction).
  rewrite born_snoc, (proj2 (born_none ops _ [])) by (rewrite L; reflexivity). rewrite L, Nat.sub_diag. cbn [born app]. rewrite R. f_equal.
  rewrite (expected_live before m ops s r K NE X), (expected_live ops m _ s r K NE' X).
  replace (contents r (ops ++ [SMake m])) with (contents r ops); [reflexivity|]. symmetry. apply contents_frame; [apply contents_in_range, NE'|]. constructor; [reflexivity|constructor].
Qed.
Print Assumptions C99_live.

(** Two tokenizers made by the same call, each at a moment when the dict had entries, answer alike at every later moment *)
Theorem C99_agree : forall ops i j s before before' m r, born i [] ops = Some (before, m) -> born j [] ops = Some (before', m) -> keeps m r = true ->
  contents r before <> [] -> contents r before' <> [] -> match m with MakeLR _ _ _ _ _ _ _ => False | _ => True end -> ask ops i s = ask ops j s.
Proof.
  intros ops i j s b b' m r B B' K NE NE' X. rewrite !ask_expected, B, B'. f_equal. rewrite (expected_live b m ops s r K NE X), (expected_live b' m ops s r K NE' X). reflexivity.
Qed.
Print Assumptions C99_agree.

(** MaxLRScoreTokenizer copies Dl and Dr: without preferences nothing the caller does changes its answers *)
Theorem C99_lr_fixed : forall ops later i s before Dl Dr g b p, born i [] ops = Some (before, MakeLR Dl Dr None None g b p) -> ask (ops ++ later) i s = ask ops i s.
Proof.
  intros ops later i s before Dl Dr g b p B. apply (C99_frame ops later i s before _ B); [intros r K; discriminate|]. apply Forall_forall. intros o _ r K. discriminate.
Qed.
Print Assumptions C99_lr_fixed.

(** The claim "a tokenizer uses the scores its dict contains" fails for a dict that was still empty when the tokenizer was made (the LTokenizer and the
    MaxScoreTokenizer never see what is put into it; NounLMatchTokenizer does) *)
Definition late : list sop :=
  [SDict []; SMake (MakeL (Some 0) 0%Q); SMake (MakeMax (Some 0) 10%Z 0%Q); SMake (MakeNoun (Some 0)); SMake (MakeNounL 0); SSet 0 (u "데이터") 1%Q; SMake (MakeL (Some 0) 0%Q)].
Theorem C99_empty_refuted : ask late 0 (u "데이터마이닝") = Some (Words (Ok [u "데이터마이닝"])) /\ ask late 4 (u "데이터마이닝") = Some (Words (Ok [u "데이터"; u "마이닝"]))
  /\ ask late 1 (u "마이데이터닝") <> ask (late ++ [SMake (MakeMax (Some 0) 10%Z 0%Q)]) 5 (u "마이데이터닝")
  /\ ask late 2 (u "데이터") = Some (Words (Ok [])) /\ ask late 3 (u "데이터를") = Some (Words (Ok [u "데이터"])).
Proof. vm_compute. repeat split; congruence. Qed.
Print Assumptions C99_empty_refuted.

(** The claim "a word added to the preferences of a MaxLRScoreTokenizer is recognised" fails: preferred words become words only when the tokenizer is made;
    later changes alter the scores of the words it already has *)
Definition lrp := LRP (3 # 10) (1 # 2) (1 # 2) (3 # 10).
Definition pref : list sop :=
  [SDict [(u "나는", 1%Q)]; SDict [(u "데이", 1%Q); (u "데이터", 1%Q)]; SMake (MakeLR (ADict 1) (AList [u "는"]) (Some 0) None [] None lrp); SSet 0 (u "마이닝") 1%Q].
Theorem C99_preference_refuted : ask pref 0 (u "데이터마이닝중에") = Some (Tagged (Ok [[(u "데이터", true); (u "마이닝중에", true)]]))
  /\ ask (pref ++ [SMake (MakeLR (ADict 1) (AList [u "는"]) (Some 0) None [] None lrp)]) 1 (u "데이터마이닝중에") = Some (Tagged (Ok [[(u "데이터", true); (u "마이닝", true); (u "중에", true)]])).
Proof. vm_compute. split; reflexivity. Qed.
Print Assumptions C99_preference_refuted.

(** non-trivial instances *)
Definition shared : list sop :=
  [SDict [(u "데이터", 1%Q)]; SMake (MakeL (Some 0) 0%Q); SSet 0 (u "마이닝") 1%Q; SMake (MakeL (Some 0) 0%Q); SDel 0 (u "데이터"); SDel 0 (u "마이닝"); SSet 0 (u "데이") 2%Q].
Example C99_shared_instance : ask shared 0 (u "데이터를") = Some (Words (Ok [u "데이"; u "터를"])) /\ ask shared 0 (u "데이터를") = ask shared 1 (u "데이터를")
  /\ born 0 [] shared = Some ([SDict [(u "데이터", 1%Q)]], MakeL (Some 0) 0%Q) /\ contents 0 shared = [(u "데이", 2%Q)] /\ contents 0 [SDict [(u "데이터", 1%Q)]] <> []
  /\ ask (firstn 2 shared) 0 (u "데이터를") = Some (Words (Ok [u "데이터"; u "를"])).
Proof. vm_compute. repeat split; congruence. Qed.
Example C99_lr_instance : exists before, born 0 [] pref = Some (before, MakeLR (ADict 1) (AList [u "는"]) (Some 0) None [] None lrp) /\ keeps (MakeLR (ADict 1) (AList [u "는"]) (Some 0) None [] None lrp) 0 = true
  /\ refuses (MakeLR (ADict 1) (AList []) None None [(u "가", [(u "나", 1%Q); (u "다", (-1)%Q)])] None lrp) = true.
Proof. eexists. vm_compute. repeat split. Qed.
(** a preference changed later changes the choice between known words *)
Definition pref2 : list sop := [SDict [(u "나는", 1%Q)]; SDict [(u "데이", 1%Q); (u "이터", 1%Q)]; SMake (MakeLR (ADict 1) (AList []) (Some 0) None [] None lrp)].
Example C99_pref_live : ask pref2 0 (u "데이터") = Some (Tagged (Ok [[(u "데이", true); (u "터", true)]]))
  /\ ask (pref2 ++ [SSet 0 (u "이터") 1%Q]) 0 (u "데이터") = Some (Tagged (Ok [[(u "데", true); (u "이터", true)]]))
  /\ ask (pref2 ++ [SSet 1 (u "데이터") 9%Q; SDel 1 (u "데이")]) 0 (u "데이터") = Some (Tagged (Ok [[(u "데이", true); (u "터", true)]])).
Proof. vm_compute. repeat split. Qed.
