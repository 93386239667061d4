(** * Property theorems for the tokenizers (C18 - C25) *)
From Coq Require Import QArith Lqa.
From Verif Require Import PyBase PyDict PySort SortLemmas PyText PyRe HangleSpec TokenizerModel TokenizerSpec QLemmas RegexTokProofs LTokProofs
  MaxScoreProofs MaxScoreProofs2 LRTokProofs NounTokProofs.
Open Scope nat_scope.

(** ** C18 RegexTokenizer *)
Theorem C18_text_preserved : forall ps s, nonempty_matches ps ->
  concat (regex_tokenize_flat ps s) = filter nonspace s /\
  Forall (fun t => t <> [] /\ Forall (fun c => is_space c = false) t) (regex_tokenize_flat ps s) /\
  Forall2 (fun e ts => concat ts = e) (split s) (regex_tokenize ps s) /\
  regex_tokenize_flat ps s = concat (regex_tokenize ps s).
Proof.
  intros ps s F. split; [apply regex_flat_text, F|]. split; [|split; [|apply regex_flat_eq]].
  - rewrite regex_flat_eq. apply Forall_concat. pose proof (regex_words ps s F) as W. induction W as [|e ts es tss [_ H] W IH]; constructor; [|exact IH].
    eapply Forall_impl; [|exact H]. intros t [N G]. split; [exact N|]. eapply Forall_impl; [|exact G]. intros c Hc. apply nonspace_true, Hc.
  - pose proof (regex_words ps s F) as W. induction W as [|e ts es tss [H _] W IH]; constructor; auto.
Qed.
Print Assumptions C18_text_preserved.

(** every maximal run of syllables, of lone consonants and of lone vowels is one token; no token mixes *)
Theorem C18_hangul_runs : forall number english k s,
  (forall s, Forall (fun f => f <> [] /\ hangul_free f) (number s)) ->
  (forall s, Forall (fun f => f <> [] /\ hangul_free f) (english s)) ->
  ((forall c, k c = true <-> syllable c) \/ (forall c, k c = true <-> consonant c) \/ (forall c, k c = true <-> vowel c)) ->
  Forall2 (fun e ts => Forall (homogeneous k) ts /\ MaxRuns k e (filter (starts_in k) ts)) (split s) (regex_tokenize (regex_patterns number english) s).
Proof.
  intros number english k s N E K. unfold regex_tokenize. induction (split s) as [|e es IH]; cbn [map]; constructor; [|exact IH].
  assert (X : exists k', (k' = re_korean \/ k' = re_jaum \/ k' = re_moum) /\ forall c, k c = k' c).
  { destruct K as [K|[K|K]]; [exists re_korean|exists re_jaum|exists re_moum]; (split; [tauto|]); intros c; apply eq_true_iff_eq; rewrite K;
      unfold re_korean, re_jaum, re_moum, syllable, consonant, vowel; rewrite andb_true_iff, !N.leb_le; reflexivity. }
  destruct X as (k' & K' & EX). destruct (regex_hangul number english N E k' e K') as [H M].
  split.
  - eapply Forall_impl; [|exact H]. intros w [F|F]; [left|right]; (eapply Forall_impl; [|exact F]); intros c Hc; rewrite EX; exact Hc.
  - apply runs_MaxRuns_iff. apply runs_MaxRuns_iff in M. rewrite (filter_ext (starts_in k) (starts_in k')); [|intros [|c w]; [reflexivity|apply EX]].
    rewrite M. clear - EX. revert EX. intros EX. induction e as [|c e IH]; [reflexivity|]. cbn [runs]. rewrite !EX, IH. destruct e as [|d e]; [reflexivity|]. rewrite EX. reflexivity.
Qed.
Print Assumptions C18_hangul_runs.
(** non-vacuity: digits and latin letters as the two oracles *)
Example C18_ex :
  let number := runs (fun c => (48 <=? c) && (c <=? 57))%N in
  let english := runs (fun c => (97 <=? c) && (c <=? 122))%N in
  regex_tokenize (regex_patterns number english) (u "같은34숫자나like해ㅋㅋㅜ봐 Bob3") =
   [[u "같은"; u "34"; u "숫자나"; u "like"; u "해"; u "ㅋㅋ"; u "ㅜ"; u "봐"]; [u "B"; u "ob"; u "3"]].
Proof. vm_compute. reflexivity. Qed.

(** ** C19 LTokenizer *)
Theorem C19_best_left : forall scores ds tol t l r, token_to_lr scores ds tol t = (l, r) ->
  l ++ r = t /\
  (length t <= 2 -> l = t) /\
  (3 <= length t ->
    let f e := match dget scores (firstn e t) with Some v => v | None => ds end in
    2 <= length l /\
    ((tol <= 0)%Q -> forall e, 2 <= e <= length t -> (f e < f (length l))%Q \/ (f e == f (length l))%Q /\ e <= length l) /\
    ((0 < tol)%Q -> (forall e, 2 <= e <= length t -> (f e - f (length l) <= tol)%Q) /\
                    (forall e, length l < e <= length t -> exists e', 2 <= e' <= length t /\ (tol < f e' - f e)%Q))).
Proof.
  intros scores ds tol t l r E. destruct (Nat.le_gt_cases (length t) 2) as [L|L].
  - rewrite token_to_lr_short in E by exact L. injection E as <- <-. rewrite app_nil_r. repeat split; auto; try lia.
  - destruct (token_to_lr_spec _ _ _ _ _ _ L E) as (A & B & C & D). repeat split; auto; try lia; intros; apply D; auto.
Qed.
Print Assumptions C19_best_left.
Theorem C19_sentence : forall scores ds tol s,
  Forall2 (fun e p => fst p ++ snd p = e /\ p = token_to_lr scores ds tol e) (split s) (ltok_pairs scores ds tol s) /\
  ltok_flat scores ds tol s = filter (fun w => negb (length w =? 0)) (flat_map (fun p => [fst p; snd p]) (ltok_pairs scores ds tol s)) /\
  concat (ltok_flat scores ds tol s) = filter nonspace s /\
  ltok_l scores ds tol s = map fst (ltok_pairs scores ds tol s).
Proof.
  intros scores ds tol s.
  assert (H : Forall2 (fun e p => fst p ++ snd p = e /\ p = token_to_lr scores ds tol e) (split s) (ltok_pairs scores ds tol s)).
  { unfold ltok_pairs. induction (split s) as [|e es IH]; cbn [map]; constructor; [|exact IH]. split; [|reflexivity].
    destruct (token_to_lr scores ds tol e) as [l r] eqn:E. destruct (C19_best_left _ _ _ _ _ _ E) as [A _]. exact A. }
  split; [exact H|]. split; [reflexivity|]. split; [|reflexivity]. unfold ltok_flat. rewrite <- concat_split.
  induction H as [|e [l r] es ps [A _] H IH]; [reflexivity|]. cbn [flat_map fst snd app filter] in *. rewrite <- A. cbn [concat].
  destruct l as [|c l], r as [|d r]; cbn [length Nat.eqb negb concat app]; rewrite IH, ?app_nil_r, <- ?app_assoc; reflexivity.
Qed.
Print Assumptions C19_sentence.
Example C19_ex : ltok_pairs [(u "파스타", (7#10)%Q); (u "파스타가", (7#10)%Q); (u "파스", (1#2)%Q)] 0 0 (u "파스타가 좋아요") = [(u "파스타가", []); (u "좋아요", [])]
  /\ ltok_pairs [(u "파스타", (7#10)%Q); (u "파스", (1#2)%Q)] 0 0 (u "파스타가 좋아") = [(u "파스타", u "가"); (u "좋아", [])].
Proof. vm_compute. split; reflexivity. Qed.

(** ** C20 MaxScoreTokenizer tiles *)
Theorem C20_tiles : forall scores ds ml s, (2 <= ml)%Z ->
  exists tss, ms_tokenize scores ds ml s = Ok tss /\ Forall2 (fun e ts => tiles e 0 ts) (split s) tss.
Proof. exact ms_tokenize_tiles. Qed.
Print Assumptions C20_tiles.
Theorem C20_text_preserved : forall scores ds ml s, (2 <= ml)%Z ->
  exists ws, ms_tokenize_flat scores ds ml s = Ok ws /\ concat ws = filter nonspace s /\ Forall (fun w => w <> []) ws.
Proof. exact ms_flat_text. Qed.
Print Assumptions C20_text_preserved.
Theorem C20_small_max_length : forall scores ds ml s, (ml < 2)%Z ->
  (ms_tokenize scores ds ml s = Err IndexError <-> Exists (fun e => 3 <= length e) (split s)) /\
  (Forall (fun e => length e <= 2) (split s) -> ms_tokenize scores ds ml s = Ok (map (fun e => [Tok e 0 (length e) ds (length e)]) (split s))).
Proof. exact ms_tokenize_err. Qed.
Print Assumptions C20_small_max_length.
Example C20_ex : ms_tokenize_flat [(u "파스타", (7#10)%Q); (u "좋아", (1#2)%Q)] 0 10 (u "난파스타가좋아요 네") = Ok [u "난"; u "파스타"; u "가"; u "좋아"; u "요"; u "네"]
  /\ ms_tokenize_flat [] 0 1 (u "파스타") = Err IndexError.
Proof. vm_compute. split; reflexivity. Qed.

(** ** C21 greedy selection *)
Theorem C21_greedy : forall scores ds ml t out, (2 <= ml)%Z -> length t < 204 -> ms_recursive scores ds ml t = Ok out ->
  greedy scores ds ml t (map pos (filter multi out)).
Proof. exact ms_greedy. Qed.
Print Assumptions C21_greedy.
(** the specification admits one selection only *)
Theorem C21_greedy_unique : forall scores ds ml t R1 R2, greedy scores ds ml t R1 -> greedy scores ds ml t R2 -> forall x, In x R1 <-> In x R2.
Proof. exact greedy_unique. Qed.
Print Assumptions C21_greedy_unique.
(** the cut-off after 101 selections: with 205 characters a token longer than max_length appears *)
Theorem C21_any_length_refuted : exists scores ds ml t out, (2 <= ml)%Z /\ length t = 205 /\ ms_recursive scores ds ml t = Ok out /\
  ~ greedy scores ds ml t (map pos (filter multi out)).
Proof.
  exists [], 0%Q, 2%Z, (repeat 44032%N 205).
  assert (H : exists out, ms_recursive [] 0 2 (repeat 44032%N 205) = Ok out /\ existsb (fun t => (tb t =? 202) && (te t =? 205)) out = true).
  { destruct (ms_recursive_tiles [] 0%Q 2%Z (repeat 44032%N 205)) as (out & E & _); [discriminate|lia|]. exists out. split; [exact E|].
    assert (X : match ms_recursive [] 0 2 (repeat 44032%N 205) with Ok o => existsb (fun t => (tb t =? 202) && (te t =? 205)) o | Err _ => false end = true) by (vm_compute; reflexivity).
    rewrite E in X. exact X. }
  destruct H as (out & E & X). exists out. split; [lia|]. split; [reflexivity|]. split; [exact E|]. intros (_ & C & _).
  apply existsb_exists in X as (t & I & X). apply andb_true_iff in X as [X1 X2]. apply Nat.eqb_eq in X1, X2.
  assert (J : In (pos t) (map pos (filter multi out))). { apply in_map, filter_In. split; [exact I|]. unfold multi. rewrite X1, X2. reflexivity. }
  apply C in J. unfold cand, pos in J. cbn [fst snd] in J. rewrite X1, X2 in J. lia.
Qed.
Print Assumptions C21_any_length_refuted.
Example C21_ex : let scores := [(u "가나", (1#2)%Q); (u "나다", (3#4)%Q); (u "다라마", (1#2)%Q)] in
  match ms_recursive scores 0 10 (u "가나다라마바") with Ok out => map pos (filter multi out) = [(1, 3); (3, 6)] | Err _ => False end.
Proof. vm_compute. reflexivity. Qed.

(** ** C22 reported scores *)
Theorem C22_scores : forall scores ds ml t out, (2 <= ml)%Z -> 3 <= length t < 204 -> ms_recursive scores ds ml t = Ok out -> forall k, In k out ->
  tw k = slice (tb k) (te k) t /\ tl k = te k - tb k /\
  tsc k = (if (2 <=? te k - tb k) || (tb k =? 0) || (te k =? length t) then match dget scores (tw k) with Some v => v | None => ds end else ds).
Proof.
  intros scores ds ml t out M L E k I. pose proof (ms_scores _ _ _ _ _ M L E k I) as S.
  destruct (ms_recursive_tiles scores ds ml t ltac:(intros ->; simpl in L; lia) M) as (o & E' & T). rewrite E in E'. injection E' as <-.
  destruct (tiles_In _ _ _ _ T I) as (_ & _ & W & TL). rewrite W. repeat split; auto.
Qed.
Print Assumptions C22_scores.
Theorem C22_short : forall scores ds ml t, length t <= 2 -> ms_recursive scores ds ml t = Ok [Tok t 0 (length t) ds (length t)].
Proof. exact ms_short. Qed.
Print Assumptions C22_short.
(** so the table is not always honoured: neither for short eojeols nor for inner gaps *)
Theorem C22_table_score_refuted :
  (exists scores t out k, ms_recursive scores 0 10 t = Ok out /\ In k out /\ length t = 2 /\ dget scores (tw k) = Some 1%Q /\ (tsc k == 0)%Q) /\
  (exists scores t out k, ms_recursive scores 0 10 t = Ok out /\ In k out /\ length t = 5 /\ dget scores (tw k) = Some 1%Q /\ (tsc k == 0)%Q).
Proof.
  split.
  - exists [(u "나무", 1%Q)], (u "나무"). vm_compute. eexists _, _. split; [reflexivity|]. split; [left; reflexivity|]. repeat split.
  - exists [(u "가나", 2%Q); (u "라마", 2%Q); (u "다", 1%Q)], (u "가나다라마"). vm_compute. eexists _, _. split; [reflexivity|]. split; [right; left; reflexivity|]. repeat split.
Qed.
Print Assumptions C22_table_score_refuted.

(** ** C23 MaxLRScoreTokenizer *)
Theorem C23_selection : forall Dl Dr Pl Pr a b c d t best, lr_best Dl Dr Pl Pr a b c d t = Ok best ->
  Forall (lrok Dl Dr t) best /\ StronglySorted (fun x y => p2 x <= p0 y) best.
Proof. intros Dl Dr Pl Pr a b c d t best. apply lr_best_ok. Qed.
Print Assumptions C23_selection.
(** text of the output of an eojeol: from the R part of the last selected word on, it is emitted once more *)
Theorem C23_text : forall Dl Dr Pl Pr a b c d t best post, Forall (fun c => nonspace c = true) t ->
  lr_best Dl Dr Pl Pr a b c d t = Ok best -> lr_tokenize1 Dl Dr Pl Pr a b c d t = Ok post ->
  concat (map fst (lr_flatten post)) = match rev best with [] => t | wn :: _ => firstn (p2 wn) t ++ skipn (p1 wn) t end.
Proof. intros Dl Dr Pl Pr a b c d t best post F B E. rewrite lr_flatten_text. eapply lr_tokenize1_text; eassumption. Qed.
Print Assumptions C23_text.
(** with an empty R dictionary the text is preserved *)
Theorem C23_text_preserved_without_R : forall Dl Pl Pr a b c d s out,
  lr_tokenize Dl [] Pl Pr a b c d s = Ok out -> Forall2 (fun e ws => concat (map fst ws) = e) (split s) out.
Proof.
  intros Dl Pl Pr a b c d s out E. unfold lr_tokenize in E. pose proof (split_words s) as W. revert out E.
  induction W as [|e es [N F] W IH]; intros out E; cbn [mapM] in E; [injection E as <-; constructor|].
  destruct (lr_tokenize1 Dl [] Pl Pr a b c d e) as [p|] eqn:Ep; [|discriminate]. cbn [bind] in E.
  destruct (mapM _ es) as [r|] eqn:Er; [|discriminate]. cbn [bind] in E. injection E as <-. constructor; [|apply IH, eq_refl].
  destruct (lr_best Dl [] Pl Pr a b c d e) as [best|] eqn:Eb; [|unfold lr_tokenize1 in Ep; rewrite Eb in Ep; discriminate].
  rewrite (C23_text _ _ _ _ _ _ _ _ _ _ _ F Eb Ep). destruct (rev best) as [|wn l] eqn:R; [reflexivity|].
  destruct (lr_best_ok _ _ _ _ _ _ _ _ _ _ Eb) as [O _]. rewrite Forall_forall in O. destruct (O wn) as (_ & L & L2 & _ & W2 & _ & [Z|Z] & _).
  - apply in_rev. rewrite R. left. reflexivity.
  - rewrite Z in W2. apply (f_equal (fun l => length l)) in W2. rewrite slice_length in W2 by exact L2. cbn in W2. replace (p2 wn) with (p1 wn) by lia. apply firstn_skipn.
  - discriminate.
Qed.
Print Assumptions C23_text_preserved_without_R.
(** in general it is neither total nor text preserving *)
Theorem C23_total_and_preserving_refuted :
  lr_tokenize [(u "아이", 1%Q)] [(u "는", 1%Q)] [] [] (3#10) (1#2) (1#2) (3#10) (u "아이는") = Err AttributeError /\
  lr_tokenize [(u "아이", 1%Q)] [(u "는", 1%Q)] [] [] (3#10) (1#2) (1#2) (3#10) (u "아이는요") =
    Ok [[(u "아이", true); (u "는", false); (u "는요", true)]].
Proof. vm_compute. split; reflexivity. Qed.
Print Assumptions C23_total_and_preserving_refuted.

(** ** C24 NounLMatchTokenizer *)
Theorem C24_greedy_chain : forall is_noun s, is_noun [] = false -> exists wss,
  Forall2 (fun e ws => exists q, longest_chain is_noun e 0 ws q /\ concat ws = firstn q e) (split s) wss /\
  nl_tokenize is_noun s false = concat wss /\
  nl_tokenize is_noun s true = map (@concat N) (filter (fun ws => negb (length ws =? 0)) wss).
Proof. exact nl_tokenize_spec. Qed.
Print Assumptions C24_greedy_chain.
Theorem C24_chain_unique : forall is_noun s p ws q ws' q', longest_chain is_noun s p ws q -> longest_chain is_noun s p ws' q' -> ws' = ws /\ q' = q.
Proof. intros is_noun s p ws q ws' q' H H'. eapply chain_unique; eassumption. Qed.
Print Assumptions C24_chain_unique.
Example C24_ex : let is_noun w := existsb (eqb w) [u "아이"; u "아이디"; u "오"; u "아이디어"] in
  nl_tokenize is_noun (u "아이디오는 는오") false = [u "아이디"; u "오"] /\ nl_tokenize is_noun (u "아이디오는 오") true = [u "아이디오"; u "오"].
Proof. vm_compute. split; reflexivity. Qed.

(** ** C25 NounMatchTokenizer *)
Theorem C25_nouns : forall scores e, e <> [] -> exists ws, nm_eojeol scores false e = Ok ws /\ nm_sound scores e ws.
Proof. exact nm_eojeol_sound. Qed.
Print Assumptions C25_nouns.
(** nothing with a positive score is lost among the greedily selected words *)
Theorem C25_exact : forall scores e ws, 3 <= length e < 204 -> nm_eojeol scores false e = Ok ws ->
  exists R, greedy scores 0 10 e R /\ forall x, (In x (map pos ws) /\ 2 <= snd x - fst x) <-> (In x R /\ (0 < score_of scores 0 e (fst x) (snd x))%Q).
Proof.
  intros scores e ws L E. unfold nm_eojeol in E. destruct (ms_recursive scores 0 10 e) as [out|] eqn:Eo; [|discriminate]. cbn [bind] in E. injection E as <-.
  exists (map pos (filter multi out)). split; [apply ms_greedy; [lia|lia|exact Eo]|]. intros x. split.
  - intros [I H]. apply in_map_iff in I as (t & <- & I). apply filter_In in I as [I P]. apply qltb_true in P. cbn [pos fst snd] in *. split.
    + apply in_map, filter_In. split; [exact I|]. unfold multi. apply Nat.leb_le, H.
    + pose proof (ms_scores scores 0%Q 10 e out ltac:(lia) L Eo t I) as S. destruct (Nat.leb_spec 2 (te t - tb t)); [|lia]. cbn [orb] in S. rewrite <- S. exact P.
  - intros [I P]. apply in_map_iff in I as (t & <- & I). apply filter_In in I as [I H]. unfold multi in H. cbn [pos fst snd] in *.
    split; [|apply Nat.leb_le, H]. apply in_map, filter_In. split; [exact I|]. apply qltb_true.
    pose proof (ms_scores scores 0%Q 10 e out ltac:(lia) L Eo t I) as S. rewrite H in S. cbn [orb] in S. rewrite S. exact P.
Qed.
Print Assumptions C25_exact.
Theorem C25_composed : forall scores s, exists outs,
  Forall2 (fun e out => exists ws, nm_eojeol scores false e = Ok ws /\ nm_sound scores e ws /\ nm_composed e ws out) (split s) outs /\
  nm_tokenize_flat scores s true = Ok (map tw (concat outs)).
Proof. exact nm_flat. Qed.
Print Assumptions C25_composed.
Theorem C25_short_dropped : forall scores e cc, length e <= 2 -> nm_eojeol scores cc e = Ok [].
Proof. exact nm_short. Qed.
Print Assumptions C25_short_dropped.
Example C25_ex : nm_tokenize_flat [(u "가나", 1%Q); (u "다라", 1%Q); (u "바사", 1%Q)] (u "가나다라마바사 가나") true = Ok [u "가나다라"; u "바사"].
Proof. vm_compute. reflexivity. Qed.
(** unflattened composed output can contain an empty word, and the score of a composed word need not be one of its own *)
Theorem C25_composed_scores_refuted :
  nm_tokenize [(u "나다", 1%Q)] (u "가나다") true = Ok [[Tok [] 0 0 0 0; Tok (u "나다") 1 3 0 2]] /\
  nm_tokenize [(u "가나", 3%Q); (u "라마", 1%Q)] (u "가나다라마") true = Ok [[Tok (u "가나") 0 2 3 2; Tok (u "라마") 3 5 3 2]].
Proof. vm_compute. split; reflexivity. Qed.
Print Assumptions C25_composed_scores_refuted.
