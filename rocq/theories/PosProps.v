(** * C77-C79: the part-of-speech extractors: adverbs, and the exact result of extract *)
From Coq Require Import QArith Lia.
From Verif Require Import PyBase PyDict CountLemmas PyText PyFile HangleModel TokenizerModel UtilsModel UtilsProofs5 NounModel LemmaModel PredModel PosModel PosSpec PosProofs PosProofs3 PosProofs9 PosProofs10.
Open Scope Z_scope.

(** ** C77: adverbs *)
(** w is the first word of the line *)
Definition first_word (line w : str) : Prop := word w /\ exists a b, line = a ++ w ++ b /\ spaces a /\ (b = [] \/ exists c t, b = c :: t /\ is_space c = true).
Lemma spaces_split a s : spaces a -> split (a ++ s) = split s.
Proof. intros F. induction F as [|c a C F IH]; [reflexivity|]. cbn [app]. rewrite split_sp by exact C. exact IH. Qed.
Lemma first_word_split line w : first_word line w -> exists ws, split line = w :: ws.
Proof.
  intros (W & a & b & -> & F & B). rewrite spaces_split by exact F. destruct B as [->|(c & t & -> & C)].
  - rewrite app_nil_r, split_word by exact W. eauto.
  - rewrite split_word_sp by assumption. eauto.
Qed.
Lemma word_cut s : exists w r, s = w ++ r /\ nospace w /\ (r = [] \/ exists c t, r = c :: t /\ is_space c = true).
Proof.
  induction s as [|c s (w & r & -> & F & R)]; [exists [], []; repeat split; [constructor|left; reflexivity]|].
  destruct (is_space c) eqn:C.
  - exists [], (c :: w ++ r). split; [reflexivity|]. split; [constructor|right; eauto].
  - exists (c :: w), r. split; [reflexivity|]. split; [constructor; assumption|exact R].
Qed.
Lemma first_word_cases line : spaces line \/ exists w, first_word line w.
Proof.
  induction line as [|c s IH]; [left; constructor|]. destruct (is_space c) eqn:C.
  - destruct IH as [F|(w & W & a & b & -> & F & B)]; [left; constructor; assumption|]. right. exists w. split; [exact W|]. exists (c :: a), b. split; [reflexivity|]. split; [constructor; assumption|exact B].
  - right. destruct (word_cut s) as (w & r & -> & F & R). exists (c :: w). split; [split; [discriminate|constructor; assumption]|]. exists [], r. split; [reflexivity|]. split; [constructor|exact R].
Qed.
Lemma first_word_strip line w : first_word line w -> first_word (strip line) w.
Proof.
  intros (W & a & b & -> & F & B). split; [exact W|]. exists []. unfold strip.
  assert (L : lstrip (a ++ w ++ b) = w ++ b).
  { unfold lstrip. induction F as [|c a C F IH]; [|cbn [app dropwhile]; rewrite C; exact IH]. cbn [app]. destruct w as [|c w]; [destruct W; congruence|]. destruct W as [_ W]. inversion W as [|? ? X ?]; subst. cbn [app dropwhile]. rewrite X. reflexivity. }
  rewrite L. destruct (rstrip_prefix b) as (t & EB & T). exists (rstrip b).
  split; [|split; [constructor|]].
  - cbn [app]. rewrite EB at 1. rewrite app_assoc, spaces_app_rstrip by exact T. clear - W. revert W. unfold rstrip. rewrite rev_app_distr. intros [NE W].
    set (d := rev (rstrip b)). assert (D : rev (rev (dropwhile is_space (rev b))) = dropwhile is_space (rev b)) by apply rev_involutive. rewrite D.
    destruct (dropwhile is_space (rev b)) as [|c q] eqn:Q.
    + cbn [rev app]. rewrite app_nil_r. rewrite <- (rev_involutive w) at 2. f_equal. destruct (rev w) as [|c q'] eqn:R; [apply (f_equal (@rev N)) in R; rewrite rev_involutive in R; destruct (NE R)|].
      assert (X : is_space c = false) by (rewrite Forall_forall in W; apply W, in_rev; rewrite R; left; reflexivity). cbn [dropwhile]. rewrite X. reflexivity.
    + assert (X : is_space c = false). { revert Q. clear. induction (rev b) as [|x l IH]; cbn [dropwhile]; [discriminate|]. destruct (is_space x) eqn:E; [exact IH|intros [= <- <-]; exact E]. }
      cbn [app dropwhile]. rewrite X. change (c :: q ++ rev w) with ((c :: q) ++ rev w). rewrite rev_app_distr, rev_involutive. reflexivity.
  - destruct (rstrip b) as [|c q] eqn:Q; [left; reflexivity|right]. exists c, q. split; [reflexivity|]. destruct B as [->|(c' & t' & -> & C)]; [discriminate|]. injection EB as <- _. exact C.
Qed.
(** The adverbs of a file are the first words of its lines, in order; a line without a word raises IndexError. *)
Theorem C77_load : forall content, (exists line, In line (file_lines content) /\ spaces line) /\ load_adverbs content = Err IndexError \/
  (forall line, In line (file_lines content) -> ~ spaces line) /\ exists ws, load_adverbs content = Ok ws /\ Forall2 first_word (file_lines content) ws.
Proof.
  intros content. unfold load_adverbs. induction (file_lines content) as [|line ls IH]; [right; split; [intros ? []|exists []; split; [reflexivity|constructor]]|].
  cbn [mapM]. destruct (first_word_cases line) as [F|[w W]].
  - left. split; [exists line; split; [left; reflexivity|exact F]|]. unfold strip, lstrip. replace (dropwhile is_space line) with (@nil N) by (clear IH; induction F as [|c l C F IH]; [reflexivity|cbn [dropwhile]; rewrite C; exact IH]). reflexivity.
  - destruct (first_word_split _ _ (first_word_strip _ _ W)) as [rest ->]. cbn [bind].
    assert (NS : ~ spaces line). { intros F. destruct W as ([NE W] & a & b & -> & _). apply Forall_app in F as [_ F]. apply Forall_app in F as [F _]. destruct w as [|c w]; [congruence|]. inversion W; inversion F; congruence. }
    destruct IH as [[(l & I & F) ->]|(F & ws & -> & L)].
    + left. split; [exists l; split; [right; exact I|exact F]|reflexivity].
    + right. split; [intros l [<-|I]; auto|]. exists (w :: ws). split; [reflexivity|constructor; assumption].
Qed.
Print Assumptions C77_load.
Example C77_load_example : load_adverbs (u "매우 12
 아주	3
") = Ok [u "매우"; u "아주"] /\ load_adverbs (u "매우

아주") = Err IndexError.
Proof. split; vm_compute; reflexivity. Qed.

(** The adverbs of stems: 하 at the end becomes each of the suffixes. It fails exactly when there are suffixes and an empty stem. *)
Theorem C77_stem_to_adverb : forall stems suffixs,
  (suffixs <> [] /\ In [] stems -> stem_to_adverb stems suffixs = Err IndexError) /\
  (suffixs = [] \/ ~ In [] stems -> exists out, stem_to_adverb stems suffixs = Ok out /\ forall a, In a out <-> exists p suffix, In (p ++ u "하") stems /\ In suffix suffixs /\ a = p ++ suffix).
Proof.
  intros stems suffixs.
  set (f := fun (stem suffix : str) => do c <- at_last stem; Ok (if N.eqb c "하"%ch then [removelast stem ++ suffix] else [])).
  assert (H1 : forall stem, stem <> [] -> exists c p, stem = p ++ [c] /\ mapM (f stem) suffixs = Ok (map (fun s => if N.eqb c "하"%ch then [p ++ s] else []) suffixs)).
  { intros stem NE. destruct (exists_last NE) as (p & c & ->). exists c, p. split; [reflexivity|]. apply PyBase.mapM_pure. intros s _. unfold f. rewrite (proj2 (at_last_iff (p ++ [c]) c)) by eauto. cbn [bind]. rewrite removelast_last. reflexivity. }
  split.
  - intros [NS I]. destruct suffixs as [|s0 ss]; [congruence|]. change (stem_to_adverb stems (s0 :: ss)) with (do ls <- mapM (fun stem => mapM (f stem) (s0 :: ss)) stems; Ok (concat (concat ls))).
    assert (E : mapM (fun stem => mapM (f stem) (s0 :: ss)) stems = Err IndexError); [|exact (f_equal (fun r => do ls <- r; Ok (concat (concat ls))) E)].
    set (g := fun stem => mapM (f stem) (s0 :: ss)) in *. assert (G0 : g [] = Err IndexError) by reflexivity. assert (G1 : forall st, st <> [] -> exists ls, g st = Ok ls) by (intros st NE; destruct (H1 st NE) as (c & p & _ & E); unfold g; eauto).
    clearbody g. clear - I G0 G1. induction stems as [|st stems IH]; [destruct I|]. cbn [mapM]. destruct st as [|c0 st]; [rewrite G0; reflexivity|].
    destruct (G1 (c0 :: st)) as (ls & ->); [discriminate|]. cbn [bind]. rewrite IH; [reflexivity|]. destruct I as [I|I]; [discriminate|exact I].
  - intros H. assert (X : exists out, stem_to_adverb stems suffixs = Ok (concat (concat out)) /\ Forall2 (fun stem ls => mapM (f stem) suffixs = Ok ls) stems out).
    { change (stem_to_adverb stems suffixs) with (do ls <- mapM (fun stem => mapM (f stem) suffixs) stems; Ok (concat (concat ls))). destruct (PosProofs10.mapM_ok (fun stem => mapM (f stem) suffixs) stems) as [out E].
      - intros st I. destruct H as [->|H]; [exists []; reflexivity|]. destruct (H1 st) as (c & p & _ & E); [intros ->; exact (H I)|eauto].
      - exists out. split; [exact (f_equal (fun r => do ls <- r; Ok (concat (concat ls))) E)|]. apply PyBase.mapM_ok, E. }
    destruct X as (out & E & F). exists (concat (concat out)). split; [exact E|]. clear E. intros a.
    assert (S1 : forall st ls, In st stems -> mapM (f st) suffixs = Ok ls -> (In a (concat ls) <-> exists p suffix, st = p ++ u "하" /\ In suffix suffixs /\ a = p ++ suffix)).
    { intros st ls I M. destruct st as [|c0 st].
      - destruct H as [->|H]; [injection M as <-; split; [intros []|intros (? & ? & _ & [] & _)]|destruct (H I)].
      - destruct (H1 (c0 :: st)) as (c & p & EQ & E); [discriminate|]. rewrite EQ in *. assert (M2 : ls = map (fun s => if N.eqb c "하"%ch then [p ++ s] else []) suffixs) by congruence. rewrite M2. rewrite in_concat. split.
        + intros (x & J & K). apply in_map_iff in J as (s & <- & J). destruct (N.eqb c "하"%ch) eqn:C; [|destruct K]. destruct K as [<-|[]]. apply N.eqb_eq in C. exists p, s. split; [rewrite C; reflexivity|]. auto.
        + intros (p' & s & E' & J & ->). change (u "하") with ["하"%ch] in E'. apply app_inj_tail in E' as [-> ->]. exists [p' ++ s]. split; [|left; reflexivity]. apply in_map_iff. exists s. rewrite N.eqb_refl. auto. }
    revert S1 F. clear. intros S1 F. revert S1. induction F as [|st ls stems out M F IH]; intros S1.
    + cbn [concat]. split; [intros []|intros (? & ? & [] & _)].
    + cbn [concat]. rewrite concat_app, in_app_iff, IH by (intros st' ls' I; apply S1; right; exact I). rewrite (S1 st ls (or_introl eq_refl) M). split.
      * intros [(p & s & -> & J & ->)|(p & s & I & J & ->)]; exists p, s; cbn [In]; auto.
      * intros (p & s & [->|I] & J & ->); [left|right]; exists p, s; auto.
Qed.
Print Assumptions C77_stem_to_adverb.
Example C77_stem_example : stem_to_adverb [u "조용하"; u "먹"; u "가득하"] default_suffixs = Ok [u "조용히"; u "가득히"].
Proof. vm_compute. reflexivity. Qed.

(** ** C78: the exact result of extract *)
(** The nouns, and the nouns that are also something else, with their counts. *)
Theorem C78_nouns : forall chat0 x0 x' t, let x := with_josas chat0 x0 in let chat := is_chat chat0 in trained x -> pos_extract chat0 x0 = Ok (x', t) ->
  tabulates (g_noun t) (fun n => N7 chat x n /\ ~ confused chat x n) (noun_count chat x) /\ tabulates (g_confused t) (confused chat x) (noun_count chat x).
Proof. intros chat0 x0 x' t x chat TR E. destruct (extract_exact chat0 x0 x' t TR E) as (H1 & H2 & _). split; assumption. Qed.
Print Assumptions C78_nouns.
(** The adjectives and verbs, with their counts and the analyses of the extractor; the analyses the extractor gains; the stems and endings it is left with. *)
Theorem C78_predicators : forall chat0 x0 x' t, let x := with_josas chat0 x0 in let chat := is_chat chat0 in trained x -> pos_extract chat0 x0 = Ok (x', t) ->
  tabulates (g_adj t) (A4 chat x) (fun w v => adj_count chat x w (fst v) /\ exists p, dget (x_adj x') w = Some p /\ snd v = Some (snd p)) /\
  tabulates (g_verb t) (V4 chat x) (fun w v => verb_count chat x w (fst v) /\ exists p, dget (x_verb x') w = Some p /\ snd v = Some (snd p)) /\
  lemma_table x (x_adj x) (x_adj x') (ca chat x) (la chat x) /\ lemma_table x (x_verb x) (x_verb x') (cv chat x) (lv chat x) /\
  (forall s, In s (x_adjs x') <-> AS3 chat x s) /\ (forall s, In s (x_verbs x') <-> VS3 chat x s) /\ (forall e, In e (x_eomis x') <-> EO3 chat x e).
Proof. intros chat0 x0 x' t x chat TR E. destruct (extract_exact chat0 x0 x' t TR E) as (_ & _ & H3 & H4 & _ & _ & _ & H8 & H9 & H10 & H11 & H12 & _). do 6 (split; [assumption|]). assumption. Qed.
Print Assumptions C78_predicators.
(** The adverbs, josas and the words that remain unknown; the nouns, josas, adverbs and eojeols of the extractor are unchanged. *)
Theorem C78_rest : forall chat0 x0 x' t, let x := with_josas chat0 x0 in let chat := is_chat chat0 in trained x -> pos_extract chat0 x0 = Ok (x', t) ->
  tabulates (g_adv t) (D1 x) (fun w n => dget (x_eoj x) w = Some n) /\ tabulates (g_josa t) (J2 x) (josa_count chat x) /\ tabulates (g_unknown t) (rest7 chat x) (fun w n => dget (x_eoj x) w = Some n) /\
  x_nouns x' = x_nouns x /\ x_josas x' = x_josas x /\ x_adv x' = x_adv x /\ x_eoj x' = x_eoj x.
Proof. intros chat0 x0 x' t x chat TR E. destruct (extract_exact chat0 x0 x' t TR E) as (_ & _ & _ & _ & H5 & H6 & H7 & _ & _ & _ & _ & _ & H13 & H14 & H15 & H16). do 6 (split; [assumption|]). assumption. Qed.
Print Assumptions C78_rest.

Definition ex : posx := mkX [u "사과"; u "나무"; u "자동차"] [(u "좋은", (9, [(u "좋", u "은")])); (u "싶은", (8, [(u "싶", u "은")]))] [(u "먹고", (7, [(u "먹", u "고")]))] [u "좋"; u "싶"] [u "먹"] [u "은"; u "고"; u "았다"; u "다"] [u "는"; u "을"] [u "매우"]
  [(u "사과", 5); (u "사과는", 3); (u "좋은", 2); (u "사과좋은", 1); (u "매우", 4); (u "좋았다", 2); (u "먹고싶은", 1); (u "너는", 2); (u "ㅋㅋ", 6); (u "는", 1); (u "나무", 3); (u "사과나무", 2); (u "먹고", 1); (u "자동차를", 2)].
Lemma nodupb_sound {A} `{EqB A} (l : list A) : (fix f l := match l with [] => true | x :: t => negb (mem x t) && f t end) l = true -> NoDup l.
Proof. induction l as [|x t IH]; [constructor|]. intros B. apply andb_true_iff in B as [B1 B2]. constructor; [|apply IH, B2]. intros I. apply mem_In in I. rewrite I in B1. discriminate. Qed.
Lemma ex_trained : trained ex.
Proof.
  unfold trained. split; [apply nodupb_sound; vm_compute; reflexivity|]. split; [apply nodupb_sound; vm_compute; reflexivity|]. split; [apply nodupb_sound; vm_compute; reflexivity|]. split; [|split].
  - intros w n D. apply dget_In in D. revert w n D. assert (F : Forall (fun wn : str * Z => 0 < snd wn /\ fst wn <> [] /\ Forall (fun c => is_space c = false) (fst wn)) (x_eoj ex)) by (repeat (constructor; [split; [reflexivity|split; [discriminate|repeat (constructor; [reflexivity|]); constructor]]|]); constructor).
    intros w n D. rewrite Forall_forall in F. apply (F _ D).
  - intros w p D. apply dget_In in D as [E|[E|[]]]; injection E as <- <-; apply nodupb_sound; vm_compute; reflexivity.
  - intros w p D. apply dget_In in D as [E|[]]; injection E as <- <-; apply nodupb_sound; vm_compute; reflexivity.
Qed.
Example C78_example : trained ex /\
  match pos_extract None ex with
  | Ok (x', t) => g_noun t = [(u "사과", 9); (u "나무", 3); (u "너", 2); (u "사과나무", 2)] /\
      g_adj t = [(u "좋은", (3, Some [(u "좋", u "은")])); (u "먹고싶은", (1, Some [(u "먹고싶", u "은")])); (u "좋았다", (2, Some [(u "좋", u "았다")]))] /\
      g_verb t = [(u "먹고", (1, Some [(u "먹", u "고")]))] /\ g_adv t = [(u "매우", 4)] /\ g_unknown t = [(u "ㅋㅋ", 6); (u "자동차를", 2)] /\ g_confused t = [] /\ g_josa t = [(u "는", 5)] /\ x_adjs x' = [u "좋"; u "싶"; u "먹고싶"]
  | Err _ => False
  end /\
  match pos_extract (Some [u "는"]) ex with
  | Ok (x', t) => g_noun t = [(u "사과", 9); (u "나무", 3); (u "너", 2)] /\ g_unknown t = [(u "ㅋㅋ", 6); (u "사과나무", 2); (u "자동차를", 2)] /\ x_adjs x' = [u "좋"; u "싶"] /\ g_adj t = [(u "좋은", (3, Some [(u "좋", u "은")])); (u "먹고싶은", (1, Some [(u "먹고싶", u "은")])); (u "좋았다", (2, Some [(u "좋", u "았다")]))]
  | Err _ => False
  end.
Proof. split; [exact ex_trained|]. split; vm_compute; tauto. Qed.

(** ** C79: extract does not fail, and what the classes have to do with each other *)
(** No failure when the analyses of the predicators have Hangul characters at the seam of stem and ending. *)
Theorem C79_total : forall chat0 x0, let x := with_josas chat0 x0 in trained x ->
  (forall w p s e, dget (x_adj x) w = Some p \/ dget (x_verb x) w = Some p -> In (s, e) (snd p) -> decomposable_end s /\ decomposable_start e) -> exists x' t, pos_extract chat0 x0 = Ok (x', t).
Proof. intros chat0 x0 x TR H. destruct (extract_total chat0 x0 TR H) as [[x' t] E]. eauto. Qed.
Print Assumptions C79_total.
(** "extract never fails" is false: one analysis with an empty ending is enough. *)
Theorem C79_total_refuted : exists x, trained x /\ pos_extract None x = Err IndexError.
Proof.
  exists (mkX [] [(u "이렇", (1, [(u "이렇", [])])); (u "먹고", (1, [(u "먹", u "고")]))] [] [] [] [] [] [] [(u "먹고이렇", 1)]). split; [|vm_compute; reflexivity].
  unfold trained. cbn [x_eoj x_adj x_verb]. split; [apply nodupb_sound; vm_compute; reflexivity|]. split; [apply nodupb_sound; vm_compute; reflexivity|]. split; [constructor|]. split; [|split].
  - intros w n D. apply dget_In in D as [E|[]]. injection E as <- <-. split; [reflexivity|]. split; [discriminate|]. repeat (constructor; [reflexivity|]); constructor.
  - intros w p D. apply dget_In in D as [E|[E|[]]]; injection E as <- <-; apply nodupb_sound; vm_compute; reflexivity.
  - intros w p D. discriminate.
Qed.
Print Assumptions C79_total_refuted.
(** A noun is not among the adjectives, verbs, adverbs or confused nouns, and an unknown word is in no other table but, maybe, those of the nouns. *)
Theorem C79_disjoint : forall chat0 x0 x' t, trained (with_josas chat0 x0) -> pos_extract chat0 x0 = Ok (x', t) ->
  (forall n, In n (dkeys (g_noun t)) -> ~ In n (dkeys (g_adj t)) /\ ~ In n (dkeys (g_verb t)) /\ ~ In n (dkeys (g_adv t)) /\ ~ In n (dkeys (g_confused t))) /\
  (forall w, In w (dkeys (g_unknown t)) -> In w (dkeys (x_eoj x0)) /\ ~ In w (dkeys (g_adj t)) /\ ~ In w (dkeys (g_verb t)) /\ ~ In w (dkeys (g_adv t)) /\ (2 <= length w)%nat).
Proof.
  intros chat0 x0 x' t TR E. destruct (extract_exact chat0 x0 x' t TR E) as ((_ & KN & _) & (_ & KC & _) & (_ & KA & _) & (_ & KV & _) & (_ & KD & _) & _ & (_ & KU & _) & _). split.
  - intros n I. apply KN in I as [I NC]. rewrite KA, KV, KD, KC. unfold confused in *. tauto.
  - intros w I. apply KU in I as [[R5 R6] _]. pose proof R5 as [[[[R1 R2] R3] R4] _]. rewrite KA, KV, KD. unfold A4, V4, D1, A1, V1. destruct R1 as (R11 & R12 & R13 & R14 & R15). split; [destruct chat0; exact R11|]. split; [tauto|]. split; [tauto|]. split; [tauto|].
    assert (NE : w <> []). { destruct TR as (_ & _ & _ & TE & _). unfold eojeol in R11. apply dget_keys in R11. destruct (dget (x_eoj (with_josas chat0 x0)) w) as [n|] eqn:D; [|congruence]. apply (TE w n D). }
    destruct w as [|c [|d w]]; cbn [length] in *; [congruence|lia|lia].
Qed.
Print Assumptions C79_disjoint.
(** The chat extractor never learns stems; no extractor forgets stems, analyses or, but in chats, endings. *)
Theorem C79_stems : forall chat0 x0 x' t, trained (with_josas chat0 x0) -> pos_extract chat0 x0 = Ok (x', t) ->
  (forall s, In s (x_adjs x0) -> In s (x_adjs x')) /\ (forall s, In s (x_verbs x0) -> In s (x_verbs x')) /\ (forall e, In e (x_eomis x') -> In e (x_eomis x0)) /\
  (forall w p, dget (x_adj x0) w = Some p -> dget (x_adj x') w = Some p) /\ (forall w p, dget (x_verb x0) w = Some p -> dget (x_verb x') w = Some p) /\
  (chat0 = None -> forall e, In e (x_eomis x0) -> In e (x_eomis x')) /\
  (chat0 <> None -> (forall s, In s (x_adjs x') -> In s (x_adjs x0)) /\ (forall s, In s (x_verbs x') -> In s (x_verbs x0))).
Proof.
  intros chat0 x0 x' t TR E. destruct (extract_exact chat0 x0 x' t TR E) as (_ & _ & _ & _ & _ & _ & _ & H8 & H9 & H10 & H11 & H12 & _).
  assert (W : x_adjs (with_josas chat0 x0) = x_adjs x0 /\ x_verbs (with_josas chat0 x0) = x_verbs x0 /\ x_eomis (with_josas chat0 x0) = x_eomis x0 /\ x_adj (with_josas chat0 x0) = x_adj x0 /\ x_verb (with_josas chat0 x0) = x_verb x0) by (destruct chat0; repeat split). destruct W as (W1 & W2 & W3 & W4 & W5).
  split; [intros s I; apply H10; left; rewrite W1; exact I|]. split; [intros s I; apply H11; left; rewrite W2; exact I|]. split; [intros e I; apply H12 in I as [I _]; rewrite W3 in I; exact I|].
  split; [intros w p D; apply (H8 w); rewrite W4; exact D|]. split; [intros w p D; apply (H9 w); rewrite W5; exact D|]. split.
  - intros -> e I. apply H12. split; [exact I|discriminate].
  - intros NC. assert (C : is_chat chat0 = true) by (destruct chat0; [reflexivity|congruence]). split; intros s I; [apply H10 in I as [I|[I _]]|apply H11 in I as [I|[I _]]]; try (rewrite C in I; discriminate); [rewrite W1 in I|rewrite W2 in I]; exact I.
Qed.
Print Assumptions C79_stems.
(** "The count of a noun is at most the number of eojeols that contain it" is false: a word cut twice is counted twice. *)
Theorem C79_noun_count_refuted : exists x x' t noun n k, trained x /\ pos_extract None x = Ok (x', t) /\ dget (g_noun t) noun = Some n /\ how_much (fun w => exists a b, w = a ++ noun ++ b) (x_eoj x) k /\ k < n.
Proof.
  exists (mkX [u "사과"] [] [(u "는", (1, [(u "느", u "ㄴ")]))] [] [] [] [u "는"] [] [(u "사과", 1); (u "는", 1); (u "사과는", 1)]). eexists _, _, (u "사과"), 3, 2. split; [|split; [vm_compute; reflexivity|split; [vm_compute; reflexivity|split; [|reflexivity]]]].
  2: { exists (fun w => (2 <=? length w)%nat). split; [|reflexivity]. intros w [<-|[<-|[<-|[]]]].
       - split; [intros _; exists [], []; reflexivity|reflexivity].
       - split; [discriminate|]. intros (a & b & E). apply (f_equal (@length N)) in E. rewrite !app_length in E. cbn in E. lia.
       - split; [intros _; exists [], (u "는"); reflexivity|reflexivity]. }
  unfold trained. cbn [x_eoj x_adj x_verb]. split; [apply nodupb_sound; vm_compute; reflexivity|]. split; [constructor|]. split; [apply nodupb_sound; vm_compute; reflexivity|]. split; [|split].
  - intros w n D. apply dget_In in D as [E|[E|[E|[]]]]; injection E as <- <-; (split; [reflexivity|]; split; [discriminate|]; repeat (constructor; [reflexivity|]); constructor).
  - intros w p D. discriminate.
  - intros w p D. apply dget_In in D as [E|[]]; injection E as <- <-; apply nodupb_sound; vm_compute; reflexivity.
Qed.
Print Assumptions C79_noun_count_refuted.
(** "Every eojeol that is known or unknown appears in some table" is false: 는, a josa on its own, appears in none. *)
Theorem C79_dropped_refuted : exists w n, In (w, n) (x_eoj ex) /\ match pos_extract None ex with Ok (_, t) => ~ In w (dkeys (g_noun t) ++ dkeys (g_confused t) ++ dkeys (g_adj t) ++ dkeys (g_verb t) ++ dkeys (g_adv t) ++ dkeys (g_unknown t)) | Err _ => False end.
Proof. exists (u "는"), 1. split; [do 9 right; left; reflexivity|]. vm_compute. intros H. repeat destruct H as [H|H]; try discriminate. destruct H. Qed.
Print Assumptions C79_dropped_refuted.
(** "extract can be repeated with the same result" is false: the first call changes the extractor. *)
Theorem C79_repeat_refuted : exists x x1 t1 x2 t2, trained x /\ pos_extract None x = Ok (x1, t1) /\ pos_extract None x1 = Ok (x2, t2) /\ g_unknown t1 = [(u "사과좋았다", 1)] /\ g_unknown t2 = [].
Proof.
  exists (mkX [u "사과"] [] [] [u "좋"] [] [u "았다"] [] [] [(u "사과", 2); (u "좋았다", 3); (u "사과좋았다", 1)]). eexists _, _, _, _. split; [|split; [vm_compute; reflexivity|split; [vm_compute; reflexivity|split; vm_compute; reflexivity]]].
  unfold trained. cbn [x_eoj x_adj x_verb]. split; [apply nodupb_sound; vm_compute; reflexivity|]. split; [constructor|]. split; [constructor|]. split; [|split]; [|intros w p D; discriminate|intros w p D; discriminate].
  intros w n D. apply dget_In in D as [E|[E|[E|[]]]]; injection E as <- <-; (split; [reflexivity|]; split; [discriminate|]; repeat (constructor; [reflexivity|]); constructor).
Qed.
Print Assumptions C79_repeat_refuted.
