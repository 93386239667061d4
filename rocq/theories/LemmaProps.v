(** * Properties of the lemmatizer: conjugation, analysis and the round trip *)
From Verif Require Import PyBase HangleModel HangleSpec LemmaModel LemmaSpec LemmaProofs LemmaProofs2 LemmaProofs3 LemmaProofs4 LemmaProofs5 LemmaProofs6 LemmaProofs7.
Open Scope N_scope.
Local Opaque syl.

(** ** C53: conjugate *)
(** the result is exactly the set of surface forms given by the rules (and the regular form when no rule applies) *)
Theorem C53_conjugate_exact : forall stem ending, good_stem stem -> good_ending ending ->
  exists cs, conjugate stem ending false = Ok cs /\ forall s, In s cs <-> surface_of stem ending s.
Proof. exact conjugate_exact. Qed.
(** there is always at least one *)
Theorem C53_conjugate_total : forall stem ending, good_stem stem -> good_ending ending -> exists cs, conjugate stem ending false = Ok cs /\ cs <> [].
Proof.
  intros stem ending GS GE. destruct (conjugate_exact stem ending GS GE) as (cs & C & S). exists cs. split; [exact C|]. intros ->.
  destruct (good_stem_parts stem GS) as (p & a & b & f & -> & J & G). destruct (good_ending_parts ending GE) as (E & o & v & g & t & -> & H).
  destruct (surface_nonempty p a b f E o v g t J H G) as (s & X). apply (surface_of_parts p a b f E o v g t s J H) in X. apply S in X. exact X.
Qed.
(** only the junction changes: all of the stem but its last two characters and all of the ending but its first are kept; unless the stem ends in 르, all but its last *)
Theorem C53_conjugate_junction : forall stem ending cs s, good_stem stem -> good_ending ending -> conjugate stem ending false = Ok cs -> In s cs ->
  (exists m, s = firstn (length stem - 2) stem ++ m ++ tl ending) /\ ((forall q, stem <> q ++ ["르"%ch]) -> exists m, s = removelast stem ++ m ++ tl ending).
Proof.
  intros stem ending cs s GS GE C I. destruct (conjugate_exact stem ending GS GE) as (cs' & C' & S). rewrite C in C'. injection C' as <-. apply S in I. split; [exact (frame _ _ _ I)|]. intros N. exact (frame_last _ _ _ I N).
Qed.
(** with vowel harmony the vowel of the first syllable of the ending is replaced and the rest is the same; a consonant is left alone *)
Theorem C53_harmony : forall p a b f o v g t, jamo a b f -> jamo o v g ->
  (exists w, harmonic b f o v w) /\
  forall w, harmonic b f o v w -> In w vowels /\ conjugate (p ++ [syl a b f]) (syl o v g :: t) true = conjugate (p ++ [syl a b f]) (syl o w g :: t) false.
Proof.
  intros p a b f o v g t J J'. destruct (conjugate_harmony p a b f o v g t J J') as (w & H & I & E). split; [exists w; exact H|]. intros w' H'. rewrite <- (harmonic_unique b f o v w w' H H'). split; [exact I|exact E].
Qed.
Theorem C53_harmony_consonant : forall p a b f c t, jamo a b f -> consonant c -> conjugate (p ++ [syl a b f]) (c :: t) true = conjugate (p ++ [syl a b f]) (c :: t) false.
Proof. exact conjugate_lone_harmony. Qed.
(** the other inputs *)
Theorem C53_errors :
  (forall stem h, conjugate stem [] h = Err AssertionError) /\ (forall e t h, conjugate [] (e :: t) h = Err IndexError) /\
  (forall p c e t h, ~ syllable c -> ~ consonant c -> ~ vowel c -> conjugate (p ++ [c]) (e :: t) h = Err TypeError) /\
  (forall p c e t h, syllable c -> ~ syllable e -> ~ consonant e -> ~ vowel e -> conjugate (p ++ [c]) (e :: t) h = Err TypeError) /\
  (forall p c e t, syllable c -> vowel e -> conjugate (p ++ [c]) (e :: t) false = Err ValueError).
Proof. exact conjugate_errors. Qed.
(** an ending that begins with any other consonant has no form (ㅇ: after stems it does not act on) *)
Theorem C53_other_consonants : forall p a b f c t, jamo a b f -> consonant c -> c <> "ㄴ"%ch -> c <> "ㄹ"%ch -> c <> "ㅁ"%ch -> c <> "ㅂ"%ch -> c <> "ㅆ"%ch ->
  (c = "ㅇ"%ch -> f <> "ㄷ"%ch /\ f <> "ㅂ"%ch /\ f <> "ㅅ"%ch /\ ~ (b = "ㅡ"%ch /\ f = " "%ch)) -> conjugate (p ++ [syl a b f]) (c :: t) false = Ok [].
Proof. exact conjugate_lone. Qed.
(** conjugate_chat: the empty ending gives the stem, endings conjugate knows give the same forms, any other final consonant closes the last syllable, a tense consonant that is no final is an error *)
Theorem C53_chat :
  (forall stem h, conjugate_chat stem [] h = Ok [stem]) /\
  (forall stem ending, good_stem stem -> good_ending ending -> exists cs, conjugate_chat stem ending false = Ok cs /\ forall s, In s cs <-> surface_of stem ending s) /\
  (forall p a b f c t h, jamo a b f -> In c finals -> consonant c -> c <> "ㄴ"%ch -> c <> "ㄹ"%ch -> c <> "ㅁ"%ch -> c <> "ㅂ"%ch -> c <> "ㅆ"%ch ->
    (c = "ㅇ"%ch -> f <> "ㄷ"%ch /\ f <> "ㅂ"%ch /\ f <> "ㅅ"%ch /\ ~ (b = "ㅡ"%ch /\ f = " "%ch)) -> conjugate_chat (p ++ [syl a b f]) (c :: t) h = Ok [p ++ syl a b c :: t]) /\
  (forall p a b f c t h, jamo a b f -> c = "ㄸ"%ch \/ c = "ㅃ"%ch \/ c = "ㅉ"%ch -> conjugate_chat (p ++ [syl a b f]) (c :: t) h = Err ValueError).
Proof. split; [exact chat_empty|]. split; [exact chat_good|]. split; [exact chat_lone|exact chat_tense]. Qed.
(** the forms of a stem *)
Theorem C53_stem_forms : forall p a b f, jamo a b f -> (syl a b f = "르"%ch -> forall q c, p = q ++ [c] -> syllable c) ->
  exists cs, conjugate_stem (p ++ [syl a b f]) = Ok cs /\ forall s, In s cs <-> stem_surface p a b f s.
Proof. exact stem_exact. Qed.
(** not every stem can take the emoticon ㅇ: 크 + ㅇ raises, and 듣 + ㅇ also gives forms with a lone ㅇ *)
Theorem C53_chat_refuted : conjugate_chat (u "크") (u "ㅇ") false = Err ValueError /\ conjugate_chat (u "듣") (u "ㅇ") false = Ok [u "들ㅇ"; u "듣ㅇ"; u "등"].
Proof. split; vm_compute; reflexivity. Qed.
(** the forms of a stem are not all the left parts of its surface forms: 푸 + 어 -> 퍼 and 이 + ㅁ -> 임 *)
Theorem C53_stem_forms_refuted :
  (exists cs ss, conjugate (u "푸") (u "어") false = Ok cs /\ cs = [u "퍼"] /\ conjugate_stem (u "푸") = Ok ss /\ mem (u "퍼") ss = false) /\
  (exists cs ss, conjugate (u "이") (u "ㅁ") false = Ok cs /\ cs = [u "임"] /\ conjugate_stem (u "이") = Ok ss /\ mem (u "임") ss = false).
Proof. split; eexists; eexists; vm_compute; repeat split; reflexivity. Qed.

Example C53_example : good_stem (u "깨닫") /\ good_ending (u "아") /\ conjugate (u "깨닫") (u "아") false = Ok [u "깨달아"; u "깨닫아"] /\
  conjugate (u "이르") (u "었다") false = Ok [u "일렀다"; u "이르렀다"] /\ conjugate (u "이") (u "ㅂ니다") false = Ok [u "입니다"] /\
  conjugate (u "모으") (u "았다") false = Ok [u "모았다"] /\ conjugate (u "먹") (u "았다") true = Ok [u "먹었다"] /\
  conjugate_chat (u "아니") (u "ㅋ") false = Ok [u "아닠"] /\
  conjugate_stem (u "구르") = Ok [u "구르"; u "굴"; u "구른"; u "구를"; u "구릅"; u "구릈"; u "구러"; u "구렀"].
Proof.
  split; [exists (u "깨"), ("닫"%ch); split; [vm_compute; reflexivity|split; [unfold syllable; lia|discriminate]]|].
  split; [exists ("아"%ch), []; split; [vm_compute; reflexivity|left; unfold syllable; lia]|]. vm_compute. repeat split; reflexivity.
Qed.

(** ** C54: lemma_candidate *)
(** the result is exactly the set of the proposals (and predefined pairs) that conjugate back to the word *)
Theorem C54_candidates_exact : forall d l r, good_table d -> good_left l -> good_right r ->
  exists cs, lemma_candidate d l r = Ok cs /\ NoDup cs /\ forall s e, In (s, e) cs <-> lemma_of l r s e \/ listed d l r s e /\ conjugates_back l r s e.
Proof. exact candidate_exact. Qed.
(** soundness: every pair conjugates back to l + r and its ending is not empty *)
Theorem C54_candidates_sound : forall d l r cs s e, good_table d -> good_left l -> good_right r -> lemma_candidate d l r = Ok cs -> In (s, e) cs ->
  e <> [] /\ exists ss, conjugate s e false = Ok ss /\ In (l ++ r) ss.
Proof.
  intros d l r cs s e GT GL GR C I. destruct (candidate_exact d l r GT GL GR) as (cs' & C' & _ & S). rewrite C in C'. injection C' as <-. apply S in I.
  assert (SO : surface_of s e (l ++ r)) by (destruct I as [(_ & _ & X)|(_ & _ & X)]; exact X).
  assert (NE : e <> []) by (destruct SO as (p0 & a0 & b0 & f0 & E & o & v & g & t & _ & _ & -> & _); discriminate). split; [exact NE|].
  assert (GG : good_stem s /\ (e = [] \/ good_ending e)).
  { destruct I as [((p & a & b & f & EL & J & P) & _)|((items & L & LI) & _)].
    - apply (proposal_good p a b f r s e J); [|exact GR|exact P]. destruct GL as (p' & c & EL' & _ & G). rewrite EL in EL'. apply app_inj_tail in EL' as [<- _]. exact G.
    - destruct (proj2 GT _ _ _ _ L LI) as (s' & e' & X & GS & GE). injection X as <- <-. split; [exact GS|exact GE]. }
  destruct GG as [GS [X|GE]]; [contradiction|]. destruct (conjugate_exact s e GS GE) as (ss & CC & SS). exists ss. split; [exact CC|]. apply SS, SO.
Qed.
Theorem C54_errors : forall d, (forall r, lemma_candidate d [] r = Err IndexError) /\
  (forall p c r, ~ syllable c -> ~ consonant c -> ~ vowel c -> lemma_candidate d (p ++ [c]) r = Err TypeError) /\
  (forall p c r, consonant c \/ vowel c -> lemma_candidate d (p ++ [c]) r = Err ValueError) /\
  (forall p c e t, syllable c -> ~ syllable e -> ~ consonant e -> ~ vowel e -> lemma_candidate d (p ++ [c]) (e :: t) = Err TypeError) /\
  (forall p c e t, syllable c -> consonant e \/ vowel e -> lemma_candidate d (p ++ [c]) (e :: t) = Err ValueError).
Proof. exact candidate_errors. Qed.
(** a table keyed by words, such as the default one, changes nothing *)
Theorem C54_word_keys_unused : forall d l r, (forall k v, In (k, v) d -> exists w, k = KWord w) -> lemma_candidate d l r = lemma_candidate [] l r.
Proof. exact word_keys. Qed.
(** the chat variant also analyses the word without an emoticon jamo that closes it *)
Theorem C54_chat_exact : forall d p a b f r, good_table d -> jamo a b f -> (forall q c', p = q ++ [c'] -> syllable c') -> good_right r ->
  exists cs, lemma_candidate_chat d (p ++ [syl a b f]) r = Ok cs /\ forall s e, In (s, e) cs <->
    (lemma_of (p ++ [syl a b f]) r s e \/ listed d (p ++ [syl a b f]) r s e /\ conjugates_back (p ++ [syl a b f]) r s e) \/
    r = [] /\ In f (u "ㄷㅂㅅㅇㅋㅎ") /\ (lemma_of (p ++ [syl a b " "%ch]) [] s e \/ listed d (p ++ [syl a b " "%ch]) [] s e /\ conjugates_back (p ++ [syl a b " "%ch]) [] s e).
Proof. exact chat_exact. Qed.
(** Lemmatizer.lemmatize: the candidates of every split whose stem (and ending) is known *)
Theorem C54_lemmatize_exact : forall stems endings chk word, Forall syllable word ->
  exists cs, lemmatize (new_lemmatizer stems endings None) word chk = Ok cs /\
    forall s e, In (s, e) cs <-> exists l r, word = l ++ r /\ l <> [] /\ lemma_of l r s e /\ In s stems /\ (chk = true \/ In e endings).
Proof.
  intros stems endings chk word F. destruct (lemmatize_exact (new_lemmatizer stems endings None) chk word) as (cs & C & S).
  - split; [vm_compute; repeat constructor; [intros [X|[]]; discriminate X|intros []]|]. intros l r items i I _. cbn in I. destruct I as [X|[X|[]]]; discriminate X.
  - exact F.
  - exists cs. split; [exact C|]. intros s e. rewrite S. cbn [lem_stems lem_endings lem_predefined new_lemmatizer].
    split; intros (l & r & E & N & X & K); exists l, r; (split; [exact E|split; [exact N|split; [|exact K]]]); [|left; exact X].
    destruct X as [X|((items & I & _) & _)]; [exact X|]. exfalso. cbn in I. destruct I as [Y|[Y|[]]]; discriminate Y.
Qed.
(** Lemmatizer.candidates raises for every non-empty word *)
Theorem C54_candidates_method_refuted : forall lem c word, lem_candidates lem (c :: word) = Err AttributeError.
Proof. reflexivity. Qed.

Example C54_example : good_left (u "깨달") /\ good_right (u "아") /\ good_table default_predefined /\
  lemma_candidate [] (u "깨달") (u "아") = Ok [(u "깨달", u "아"); (u "깨닫", u "아"); (u "깨다", [12601; 50500]); (u "깨답", [12601; 50500]); (u "깨닿", [12601; 50500]); (u "깨드", u "알아")] /\
  lemmatize (new_lemmatizer [u "깨닫"; u "이"] [u "아"; u "었다"] None) (u "깨달아") false = Ok [(u "깨닫", u "아")].
Proof.
  split; [exists (u "깨"), ("달"%ch); split; [vm_compute; reflexivity|split; [unfold syllable; lia|]]; intros q c' E; destruct q as [|x [|y q]]; [injection E as <-; unfold syllable; lia|discriminate E|discriminate E]|].
  split; [right; exists ("아"%ch), []; split; [vm_compute; reflexivity|unfold syllable; lia]|].
  split; [split; [vm_compute; repeat constructor; [intros [X|[]]; discriminate X|intros []]|intros l r items i I _; cbn in I; destruct I as [X|[X|[]]]; discriminate X]|].
  vm_compute. split; reflexivity.
Qed.

(** ** C55: the round trip *)
(** a surface form made by a rule under its condition is analysed back to the stem and the ending at some split *)
Theorem C55_round_trip : forall p a b f E o v g t r s, jamo a b f -> head_parts E o v g -> g <> "ㅎ"%ch -> Forall syllable p -> good_right t ->
  by_rule p a b f E o v g t r s -> recoverable p a b f E o v g t r -> found s (p ++ [syl a b f]) (E :: t).
Proof.
  intros p a b f E o v g t r s J H NH FP GT B R. apply (round_trip p a b f E o v g t J H NH FP GT r s B R). apply (surface_of_parts p a b f E o v g t s J H). left. exists r. exact B.
Qed.
(** so is a regular concatenation *)
Theorem C55_round_trip_regular : forall p a b f o v g t, jamo a b f -> jamo o v g -> g <> "ㅎ"%ch -> Forall syllable p -> good_right t ->
  surface_of (p ++ [syl a b f]) (syl o v g :: t) (p ++ syl a b f :: syl o v g :: t) -> found (p ++ syl a b f :: syl o v g :: t) (p ++ [syl a b f]) (syl o v g :: t).
Proof.
  intros p a b f o v g t J J' NH FP GT SO. assert (H : head_parts (syl o v g) o v g) by (left; split; [exact J'|reflexivity]).
  apply (found_plain p a b f (syl o v g) o v g t J H NH FP); [exact (SP_vowel v (proj1 (proj2 J')))|exact SO|reflexivity].
Qed.
(** what is found is returned by the analysis of that split, and by Lemmatizer when the lexicons know it *)
Theorem C55_found_is_returned : forall word stem ending, found word stem ending ->
  (exists l r cs, word = l ++ r /\ lemma_candidate [] l r = Ok cs /\ In (stem, ending) cs) /\
  forall stems endings cs, Forall syllable word -> In stem stems -> In ending endings -> lemmatize (new_lemmatizer stems endings None) word false = Ok cs -> In (stem, ending) cs.
Proof.
  intros word stem ending (l & r & E & GL & GR & L). split.
  - destruct (candidate_exact [] l r) as (cs & C & _ & S); [split; [constructor|intros ? ? ? ? []]|exact GL|exact GR|]. exists l, r, cs. split; [exact E|]. split; [exact C|]. apply S. left. exact L.
  - intros stems endings cs F IS IE C. destruct (C54_lemmatize_exact stems endings false word F) as (cs' & C' & S). rewrite C in C'. injection C' as <-. apply S. exists l, r. split; [exact E|]. split; [|auto].
    destruct GL as (p & c & -> & _). destruct p; discriminate.
Qed.
(** forms that are not analysed back: the 러 irregular, equal vowels contracted, the 여 irregular, 가 + 아라, 답 + 아, 돕 + ㅂ니다, 푸 + 었다 *)
Definition lost (stem ending : str) : bool :=
  match conjugate stem ending false with
  | Ok cs => existsb (fun s => forallb (fun i => match lemma_candidate [] (firstn i s) (skipn i s) with Ok l => negb (mem (stem, ending) l) | Err _ => false end) (seq 1 (length s))) cs
  | Err _ => false
  end.
Theorem C55_round_trip_refuted : exists pairs, length pairs = 7%nat /\ forall stem ending, In (stem, ending) pairs ->
  exists cs s, conjugate stem ending false = Ok cs /\ In s cs /\ forall l r ls, s = l ++ r -> l <> [] -> lemma_candidate [] l r = Ok ls -> ~ In (stem, ending) ls.
Proof.
  exists [(u "이르", u "어"); (u "가", u "아"); (u "하", u "았다"); (u "가", u "아라"); (u "정답", u "아"); (u "돕", u "ㅂ니다"); (u "푸", u "었다")]. split; [reflexivity|].
  intros stem ending I. assert (L : lost stem ending = true).
  { cbn [In] in I. destruct I as [X|[X|[X|[X|[X|[X|[X|[]]]]]]]]; injection X as <- <-; vm_compute; reflexivity. }
  unfold lost in L. destruct (conjugate stem ending false) as [cs|]; [|discriminate L]. apply existsb_exists in L as (s & IS & F). exists cs, s. split; [reflexivity|]. split; [exact IS|].
  intros l r ls -> NL C. rewrite forallb_forall in F. specialize (F (length l)). rewrite firstn_app, firstn_all, Nat.sub_diag, skipn_app, skipn_all, Nat.sub_diag in F. cbn [firstn skipn app] in F. rewrite app_nil_r, C in F.
  intros X. apply mem_In in X. rewrite X in F. assert (Y : In (length l) (seq 1 (length (l ++ r)))).
  { apply in_seq. rewrite app_length. destruct l; [contradiction|]. cbn [length]. lia. }
  specialize (F Y). discriminate F.
Qed.
Example C55_example : exists a b f o v g, jamo a b f /\ jamo o v g /\ syl a b f = "닫"%ch /\ syl o v g = "아"%ch /\ g <> "ㅎ"%ch /\
  by_rule (u "깨") a b f (syl o v g) o v g [] Rd (u "깨달아") /\ recoverable (u "깨") a b f (syl o v g) o v g [] Rd /\ Forall syllable (u "깨") /\ good_right [].
Proof.
  exists ("ㄷ"%ch), ("ㅏ"%ch), ("ㄷ"%ch), ("ㅇ"%ch), ("ㅏ"%ch), (" "%ch). split; [split; [lit|split; lit]|]. split; [split; [lit|split; lit]|]. split; [vm_compute; reflexivity|]. split; [vm_compute; reflexivity|].
  split; [discriminate|]. split; [split; [reflexivity|split; [reflexivity|vm_compute; reflexivity]]|]. split; [exact I|]. split; [constructor; [vm_compute; split; discriminate|constructor]|left; reflexivity].
Qed.
