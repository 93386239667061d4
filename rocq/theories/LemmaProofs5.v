(** * Proofs about lemma_candidate and Lemmatizer *)
From Verif Require Import PyBase PyText HangleModel HangleSpec HangleProofs LemmaModel LemmaSpec LemmaProofs LemmaProofs2 LemmaProofs3 LemmaProofs4.
Open Scope N_scope.
Local Opaque syl.

Lemma syllable_jamo a b d : jamo a b d -> syllable (syl a b d). Proof. intros J. exact (proj2 (syl_decompose _ _ _ J)). Qed.
Lemma good_snoc p c : syllable c -> (forall q c', p = q ++ [c'] -> syllable c') -> good_stem (p ++ [c]).
Proof. intros S H. exists p, c. split; [reflexivity|]. split; [exact S|]. intros _. exact H. Qed.
Lemma good_snoc2 p c d : syllable c -> syllable d -> good_stem (p ++ [c; d]).
Proof.
  intros S S'. replace (p ++ [c; d]) with ((p ++ [c]) ++ [d]) by (rewrite <- app_assoc; reflexivity). apply good_snoc; [exact S'|]. intros q c' E. apply app_inj_tail in E as [_ <-]. exact S.
Qed.
Lemma syllable_lit c : (44032 <=? c) && (c <=? 55203) = true -> syllable c.
Proof. intros H. apply andb_true_iff in H as [A B]. apply N.leb_le in A, B. exact (conj A B). Qed.
Lemma good_syl o v g t : jamo o v g -> good_ending (syl o v g :: t).
Proof. intros J. exists (syl o v g), t. split; [reflexivity|]. left. apply syllable_jamo, J. Qed.

Lemma proposal_good p a b f r s e : jamo a b f -> (forall q c', p = q ++ [c'] -> syllable c') -> good_right r -> proposal p a b f r s e -> good_stem s /\ (e = [] \/ good_ending e).
Proof.
  intros (JA & JB & JF) G GR P.
  assert (ER : r = [] \/ good_ending r). { destruct GR as [-> |(c & t & -> & S)]; [left; reflexivity|right]. exists c, t. auto. }
  assert (GF : forall d, In d finals -> good_stem (p ++ [syl a b d])) by (intros d I; apply good_snoc; [apply syllable_jamo; split; [exact JA|split; [exact JB|exact I]]|exact G]).
  assert (GV : forall w d, In w vowels -> In d finals -> good_stem (p ++ [syl a w d])) by (intros w d I I'; apply good_snoc; [apply syllable_jamo; split; [exact JA|split; [exact I|exact I']]|exact G]).
  assert (GI : forall w g t, In w vowels -> In g finals -> good_ending (syl "ㅇ"%ch w g :: t)) by (intros w g t I I'; apply good_syl; split; [lit|split; [exact I|exact I']]).
  assert (G5 : forall c t, (c = "ㄴ"%ch \/ c = "ㄹ"%ch \/ c = "ㅁ"%ch \/ c = "ㅂ"%ch \/ c = "ㅆ"%ch) -> good_ending (c :: t)) by (intros c t H; exists c, t; auto).
  destruct P as [| | v g t F V IG R | g t F IG R | g t F IG R | o v g t F J N R | | j H J N | | | | | B | v g t F V IG R | | | H B | w H B N | q w H B A Q | H B].
  - split; [apply GF, JF|exact ER].
  - split; [apply GF; lit|exact ER].
  - split; [apply good_snoc2; [apply syllable_jamo; split; [exact JA|split; [exact JB|lit]]|apply syllable_lit; reflexivity]|]. right. apply GI; [destruct V as [-> | ->]; lit|exact IG].
  - split; [apply GF; lit|]. right. apply GI; [lit|exact IG].
  - split; [apply GF; lit|]. right. apply GI; [lit|exact IG].
  - split; [apply GF; lit|]. right. apply GI; [lit|exact (proj2 (proj2 J))].
  - split; [apply GF; lit|exact ER].
  - split; [apply GF; destruct J as [-> |[-> |[-> | ->]]]; lit|]. right. apply G5, H.
  - split; [apply GF; lit|exact ER].
  - split; [apply good_snoc; [apply syllable_lit; reflexivity|exact G]|]. right. apply GI; [lit|exact JF].
  - split; [apply GV; lit|]. right. apply GI; [lit|exact JF].
  - split; [apply GV; lit|]. right. apply GI; [lit|exact JF].
  - split; [apply GV; lit|]. right. apply GI; [exact JB|exact JF].
  - split; [|exact ER]. apply good_snoc2; [apply syllable_jamo; split; [exact JA|split; [exact JB|exact JF]]|apply syllable_lit; reflexivity].
  - split; [apply good_snoc; [apply syllable_lit; reflexivity|exact G]|]. right. apply GI; [lit|exact JF].
  - split; [apply GF; lit|exact ER].
  - split; [apply GF; lit|]. right. apply G5. clear - H. tauto.
  - split; [apply GV; [destruct B as [[_ ->]|[_ ->]]; lit|lit]|]. right. apply GI; [destruct B as [[_ ->]|[_ ->]]; lit|exact JF].
  - split; [apply good_snoc; [apply syllable_lit; reflexivity|exact G]|]. right. apply GI; [destruct B as [[_ ->]|[_ ->]]; lit|exact JF].
  - split; [apply GV; lit|]. right. apply GI; [lit|exact JF].
Qed.

Lemma not_h E o v g t : head_parts E o v g -> (g <> "ㅎ"%ch <-> (forall o' v' t', In o' initials -> In v' vowels -> E :: t <> syl o' v' "ㅎ"%ch :: t')).
Proof.
  intros H. split.
  - intros N o' v' t' IO IV X. injection X as X _. assert (J : jamo o' v' "ㅎ"%ch) by (split; [exact IO|split; [exact IV|lit]]).
    assert (H' : head_parts E o' v' "ㅎ"%ch) by (left; split; [exact J|exact X]). destruct (head_unique _ _ _ _ _ _ _ H H') as (_ & _ & X'). contradiction.
  - intros N X. destruct H as [[J EQ]|(_ & _ & _ & G)]; [|rewrite X in G; discriminate G]. apply (N o v t); [exact (proj1 J)|exact (proj1 (proj2 J))|]. rewrite EQ, X. reflexivity.
Qed.
Lemma conjugatable_exact word cands acc : (forall i, In i cands -> exists s e, i = Pair s e /\ good_stem s /\ (e = [] \/ good_ending e)) ->
  exists out, conjugatable word acc cands = Ok out /\ (NoDup acc -> NoDup out) /\
  forall s e, In (s, e) out <-> In (s, e) acc \/ In (Pair s e) cands /\ (forall o v t, In o initials -> In v vowels -> e <> syl o v "ㅎ"%ch :: t) /\ surface_of s e word.
Proof.
  revert acc. induction cands as [|i cands IH]; intros acc H.
  - exists acc. split; [reflexivity|]. split; [auto|]. intros s e. cbn [In]. tauto.
  - destruct (H i (or_introl eq_refl)) as (s0 & e0 & -> & GS & GE). assert (H' : forall i, In i cands -> exists s e, i = Pair s e /\ good_stem s /\ (e = [] \/ good_ending e)) by (intros j I; apply H; right; exact I).
    assert (SKIP : (forall s e, s = s0 -> e = e0 -> ~ ((forall o v t, In o initials -> In v vowels -> e <> syl o v "ㅎ"%ch :: t) /\ surface_of s e word)) ->
      exists out, conjugatable word acc cands = Ok out /\ (NoDup acc -> NoDup out) /\ forall s e, In (s, e) out <-> In (s, e) acc \/ In (Pair s e) (Pair s0 e0 :: cands) /\ (forall o v t, In o initials -> In v vowels -> e <> syl o v "ㅎ"%ch :: t) /\ surface_of s e word).
    { intros K. destruct (IH acc H') as (out & C & ND & S). exists out. split; [exact C|]. split; [exact ND|]. intros s e. rewrite S. cbn [In]. split; [intros [X|(X & Y)]; auto|].
      intros [X|([X|X] & Y)]; [auto| |auto]. injection X as <- <-. exfalso. exact (K s0 e0 eq_refl eq_refl Y). }
    cbn [conjugatable unpack bind snd fst]. destruct GE as [-> |GE].
    + apply SKIP. intros s e -> -> (_ & p & a & b & f & E & o & v & g & t & _ & _ & X & _). discriminate X.
    + destruct (conjugate_exact s0 e0 GS GE) as (cs & C & SC). rewrite C. destruct (good_ending_parts e0 GE) as (E & o & v & g & t & -> & HP).
      rewrite (parts_head [] 0 0 0 E o v g [] HP). cbn [bind snd]. destruct (N.eqb_spec g ("ㅎ"%ch)) as [G|G].
      * apply SKIP. intros s e -> -> (K & _). apply (not_h E o v g t HP) in K. contradiction.
      * cbn [bind]. destruct (IH (if mem word cs then setadd acc (s0, E :: t) else acc) H') as (out & C' & ND & S). exists out. split; [exact C'|].
        split; [intros N; apply ND; destruct (mem word cs); [apply setadd_NoDup, N|exact N]|].
        intros s e. rewrite S. pose proof (proj1 (not_h E o v g t HP) G) as NH. destruct (mem word cs) eqn:M.
        -- apply mem_In, SC in M. rewrite setadd_In. cbn [In]. split.
           ++ intros [[X|X]|(X & Y)]; [auto| |auto]. injection X as -> ->. right. split; [left; reflexivity|]. split; [exact NH|exact M].
           ++ intros [X|([X|X] & Y)]; [auto| |auto]. injection X as <- <-. left. right. reflexivity.
        -- apply mem_In_false in M. cbn [In]. split; [intros [X|(X & Y)]; auto|]. intros [X|([X|X] & (Y & Z))]; [auto| |auto]. injection X as <- <-. exfalso. apply M, SC, Z.
Qed.

Lemma pred_find_In d l r items : NoDup (map fst d) -> (pred_find d l r = Some items <-> In (KPair l r, items) d).
Proof.
  induction d as [|[k v] d IH]; intros ND; [split; [discriminate|intros []]|]. cbn [map fst] in ND. inversion ND as [|? ? NI ND']; subst.
  destruct k as [w|l' r']; cbn [pred_find].
  - rewrite (IH ND'). cbn [In]. split; [auto|]. intros [X|X]; [discriminate X|exact X].
  - destruct (eqb_spec l l') as [-> |NL]; cbn [andb]; [destruct (eqb_spec r r') as [-> |NR]|].
    + cbn [In]. split; [intros X; injection X as ->; left; reflexivity|]. intros [X|X]; [injection X as ->; reflexivity|]. exfalso. apply NI. apply (in_map fst) in X. exact X.
    + rewrite (IH ND'). cbn [In]. split; [auto|]. intros [X|X]; [injection X as X _; congruence|exact X].
    + rewrite (IH ND'). cbn [In]. split; [auto|]. intros [X|X]; [injection X as X _ _; congruence|exact X].
Qed.
Lemma right_parts r : good_right r -> exists s0 s1 s2 sf,
  match r with [] => Ok ((0, 0, 0), " "%ch) | c :: _ => do t <- parts_of c; do f <- compose (fst (fst t)) (snd (fst t)) " "%ch; Ok (t, f) end = Ok ((s0, s1, s2), sf) /\
  (r = [] /\ s0 = 0 /\ s1 = 0 /\ s2 = 0 /\ sf = " "%ch \/ exists t, r = syl s0 s1 s2 :: t /\ jamo s0 s1 s2 /\ sf = syl s0 s1 " "%ch).
Proof.
  intros [-> |(c & t & -> & S)].
  - exists 0, 0, 0, (" "%ch). split; [reflexivity|]. left. auto.
  - destruct (syllable_syl c S) as (o & v & g & J & EC). exists o, v, g, (syl o v " "%ch). rewrite EC. rewrite (parts_syl _ _ _ J). cbn [bind fst snd].
    rewrite (compose_syl o v " "%ch) by (destruct J as (A & B & _); split; [exact A|split; [exact B|lit]]). cbn [bind]. split; [reflexivity|]. right. exists t. split; [reflexivity|split; [exact J|reflexivity]].
Qed.
Lemma candidate_exact d l r : good_table d -> good_left l -> good_right r ->
  exists cs, lemma_candidate d l r = Ok cs /\ NoDup cs /\ forall s e, In (s, e) cs <-> lemma_of l r s e \/ listed d l r s e /\ conjugates_back l r s e.
Proof.
  intros (ND & GT) (p & c & -> & S & G) GR. destruct (syllable_syl c S) as (a & b & f & J & ->). destruct (right_parts r GR) as (s0 & s1 & s2 & sf & ER & HR).
  unfold lemma_candidate. rewrite at_last_app. cbn [bind]. rewrite (parts_syl _ _ _ J). cbn [bind]. rewrite (compose_syl a b " "%ch) by (destruct J as (A & B & _); split; [exact A|split; [exact B|lit]]). cbn [bind].
  rewrite ER. cbn [bind]. destruct (undo_exact p a b f r s0 s1 s2 sf J HR) as (cs & R & SC). rewrite R. cbn [bind].
  set (extra := match pred_find d (p ++ [syl a b f]) r with Some v => v | None => [] end).
  assert (EX : forall i, In i extra <-> exists items, In (KPair (p ++ [syl a b f]) r, items) d /\ In i items).
  { intros i. unfold extra. destruct (pred_find d (p ++ [syl a b f]) r) as [v|] eqn:PF.
    - pose proof (proj1 (pred_find_In d _ r v ND) PF) as I. split; [intros X; exists v; auto|]. intros (items & I' & X). apply (pred_find_In d _ r items ND) in I'. rewrite PF in I'. injection I' as ->. exact X.
    - split; [intros []|]. intros (items & I' & X). apply (pred_find_In d _ r items ND) in I'. rewrite PF in I'. discriminate I'. }
  destruct (conjugatable_exact ((p ++ [syl a b f]) ++ r) (map (fun se => Pair (fst se) (snd se)) cs ++ extra) []) as (out & C & NDO & SO).
  { intros i I. apply in_app_iff in I as [I|I].
    - apply in_map_iff in I as ((s & e) & <- & I). cbn [fst snd]. apply SC in I. exists s, e. split; [reflexivity|]. exact (proposal_good p a b f r s e J G GR I).
    - apply EX in I as (items & I & I'). exact (GT _ _ _ _ I I'). }
  exists out. split; [exact C|]. split; [apply NDO; constructor|]. intros s e. rewrite SO, in_app_iff.
  assert (IM : In (Pair s e) (map (fun se => Pair (fst se) (snd se)) cs) <-> proposal p a b f r s e).
  { rewrite <- SC, in_map_iff. split; [intros ((s' & e') & X & I); cbn [fst snd] in X; injection X as -> ->; exact I|]. intros I. exists (s, e). auto. }
  rewrite IM, EX. unfold lemma_of, listed, conjugates_back. split.
  - intros [[]|([P|X] & K)]; [left|right; split; [exact X|exact K]]. split; [|exact K]. exists p, a, b, f. split; [reflexivity|split; [exact J|exact P]].
  - intros [((p' & a' & b' & f' & EQ & J' & P) & K)|(X & K)]; right; (split; [|exact K]); [left|right; exact X].
    apply app_inj_tail in EQ as [<- EQ]. destruct (syl_inj _ _ _ _ _ _ J J' EQ) as (<- & <- & <-). exact P.
Qed.

(** ** other inputs *)
Lemma parts_other c : ~ syllable c -> ~ consonant c -> ~ vowel c -> parts_of c = Err TypeError.
Proof.
  intros A B C. unfold parts_of. rewrite decompose_other; [reflexivity|]. unfold character_is_korean, between. unfold syllable, consonant, vowel, kor_begin, kor_end, jaum_begin, jaum_end, moum_begin, moum_end in *.
  apply not_true_iff_false. rewrite !orb_true_iff, !andb_true_iff, !N.leb_le. tauto.
Qed.
Lemma parts_jamo c : consonant c \/ vowel c -> exists o v, parts_of c = Ok (o, v, SP) /\ compose o v " "%ch = Err ValueError.
Proof.
  intros [C|V].
  - exists c, SP. assert (P : parts_of c = Ok (c, SP, SP)). { unfold parts_of. rewrite decompose_jaum; [reflexivity|]. unfold character_is_jaum, between. destruct C. apply andb_true_iff. split; apply N.leb_le; assumption. }
    split; [exact P|]. apply (proj2 (proj1 (C03_compose_error_iff_pf c SP (" "%ch)))). intros (_ & X & _). exact (SP_vowel _ X eq_refl).
  - exists SP, c. assert (P : parts_of c = Ok (SP, c, SP)). { unfold parts_of. rewrite decompose_moum; [reflexivity|]. unfold character_is_moum, between. destruct V. apply andb_true_iff. split; apply N.leb_le; assumption. }
    split; [exact P|]. unfold compose. rewrite (index_of_notIn _ _ SP_not_cho). reflexivity.
Qed.
Lemma candidate_errors d : (forall r, lemma_candidate d [] r = Err IndexError) /\
  (forall p c r, ~ syllable c -> ~ consonant c -> ~ vowel c -> lemma_candidate d (p ++ [c]) r = Err TypeError) /\
  (forall p c r, consonant c \/ vowel c -> lemma_candidate d (p ++ [c]) r = Err ValueError) /\
  (forall p c e t, syllable c -> ~ syllable e -> ~ consonant e -> ~ vowel e -> lemma_candidate d (p ++ [c]) (e :: t) = Err TypeError) /\
  (forall p c e t, syllable c -> consonant e \/ vowel e -> lemma_candidate d (p ++ [c]) (e :: t) = Err ValueError).
Proof.
  assert (P0 : forall p c r, syllable c -> exists a b f, jamo a b f /\ c = syl a b f /\ lemma_candidate d (p ++ [c]) r =
    (do S <- match r with [] => Ok ((0, 0, 0), " "%ch) | c :: _ => do t <- parts_of c; do f <- compose (fst (fst t)) (snd (fst t)) " "%ch; Ok (t, f) end;
     let '((s0, s1, s2), sf) := S in
     do cands <- run_rules [(p ++ [c], r)] (undo_rules (mkLctx (p ++ [c]) r a b f s0 s1 s2 sf (syl a b " "%ch)));
     conjugatable ((p ++ [c]) ++ r) [] (map (fun se => Pair (fst se) (snd se)) cands ++ match pred_find d (p ++ [c]) r with Some v => v | None => [] end))).
  { intros p c r S. destruct (syllable_syl c S) as (a & b & f & J & ->). exists a, b, f. split; [exact J|]. split; [reflexivity|]. unfold lemma_candidate. rewrite at_last_app. cbn [bind]. rewrite (parts_syl _ _ _ J). cbn [bind].
    rewrite (compose_syl a b " "%ch) by (destruct J as (A & B & _); split; [exact A|split; [exact B|lit]]). cbn [bind]. reflexivity. }
  split; [reflexivity|]. split; [|split; [|split]].
  - intros p c r A B C. unfold lemma_candidate. rewrite at_last_app. cbn [bind]. rewrite (parts_other c A B C). reflexivity.
  - intros p c r K. destruct (parts_jamo c K) as (o & v & P & E). unfold lemma_candidate. rewrite at_last_app. cbn [bind]. rewrite P. cbn [bind]. rewrite E. reflexivity.
  - intros p c e t S A B C. destruct (P0 p c (e :: t) S) as (a & b & f & J & _ & E). rewrite E, (parts_other e A B C). reflexivity.
  - intros p c e t S K. destruct (P0 p c (e :: t) S) as (a & b & f & J & _ & E). rewrite E. destruct (parts_jamo e K) as (o & v & P & EE). rewrite P. cbn [bind fst snd]. rewrite EE. reflexivity.
Qed.
(** word keys are never looked up *)
Lemma word_keys d l r : (forall k v, In (k, v) d -> exists w, k = KWord w) -> lemma_candidate d l r = lemma_candidate [] l r.
Proof.
  intros H. assert (K : pred_find d l r = pred_find [] l r).
  { induction d as [|[k v] d IH]; [reflexivity|]. destruct (H k v (or_introl eq_refl)) as (w & ->). cbn [pred_find]. apply IH. intros k' v' I. apply (H k' v'). right. exact I. }
  unfold lemma_candidate. rewrite K. reflexivity.
Qed.

(** ** chat variant *)
Lemma chat_exact d p a b f r : good_table d -> jamo a b f -> (forall q c', p = q ++ [c'] -> syllable c') -> good_right r ->
  exists cs, lemma_candidate_chat d (p ++ [syl a b f]) r = Ok cs /\ forall s e, In (s, e) cs <->
    (lemma_of (p ++ [syl a b f]) r s e \/ listed d (p ++ [syl a b f]) r s e /\ conjugates_back (p ++ [syl a b f]) r s e) \/
    r = [] /\ In f (u "ㄷㅂㅅㅇㅋㅎ") /\ (lemma_of (p ++ [syl a b " "%ch]) [] s e \/ listed d (p ++ [syl a b " "%ch]) [] s e /\ conjugates_back (p ++ [syl a b " "%ch]) [] s e).
Proof.
  intros GT J G GR. destruct (candidate_exact d (p ++ [syl a b f]) r GT) as (cs & C & _ & S); [exists p, (syl a b f); split; [reflexivity|split; [apply syllable_jamo, J|exact G]]|exact GR|].
  assert (J' : jamo a b " "%ch) by (destruct J as (A & B & _); split; [exact A|split; [exact B|lit]]).
  destruct (candidate_exact d (p ++ [syl a b " "%ch]) [] GT) as (cs' & C' & _ & S'); [exists p, (syl a b " "%ch); split; [reflexivity|split; [apply syllable_jamo, J'|exact G]]|left; reflexivity|].
  unfold lemma_candidate_chat. rewrite C. cbn [bind]. rewrite at_last_app. cbn [bind]. rewrite (parts_syl _ _ _ J). cbn [bind].
  assert (EE : u "ㄷㅂㅅㅇㅋㅎ" = emoticon_jamo) by (vm_compute; reflexivity). rewrite EE.
  destruct r as [|c t].
  - destruct (mem f emoticon_jamo) eqn:M.
    + rewrite (compose_syl _ _ _ J'). cbn [bind]. rewrite removelast_last, C'. cbn [bind]. eexists. split; [reflexivity|]. intros s e. rewrite setupdate_In, S, S'. apply mem_In in M.
      split; [intros [X|X]; [left; exact X|right; split; [reflexivity|split; [exact M|exact X]]]|intros [X|(_ & _ & X)]; [left; exact X|right; exact X]].
    + exists cs. split; [reflexivity|]. intros s e. rewrite S. apply mem_In_false in M. split; [intros X; left; exact X|]. intros [X|(_ & X & _)]; [exact X|contradiction].
  - exists cs. split; [reflexivity|]. intros s e. rewrite S. split; [intros X; left; exact X|]. intros [X|(X & _)]; [exact X|discriminate X].
Qed.

(** ** Lemmatizer *)
Lemma good_split word i : Forall syllable word -> (1 <= i <= length word)%nat -> good_left (firstn i word) /\ good_right (skipn i word).
Proof.
  intros F I. rewrite <- (firstn_skipn i word) in F. apply Forall_app in F as [F1 F2]. split.
  - destruct (snoc_case (firstn i word)) as [E|(p & c & E)]; [apply (f_equal (@length _)) in E; rewrite firstn_length in E; cbn [length] in E; lia|].
    rewrite E in *. apply Forall_app in F1 as [FP FC]. exists p, c. split; [reflexivity|]. split; [inversion FC; assumption|]. intros q c' ->. apply Forall_app in FP as [_ FP]. inversion FP; assumption.
  - destruct (skipn i word) as [|c t]; [left; reflexivity|right]. exists c, t. split; [reflexivity|]. inversion F2; assumption.
Qed.
Lemma lemmatize_from_exact lem chk word is acc : good_table (lem_predefined lem) -> Forall syllable word -> (forall i, In i is -> (1 <= i <= length word)%nat) ->
  exists cs, lemmatize_from lem chk word acc is = Ok cs /\ forall s e, In (s, e) cs <-> In (s, e) acc \/
    exists i, In i is /\ (lemma_of (firstn i word) (skipn i word) s e \/ listed (lem_predefined lem) (firstn i word) (skipn i word) s e /\ conjugates_back (firstn i word) (skipn i word) s e) /\
      In s (lem_stems lem) /\ (chk = true \/ In e (lem_endings lem)).
Proof.
  intros GT F. revert acc. induction is as [|i is IH]; intros acc H.
  - exists acc. split; [reflexivity|]. intros s e. split; [auto|]. intros [X|(i & [] & _)]. exact X.
  - destruct (good_split word i F (H i (or_introl eq_refl))) as [GL GR]. destruct (candidate_exact (lem_predefined lem) _ _ GT GL GR) as (cs0 & C & _ & S0).
    cbn [lemmatize_from]. rewrite C. cbn [bind].
    set (keep := filter (fun se : str * str => mem (fst se) (lem_stems lem) && (chk || mem (snd se) (lem_endings lem))) cs0).
    destruct (IH (setupdate acc keep)) as (cs & E & S); [intros j I; apply H; right; exact I|]. exists cs. split; [exact E|]. intros s e. rewrite S, setupdate_In.
    assert (K : In (s, e) keep <-> (lemma_of (firstn i word) (skipn i word) s e \/ listed (lem_predefined lem) (firstn i word) (skipn i word) s e /\ conjugates_back (firstn i word) (skipn i word) s e) /\
      In s (lem_stems lem) /\ (chk = true \/ In e (lem_endings lem))).
    { unfold keep. rewrite filter_In, S0. cbn [fst snd]. rewrite andb_true_iff, orb_true_iff, !mem_In. tauto. }
    rewrite K. split.
    + intros [[X|X]|(j & I & X)]; [auto|right; exists i; split; [left; reflexivity|exact X]|right; exists j; split; [right; exact I|exact X]].
    + intros [X|(j & [<-|I] & X)]; [auto|auto|right; exists j; auto].
Qed.
Lemma lemmatize_exact lem chk word : good_table (lem_predefined lem) -> Forall syllable word ->
  exists cs, lemmatize lem word chk = Ok cs /\ forall s e, In (s, e) cs <->
    exists l r, word = l ++ r /\ l <> [] /\ (lemma_of l r s e \/ listed (lem_predefined lem) l r s e /\ conjugates_back l r s e) /\ In s (lem_stems lem) /\ (chk = true \/ In e (lem_endings lem)).
Proof.
  intros GT F. destruct (lemmatize_from_exact lem chk word (seq 1 (length word)) [] GT F) as (cs & E & S); [intros i I; apply in_seq in I; lia|].
  exists cs. split; [exact E|]. intros s e. rewrite S. split.
  - intros [[]|(i & I & X)]. apply in_seq in I. exists (firstn i word), (skipn i word). split; [symmetry; apply firstn_skipn|]. split; [|exact X]. intros Z. apply (f_equal (@length _)) in Z. rewrite firstn_length in Z. cbn [length] in Z. lia.
  - intros (l & r & -> & NL & X). right. exists (length l). rewrite firstn_app, firstn_all, Nat.sub_diag, skipn_app, skipn_all, Nat.sub_diag. cbn [firstn skipn app]. rewrite app_nil_r. split; [|exact X].
    apply in_seq. rewrite app_length. destruct l; [contradiction|]. cbn [length]. lia.
Qed.
