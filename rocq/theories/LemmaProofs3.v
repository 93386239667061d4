(** * Proofs about conjugation: strings, frame, vowel harmony, errors, chat endings *)
From Verif Require Import PyBase PyText HangleModel HangleSpec HangleProofs LemmaModel LemmaSpec LemmaProofs LemmaProofs2.
Open Scope N_scope.
Local Opaque syl.

Lemma head_unique E o v g o' v' g' : head_parts E o v g -> head_parts E o' v' g' -> o = o' /\ v = v' /\ g = g'.
Proof. intros H H'. pose proof (parts_head [] 0 0 0 E o v g [] H) as X. pose proof (parts_head [] 0 0 0 E o' v' g' [] H') as X'. rewrite X in X'. injection X' as -> -> ->. auto. Qed.
Lemma good_stem_parts stem : good_stem stem -> exists p a b f, stem = p ++ [syl a b f] /\ jamo a b f /\ (syl a b f = "르"%ch -> forall q c, p = q ++ [c] -> syllable c).
Proof. intros (p & c & -> & S & H). destruct (syllable_syl c S) as (a & b & f & J & ->). exists p, a, b, f. auto. Qed.
Lemma good_ending_parts ending : good_ending ending -> exists E o v g t, ending = E :: t /\ head_parts E o v g.
Proof.
  intros (E & t & -> & [S|H]).
  - destruct (syllable_syl E S) as (o & v & g & J & EQ). exists E, o, v, g, t. split; [reflexivity|]. left. auto.
  - exists E, E, (" "%ch), (" "%ch), t. split; [reflexivity|]. right. auto.
Qed.
Lemma surface_of_parts p a b f E o v g t s : jamo a b f -> head_parts E o v g -> (surface_of (p ++ [syl a b f]) (E :: t) s <-> surface_form p a b f E o v g t s).
Proof.
  intros J H. split; [|intros S; exists p, a, b, f, E, o, v, g, t; auto].
  intros (p' & a' & b' & f' & E' & o' & v' & g' & t' & EQ & J' & EE & H' & S). apply app_inj_tail in EQ as [<- EQ]. destruct (syl_inj _ _ _ _ _ _ J J' EQ) as (<- & <- & <-).
  injection EE as <- <-. destruct (head_unique _ _ _ _ _ _ _ H H') as (<- & <- & <-). exact S.
Qed.
Lemma conjugate_exact stem ending : good_stem stem -> good_ending ending ->
  exists cs, conjugate stem ending false = Ok cs /\ forall s, In s cs <-> surface_of stem ending s.
Proof.
  intros GS GE. destruct (good_stem_parts stem GS) as (p & a & b & f & -> & J & G). destruct (good_ending_parts ending GE) as (E & o & v & g & t & -> & H).
  destruct (conjugate_parts p a b f E o v g t J H G) as (cs & C & S). exists cs. split; [exact C|]. intros s. rewrite S. symmetry. apply surface_of_parts; assumption.
Qed.

(** at least one form: a consonant joins the stem; otherwise some rule or the regular form applies *)
Lemma surface_nonempty p a b f E o v g t : jamo a b f -> head_parts E o v g -> (syl a b f = "르"%ch -> forall q c, p = q ++ [c] -> syllable c) -> exists s, surface_form p a b f E o v g t s.
Proof.
  intros J H G. destruct (rules_exact p a b f E o v g t J H G) as (cs & _ & S). destruct cs as [|c cs].
  - assert (N : forall r s', ~ by_rule p a b f E o v g t r s') by (intros r s' B; apply (proj2 (S s')); eauto).
    destruct (N.eq_dec v (" "%ch)) as [V|V].
    + exfalso. apply (N Rfinal (p ++ syl a b o :: t)). split; [exact V|reflexivity].
    + destruct (N.eq_dec f (" "%ch)) as [F|F]; [destruct (N.eq_dec o ("ㅇ"%ch)) as [O|O]; [destruct (N.eq_dec v b) as [VB|VB]|]|].
      1: exists (p ++ syl a b g :: t); right; split; [exact N|split; [exact V|left; auto]].
      all: exists (p ++ syl a b f :: E :: t); right; split; [exact N|split; [exact V|right; split; [intros (X1 & X2 & X3); contradiction|reflexivity]]].
  - destruct (proj1 (S c) (or_introl eq_refl)) as (r & B). exists c. left. eauto.
Qed.

(** only the junction changes *)
Lemma by_rule_frame p a b f E o v g t r s : by_rule p a b f E o v g t r s -> (syl a b f <> "르"%ch -> exists m, s = p ++ m ++ t) /\ exists m, s = removelast p ++ m ++ t.
Proof.
  assert (K : forall s', (exists m, s' = p ++ m ++ t) -> (syl a b f <> "르"%ch -> exists m, s' = p ++ m ++ t) /\ exists m, s' = removelast p ++ m ++ t).
  { intros s' (m & ->). split; [intros _; eauto|]. destruct (snoc_case p) as [->|(q & c & ->)]; [exists m; reflexivity|]. rewrite removelast_last. exists (c :: m). rewrite <- app_assoc. reflexivity. }
  assert (M : forall ch0 s', s' = p ++ ch0 :: t -> exists m, s' = p ++ m ++ t) by (intros c s' ->; exists [c]; reflexivity).
  assert (M2 : forall c d s', s' = p ++ c :: d :: t -> exists m, s' = p ++ m ++ t) by (intros c d s' ->; exists [c; d]; reflexivity).
  intros B. destruct r; cbv beta iota zeta delta [by_rule] in B.
  4:{ destruct B as (q & y & z & w & -> & _ & L & _ & _ & _ & ->). split; [intros X; contradiction|]. rewrite removelast_last. exists [syl y z "ㄹ"%ch; syl "ㄹ"%ch v g]. reflexivity. }
  4:{ destruct B as (_ & _ & _ & w & _ & ->). apply K. eexists [_; _]. reflexivity. }
  16:{ destruct B as (_ & _ & _ & _ & _ & [(_ & ->)|(_ & ->)]); apply K; eexists [_; _]; reflexivity. }
  21:{ destruct B as (_ & _ & [(_ & _ & ->)|(_ & ->)]); apply K; eexists [_]; reflexivity. }
  all: apply K; repeat (match type of B with _ /\ _ => destruct B as [_ B] end); match type of B with ?s' = _ ++ ?c :: ?d :: _ => exact (M2 c d s' B) | ?s' = _ ++ ?c :: _ => exact (M c s' B) end.
Qed.
Lemma frame stem ending s : surface_of stem ending s -> exists m, s = firstn (length stem - 2) stem ++ m ++ tl ending.
Proof.
  intros (p & a & b & f & E & o & v & g & t & -> & J & -> & H & S). cbn [tl].
  assert (F : firstn (length (p ++ [syl a b f]) - 2) (p ++ [syl a b f]) = removelast p).
  { rewrite app_length. cbn [length]. destruct (snoc_case p) as [->|(q & c & ->)]; [reflexivity|]. rewrite removelast_last, <- app_assoc. cbn [app]. rewrite app_length. cbn [length].
    replace (length q + 1 + 1 - 2)%nat with (length q) by lia. rewrite firstn_app, Nat.sub_diag, firstn_all. cbn [firstn]. apply app_nil_r. }
  rewrite F. destruct S as [(r & B)|(_ & _ & [(_ & _ & _ & ->)|(_ & ->)])].
  - apply by_rule_frame in B. apply B.
  - destruct (snoc_case p) as [->|(q & c & ->)]; [exists [syl a b g]; reflexivity|]. rewrite removelast_last. exists [c; syl a b g]. rewrite <- app_assoc. reflexivity.
  - destruct (snoc_case p) as [->|(q & c & ->)]; [exists [syl a b f; E]; reflexivity|]. rewrite removelast_last. exists [c; syl a b f; E]. rewrite <- app_assoc. reflexivity.
Qed.
Lemma frame_last stem ending s : surface_of stem ending s -> (forall q, stem <> q ++ ["르"%ch]) -> exists m, s = removelast stem ++ m ++ tl ending.
Proof.
  intros (p & a & b & f & E & o & v & g & t & -> & J & -> & H & S) N. cbn [tl]. rewrite removelast_last.
  assert (NL : syl a b f <> "르"%ch) by (intros X; apply (N p); rewrite X; reflexivity).
  destruct S as [(r & B)|(_ & _ & [(_ & _ & _ & ->)|(_ & ->)])]; [|exists [syl a b g]; reflexivity|exists [syl a b f; E]; reflexivity].
  apply by_rule_frame in B as [B _]. exact (B NL).
Qed.

(** ** vowel harmony *)
Lemma mem_bright x : mem x positive_moum = true <-> bright x.
Proof. rewrite mem_In. unfold positive_moum, bright, bright_dark. cbn [In]. split; [intros [<-|[<-|[<-|[<-|[]]]]]; eexists; intuition reflexivity|intros (y & H); intuition]. Qed.
Lemma mem_dark x : mem x negative_moum = true <-> dark x.
Proof. rewrite mem_In. unfold negative_moum, dark, bright_dark. cbn [In]. split; [intros [<-|[<-|[<-|[<-|[]]]]]; eexists; intuition reflexivity|intros (y & H); intuition]. Qed.
Lemma mem_neuter x : mem x neuter_moum = true <-> x = "ㅡ"%ch \/ x = "ㅣ"%ch.
Proof. rewrite mem_In. unfold neuter_moum. cbn [In]. intuition. Qed.
Lemma to_bright v : dark v -> bright_dark (neg_to_pos v) v.
Proof. intros (x & [(_ & ->)|[(_ & ->)|[(_ & ->)|(_ & ->)]]]); unfold bright_dark; vm_compute; auto. Qed.
Lemma to_dark v : bright v -> bright_dark v (pos_to_neg v).
Proof. intros (x & [(-> & _)|[(-> & _)|[(-> & _)|(-> & _)]]]); unfold bright_dark; vm_compute; auto. Qed.
Lemma bright_vowel v w : bright_dark v w -> In v vowels /\ In w vowels.
Proof. intros [(-> & ->)|[(-> & ->)|[(-> & ->)|(-> & ->)]]]; split; lit. Qed.
Lemma bright_not_dark v : bright v -> ~ dark v.
Proof.
  intros B D. apply mem_bright in B. apply mem_dark in D. rewrite mem_In in B, D. unfold positive_moum, negative_moum in *. cbn [In] in *.
  destruct B as [<-|[<-|[<-|[<-|[]]]]]; destruct D as [D|[D|[D|[D|[]]]]]; discriminate D.
Qed.
Lemma neuter_not b : b = "ㅡ"%ch \/ b = "ㅣ"%ch -> mem b positive_moum = false /\ mem b negative_moum = false.
Proof. intros [-> | ->]; split; vm_compute; reflexivity. Qed.
Lemma mem_false_bright x : mem x positive_moum = false <-> ~ bright x. Proof. rewrite <- mem_bright. destruct (mem x positive_moum); split; congruence. Qed.
Lemma mem_false_dark x : mem x negative_moum = false <-> ~ dark x. Proof. rewrite <- mem_dark. destruct (mem x negative_moum); split; congruence. Qed.

Lemma harmonize_spec a b f o v g t : jamo o v g ->
  exists w, harmonic b f o v w /\ In w vowels /\ harmonize (a, b, f) (syl o v g :: t, (o, v, g)) = Ok (syl o w g :: t, (o, w, g)).
Proof.
  intros (JO & JV & JG). unfold harmonize. cbn [fst snd].
  assert (SV : forall v0 w, In w vowels -> set_vowel w (syl o v0 g :: t, (o, v0, g)) = Ok (syl o w g :: t, (o, w, g))).
  { intros v0 w I. unfold set_vowel. rewrite (compose_syl o w g) by (split; [exact JO|split; [exact I|exact JG]]). reflexivity. }
  destruct (negb (f =? "ㅂ"%ch) && mem b positive_moum && ((o =? "ㅇ"%ch) && mem v negative_moum)) eqn:C1.
  - rewrite !andb_true_iff, negb_true_iff, N.eqb_neq, N.eqb_eq, mem_bright, mem_dark in C1. destruct C1 as [[F B] [O D]].
    pose proof (to_bright v D) as BD. destruct (bright_vowel _ _ BD) as [IW _]. exists (neg_to_pos v). split; [left; auto|]. split; [exact IW|].
    rewrite (SV v _ IW). cbn [bind]. rewrite (proj2 (mem_false_dark b) (bright_not_dark b B)). rewrite andb_false_r. cbn [andb bind].
    destruct (mem b neuter_moum) eqn:NB; [|reflexivity]. apply mem_neuter in NB. destruct (neuter_not b NB) as [X _]. apply mem_bright in B. congruence.
  - cbn [bind fst snd]. destruct (negb (f =? "ㅂ"%ch) && mem b negative_moum && ((o =? "ㅇ"%ch) && mem v positive_moum)) eqn:C2.
    + rewrite !andb_true_iff, negb_true_iff, N.eqb_neq, N.eqb_eq, mem_bright, mem_dark in C2. destruct C2 as [[F B] [O D]].
      pose proof (to_dark v D) as BD. destruct (bright_vowel _ _ BD) as [_ IW]. exists (pos_to_neg v). split; [right; left; auto|]. split; [exact IW|].
      cbn [fst snd]. rewrite (SV v _ IW). cbn [bind fst snd]. destruct (mem b neuter_moum) eqn:NB; [|reflexivity]. apply mem_neuter in NB. destruct (neuter_not b NB) as [_ X]. apply mem_dark in B. congruence.
    + cbn [bind fst snd]. destruct (mem b neuter_moum && mem v positive_moum) eqn:C3.
      * rewrite andb_true_iff, mem_neuter, mem_bright in C3. destruct C3 as [B D]. pose proof (to_dark v D) as BD. destruct (bright_vowel _ _ BD) as [_ IW].
        exists (pos_to_neg v). split; [right; right; left; auto|]. split; [exact IW|]. apply SV, IW.
      * exists v. split; [|split; [exact JV|reflexivity]]. right; right; right. split; [reflexivity|].
        rewrite <- !mem_bright, <- !mem_dark, <- !mem_neuter. apply not_true_iff_false in C1, C2, C3. rewrite !andb_true_iff, negb_true_iff, N.eqb_neq, N.eqb_eq in C1, C2. rewrite andb_true_iff in C3. tauto.
Qed.
Lemma harmonic_unique b f o v w w' : harmonic b f o v w -> harmonic b f o v w' -> w = w'.
Proof.
  assert (U1 : forall x y z, bright_dark x y -> bright_dark x z -> y = z).
  { unfold bright_dark. intros x y z [(-> & ->)|[(-> & ->)|[(-> & ->)|(-> & ->)]]] [(X & ->)|[(X & ->)|[(X & ->)|(X & ->)]]]; try reflexivity; discriminate X. }
  assert (U2 : forall x y z, bright_dark x z -> bright_dark y z -> x = y).
  { unfold bright_dark. intros x y z [(-> & ->)|[(-> & ->)|[(-> & ->)|(-> & ->)]]] [(-> & X)|[(-> & X)|[(-> & X)|(-> & X)]]]; try reflexivity; discriminate X. }
  assert (N1 : forall x, (x = "ㅡ"%ch \/ x = "ㅣ"%ch) -> ~ bright x /\ ~ dark x).
  { intros x H. destruct (neuter_not x H) as [X Y]. split; [apply mem_false_bright, X|apply mem_false_dark, Y]. }
  intros [(F & B & O & D)|[(F & B & O & D)|[(B & D)|(-> & A1 & A2 & A3)]]] [(F' & B' & O' & D')|[(F' & B' & O' & D')|[(B' & D')|(EW & A1' & A2' & A3')]]].
  all: try (eapply U1; eassumption); try (eapply U2; eassumption); try reflexivity.
  all: try (exfalso; apply (bright_not_dark b); assumption); try (exfalso; destruct (N1 b ltac:(assumption)) as [X Y]; contradiction).
  all: try (symmetry; assumption).
  all: try (exfalso; first [apply A1'; repeat split; try assumption; eexists; eassumption|apply A2'; repeat split; try assumption; eexists; eassumption|apply A3'; split; try assumption; eexists; eassumption
       |apply A1; repeat split; try assumption; eexists; eassumption|apply A2; repeat split; try assumption; eexists; eassumption|apply A3; split; try assumption; eexists; eassumption]).
Qed.
Lemma conjugate_harmony p a b f o v g t : jamo a b f -> jamo o v g ->
  exists w, harmonic b f o v w /\ In w vowels /\ conjugate (p ++ [syl a b f]) (syl o v g :: t) true = conjugate (p ++ [syl a b f]) (syl o w g :: t) false.
Proof.
  intros J J'. destruct (harmonize_spec a b f o v g t J') as (w & H & IW & HZ). exists w. split; [exact H|]. split; [exact IW|].
  assert (JW : jamo o w g) by (destruct J' as (A & _ & C); split; [exact A|split; [exact IW|exact C]]).
  unfold conjugate. rewrite at_last_app. cbn [bind]. rewrite (parts_syl _ _ _ J). cbn [bind]. rewrite (parts_syl _ _ _ J'), (parts_syl _ _ _ JW). cbn [bind]. rewrite HZ. reflexivity.
Qed.
Lemma conjugate_lone_harmony p a b f c t : jamo a b f -> consonant c -> conjugate (p ++ [syl a b f]) (c :: t) true = conjugate (p ++ [syl a b f]) (c :: t) false.
Proof.
  intros J C. unfold conjugate. rewrite at_last_app. cbn [bind]. rewrite (parts_syl _ _ _ J). cbn [bind].
  assert (P : parts_of c = Ok (c, SP, SP)). { unfold parts_of. rewrite decompose_jaum; [reflexivity|]. unfold character_is_jaum, between. destruct C. apply andb_true_iff. split; apply N.leb_le; assumption. }
  assert (HZ : harmonize (a, b, f) (c :: t, (c, SP, SP)) = Ok (c :: t, (c, SP, SP))).
  { assert (M1 : mem SP negative_moum = false) by (vm_compute; reflexivity). assert (M2 : mem SP positive_moum = false) by (vm_compute; reflexivity).
    unfold harmonize. rewrite M1, !andb_false_r. cbn [bind]. rewrite M2, !andb_false_r. cbn [bind]. rewrite M2, !andb_false_r. reflexivity. }
  rewrite P. cbn [bind]. rewrite HZ. reflexivity.
Qed.

(** ** other inputs *)
Lemma conjugate_errors : (forall stem h, conjugate stem [] h = Err AssertionError) /\ (forall e t h, conjugate [] (e :: t) h = Err IndexError) /\
  (forall p c e t h, ~ syllable c -> ~ consonant c -> ~ vowel c -> conjugate (p ++ [c]) (e :: t) h = Err TypeError) /\
  (forall p c e t h, syllable c -> ~ syllable e -> ~ consonant e -> ~ vowel e -> conjugate (p ++ [c]) (e :: t) h = Err TypeError) /\
  (forall p c e t, syllable c -> vowel e -> conjugate (p ++ [c]) (e :: t) false = Err ValueError).
Proof.
  assert (NK : forall c, ~ syllable c -> ~ consonant c -> ~ vowel c -> parts_of c = Err TypeError).
  { intros c A B C. unfold parts_of. rewrite decompose_other; [reflexivity|]. unfold character_is_korean, between. unfold syllable, consonant, vowel, kor_begin, kor_end, jaum_begin, jaum_end, moum_begin, moum_end in *.
    apply not_true_iff_false. rewrite !orb_true_iff, !andb_true_iff, !N.leb_le. tauto. }
  split; [reflexivity|]. split; [reflexivity|]. split; [|split].
  - intros p c e t h A B C. unfold conjugate. rewrite at_last_app. cbn [bind]. rewrite (NK c A B C). reflexivity.
  - intros p c e t h S A B C. destruct (syllable_syl c S) as (x & y & z & J & ->). unfold conjugate. rewrite at_last_app. cbn [bind]. rewrite (parts_syl _ _ _ J). cbn [bind]. rewrite (NK e A B C). reflexivity.
  - intros p c e t S V. destruct (syllable_syl c S) as (x & y & z & J & ->). unfold conjugate. rewrite at_last_app. cbn [bind]. rewrite (parts_syl _ _ _ J). cbn [bind].
    assert (P : parts_of e = Ok (SP, e, SP)). { unfold parts_of. rewrite decompose_moum; [reflexivity|]. unfold character_is_moum, between. destruct V. apply andb_true_iff. split; apply N.leb_le; assumption. }
    rewrite P. cbn [bind]. replace (e =? " "%ch) with false by (symmetry; apply N.eqb_neq; unfold vowel in V; lia). cbn [negb].
    assert (C : compose SP e (" "%ch) = Err ValueError) by (unfold compose; rewrite (index_of_notIn _ _ SP_not_cho); reflexivity). rewrite C. reflexivity.
Qed.

(** an ending that begins with a consonant other than ㄴ, ㄹ, ㅁ, ㅂ, ㅆ has no form; ㅇ has one after some stems *)
Lemma conjugate_lone p a b f c t : jamo a b f -> consonant c -> c <> "ㄴ"%ch -> c <> "ㄹ"%ch -> c <> "ㅁ"%ch -> c <> "ㅂ"%ch -> c <> "ㅆ"%ch ->
  (c = "ㅇ"%ch -> f <> "ㄷ"%ch /\ f <> "ㅂ"%ch /\ f <> "ㅅ"%ch /\ ~ (b = "ㅡ"%ch /\ f = " "%ch)) ->
  conjugate (p ++ [syl a b f]) (c :: t) false = Ok [].
Proof.
  intros J C N1 N2 N3 N4 N5 N6. unfold conjugate. rewrite at_last_app. cbn [bind]. rewrite (parts_syl _ _ _ J). cbn [bind].
  assert (P : parts_of c = Ok (c, SP, SP)). { unfold parts_of. rewrite decompose_jaum; [reflexivity|]. unfold character_is_jaum, between. destruct C. apply andb_true_iff. split; apply N.leb_le; assumption. }
  rewrite P. cbn [bind fst snd]. change (SP =? " "%ch) with true. cbn [negb hd bind].
  assert (NE : forall d, ~ consonant d -> (c =? d) = false) by (intros d ND; apply N.eqb_neq; intros ->; contradiction).
  assert (NC : forall d, (d <? 12593) || (12622 <? d) = true -> ~ consonant d) by (intros d X [Y Z]; apply orb_true_iff in X as [X|X]; apply N.ltb_lt in X; lia).
  set (x := mkCctx (p ++ [syl a b f]) (c :: t) a b f c SP SP c).
  assert (Z : forall X, (X =? c) = false -> (c =? X) = false) by (intros X H; rewrite N.eqb_sym; exact H).
  assert (F : Forall (fun r => r = Ok []) (conj_rules x)).
  { unfold conj_rules. repeat (apply Forall_cons); try apply Forall_nil.
    all: cbv beta iota zeta delta [rule_da rule_d rule_reu rule_b rule_final rule_s rule_u rule_o rule_eu rule_ara rule_reo rule_yeo rule_h_drop rule_h_contract rule_h_n rule_i x c_stem c_ending l0 l1 l2 r0 r1 r2 rf hd tl].
    all: rewrite ?(proj2 (N.eqb_neq c ("ㄴ"%ch)) N1), ?(proj2 (N.eqb_neq c ("ㄹ"%ch)) N2), ?(proj2 (N.eqb_neq c ("ㅁ"%ch)) N3), ?(proj2 (N.eqb_neq c ("ㅂ"%ch)) N4), ?(proj2 (N.eqb_neq c ("ㅆ"%ch)) N5).
    all: rewrite ?(NE ("다"%ch)), ?(NE ("아"%ch)), ?(NE ("어"%ch)) by (apply NC; reflexivity).
    all: change (SP =? " "%ch) with true; change (SP =? "ㅏ"%ch) with false; change (SP =? "ㅓ"%ch) with false; cbn [negb orb andb]; rewrite ?andb_false_r; cbn [andb orb]; try reflexivity.
    all: destruct (N.eqb_spec c ("ㅇ"%ch)) as [CI|CI]; [destruct (N6 CI) as (F1 & F2 & F3 & F4); clear N6; rewrite ?(proj2 (N.eqb_neq f _) F1), ?(proj2 (N.eqb_neq f _) F2), ?(proj2 (N.eqb_neq f _) F3)|clear N6]; rewrite ?andb_false_r; cbn [andb orb]; try reflexivity.
    - destruct (f =? "ㅂ"%ch); [|reflexivity]. rewrite (compose_syl a b (" "%ch)) by (destruct J as (A & B & _); split; [exact A|split; [exact B|lit]]). reflexivity.
    - rewrite andb_true_r. destruct (N.eqb_spec b ("ㅡ"%ch)) as [B0|B0]; cbn [andb]; [|reflexivity]. destruct (N.eqb_spec f (" "%ch)) as [F0|F0]; [|reflexivity]. exfalso. exact (F4 (conj B0 F0)).
    - assert (X : eqb (firstn 2 (c :: t)) (u "어라") = false /\ eqb (firstn 2 (c :: t)) (u "아라") = false).
      { assert (U1 : u "어라" = ["어"%ch; "라"%ch]) by (vm_compute; reflexivity). assert (U2 : u "아라" = ["아"%ch; "라"%ch]) by (vm_compute; reflexivity). rewrite U1, U2. split; apply eqb_neq; intros X; cbn [firstn] in X; injection X as X _; apply (f_equal (fun z => c =? z)) in X; rewrite N.eqb_refl, NE in X by (apply NC; reflexivity); discriminate X. }
      destruct X as [-> ->]. reflexivity.
    - assert (X : eqb (firstn 2 (c :: t)) (u "어라") = false /\ eqb (firstn 2 (c :: t)) (u "아라") = false).
      { assert (U1 : u "어라" = ["어"%ch; "라"%ch]) by (vm_compute; reflexivity). assert (U2 : u "아라" = ["아"%ch; "라"%ch]) by (vm_compute; reflexivity). rewrite U1, U2. split; apply eqb_neq; intros X; cbn [firstn] in X; injection X as X _; apply (f_equal (fun z => c =? z)) in X; rewrite N.eqb_refl, NE in X by (apply NC; reflexivity); discriminate X. }
      destruct X as [-> ->]. reflexivity. }
  assert (R : run_rules [] (conj_rules x) = Ok []).
  { clear - F. induction (conj_rules x) as [|r rs IH]; [reflexivity|]. inversion F as [|? ? H F']; subst. cbn [run_rules bind setupdate fold_left]. apply IH, F'. }
  rewrite R. cbn [bind run_rules]. reflexivity.
Qed.
