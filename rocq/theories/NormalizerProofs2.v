(** * Proofs about the normalisers, part 2: emoticons, cutting after the last Hangul, tokenizer.normalize *)
From Verif Require Import PyBase PyText PyRe PyReProofs HangleModel HangleSpec HangleProofs NormalizerModel NormalizerSpec NormalizerProofs.
Open Scope N_scope.

Lemma syl_iff c a b d : syl c a b d <-> syllable c /\ decompose c = Some (a, b, d).
Proof.
  split.
  - intros S. inversion S as [i j k a' b' d' A B D]; subst.
    assert (E : compose a b d = Ok (44032 + 588 * N.of_nat i + 28 * N.of_nat j + N.of_nat k)).
    { apply compose_ok; apply index_of_nth; rewrite ?Nnat.Nat2N.id; auto using cho_nodup, jung_nodup, jong_nodup. }
    destruct (decompose_compose a b d) as (c & C1 & C2 & C3).
    { eapply nth_error_In; exact A. } { eapply nth_error_In; exact B. } { eapply nth_error_In; exact D. }
    rewrite E in C1. injection C1 as <-. split; [apply syllable_iff; exact C2|exact C3].
  - intros [S E]. apply syllable_iff in S. destruct (decompose_syllable c S) as (a' & b' & d' & i & j & k & E' & A & B & D & X).
    rewrite E in E'. injection E' as <- <- <-.
    pose proof (index_of_spec chosung_list a) as A'. rewrite A in A'.
    pose proof (index_of_spec jungsung_list b) as B'. rewrite B in B'.
    pose proof (index_of_spec jongsung_list d) as D'. rewrite D in D'. rewrite X.
    replace (kor_begin + chosung_base * i + jungsung_base * j + k) with
      (44032 + 588 * N.of_nat (N.to_nat i) + 28 * N.of_nat (N.to_nat j) + N.of_nat (N.to_nat k)) by (rewrite !Nnat.N2Nat.id; reflexivity).
    constructor; assumption.
Qed.
Lemma syl_ex c : syllable c -> exists a b d, decompose c = Some (a, b, d) /\ syl c a b d /\ In a chosung_list /\ In b jungsung_list /\ In d jongsung_list.
Proof.
  intros S. assert (S' := S). apply syllable_iff in S. destruct (compose_decompose c S) as (a & b & d & E & _ & A & B & D).
  exists a, b, d. split; [exact E|]. split; [apply syl_iff; auto|auto].
Qed.
Lemma syl_drop_final c a b d : syl c a b d -> exists c', compose a b SP = Ok c' /\ syl c' a b 32.
Proof.
  intros S. apply syl_iff in S as [S E]. destruct (syl_ex c S) as (a' & b' & d' & E' & _ & A & B & D).
  rewrite E in E'. injection E' as <- <- <-.
  destruct (decompose_compose a b SP) as (c' & C1 & C2 & C3); auto. { left; reflexivity. }
  exists c'. split; [exact C1|]. apply syl_iff. split; [apply syllable_iff; exact C2|exact C3].
Qed.

Lemma pat0 c : (pattern c =? 0)%Z = true <-> consonant c.
Proof. unfold pattern, consonant, between. destruct ((12593 <=? c) && (c <=? 12622)) eqn:E1;
  [|destruct ((12623 <=? c) && (c <=? 12643)) eqn:E2; [|destruct ((44032 <=? c) && (c <=? 55203)) eqn:E3]];
  rewrite ?Z.eqb_eq; rewrite ?andb_true_iff, ?andb_false_iff, ?N.leb_le, ?N.leb_gt in *; lia. Qed.
Lemma pat1 c : (pattern c =? 1)%Z = true <-> vowel c.
Proof. unfold pattern, vowel, between. destruct ((12593 <=? c) && (c <=? 12622)) eqn:E1;
  [|destruct ((12623 <=? c) && (c <=? 12643)) eqn:E2; [|destruct ((44032 <=? c) && (c <=? 55203)) eqn:E3]];
  rewrite ?Z.eqb_eq; rewrite ?andb_true_iff, ?andb_false_iff, ?N.leb_le, ?N.leb_gt in *; lia. Qed.
Lemma pat2 c : (pattern c =? 2)%Z = true <-> syllable c.
Proof. unfold pattern, syllable, between. destruct ((12593 <=? c) && (c <=? 12622)) eqn:E1;
  [|destruct ((12623 <=? c) && (c <=? 12643)) eqn:E2; [|destruct ((44032 <=? c) && (c <=? 55203)) eqn:E3]];
  rewrite ?Z.eqb_eq; rewrite ?andb_true_iff, ?andb_false_iff, ?N.leb_le, ?N.leb_gt in *; lia. Qed.
Lemma opat (z : Z) (P : N -> Prop) o : (forall c, (pattern c =? z)%Z = true <-> P c) ->
  (match o with Some d => (pattern d =? z)%Z | None => false end) = true <-> is_some P o.
Proof.
  intros H. unfold is_some. destruct o as [d|].
  - rewrite H. split; [eauto|]. intros (x & [= ->] & X). exact X.
  - split; [discriminate|]. intros (x & X & _). discriminate.
Qed.

Lemma emoticon_char_spec p c n : exists a, emoticon_char p c n = Ok a /\ Emoticon p c n a.
Proof.
  unfold emoticon_char.
  pose proof (opat 0 consonant p pat0) as P0. pose proof (opat 0 consonant n pat0) as N0. pose proof (opat 1 vowel n pat1) as N1.
  cbv zeta beta.
  set (p0 := match p with Some d => (pattern d =? 0)%Z | None => false end) in *.
  set (n0 := match n with Some d => (pattern d =? 0)%Z | None => false end) in *.
  set (n1 := match n with Some d => (pattern d =? 1)%Z | None => false end) in *.
  clearbody p0 n0 n1.
  destruct ((pattern c =? 2)%Z) eqn:Pc.
  2:{ rewrite ?andb_false_r. cbn [andb]. exists [c]. split; [reflexivity|]. apply E_other. rewrite <- pat2. congruence. }
  apply pat2 in Pc. rewrite ?andb_true_r. cbn [andb].
  destruct (syl_ex c Pc) as (a & b & d & E & S & _). rewrite E.
  destruct (p0 && n1) eqn:X1.
  - apply andb_true_iff in X1 as [X1 X2]. apply P0 in X1 as (pp & -> & Cp). apply N1 in X2 as (nn & -> & Vn).
    cbn [is_char]. destruct ((a =? pp) && (b =? nn) && (d =? SP)) eqn:Y.
    + rewrite !andb_true_iff, !N.eqb_eq in Y. destruct Y as [[-> ->] ->]. exists [pp; nn]. split; [reflexivity|]. eapply E_between; eauto.
    + exists [c]. split; [reflexivity|]. eapply E_between_keep; eauto. intros (-> & -> & ->). rewrite !N.eqb_refl in Y. discriminate.
  - destruct n0 eqn:X2.
    + destruct (proj1 N0 eq_refl) as (nn & -> & Cn). cbn [is_char]. destruct (d =? nn) eqn:Y.
      * apply N.eqb_eq in Y. subst nn. destruct (syl_drop_final _ _ _ _ S) as (c' & C' & S'). rewrite C'. cbn [bind].
        exists [c'; d]. split; [reflexivity|]. eapply E_final; eauto.
      * exists []. split; [reflexivity|]. eapply E_final_lost; eauto. apply N.eqb_neq. exact Y.
    + destruct p0 eqn:X3.
      * destruct (proj1 P0 eq_refl) as (pp & -> & Cp). assert (NV : ~ is_some vowel n) by (rewrite <- N1; destruct n1; [discriminate|congruence]).
        assert (NC : ~ is_some consonant n) by (rewrite <- N0; congruence).
        cbn [is_char]. destruct (a =? pp) eqn:Y.
        -- apply N.eqb_eq in Y. exists [a; b]. split; [reflexivity|]. eapply E_initial; eauto.
        -- exists []. split; [reflexivity|]. eapply E_initial_lost; eauto. apply N.eqb_neq. exact Y.
      * exists [c]. split; [reflexivity|]. apply E_alone; auto; [rewrite <- P0|rewrite <- N0]; congruence.
Qed.

Lemma emoticon_loop_spec p s : exists t, emoticon_loop p s = Ok t /\ Neighbours Emoticon p s t.
Proof.
  revert p. induction s as [|c s IH]; intros p; [exists []; split; [reflexivity|constructor]|].
  destruct (emoticon_char_spec p c (hd_error s)) as (a & A & Ea). destruct (IH (Some c)) as (b & B & Eb).
  exists (a ++ b). cbn [emoticon_loop]. rewrite A. cbn [bind]. rewrite B. split; [reflexivity|]. constructor; assumption.
Qed.

Lemma emoticon_normalize_spec word s n : exists t, Neighbours Emoticon None s t /\
  emoticon_normalize word s n = Ok (repeat_normalize word t n).
Proof.
  destruct (emoticon_loop_spec None s) as (t & E & Nb). exists t. split; [exact Nb|].
  unfold emoticon_normalize. destruct s as [|c s].
  - inversion Nb; subst. unfold repeat_normalize, repeat_sub. destruct (0 <? n)%Z; reflexivity.
  - rewrite E. reflexivity.
Qed.

Lemma emoticon_det p c n a1 a2 : Emoticon p c n a1 -> Emoticon p c n a2 -> a1 = a2.
Proof.
  intros H1 H2.
  assert (D : forall c a b d a' b' d', syl c a b d -> syl c a' b' d' -> a = a' /\ b = b' /\ d = d').
  { intros * S1 S2. apply syl_iff in S1 as [_ S1]. apply syl_iff in S2 as [_ S2]. rewrite S1 in S2. injection S2. auto. }
  assert (D2 : forall c c' a b d, syl c a b d -> syl c' a b d -> c = c').
  { intros * S1 S2. apply syl_iff in S1 as [_ S1]. apply syl_iff in S2 as [_ S2]. eapply decompose_inj; eauto. }
  assert (SY : forall c a b d, syl c a b d -> syllable c) by (intros * S; apply syl_iff in S; tauto).
  assert (CV : forall c, consonant c -> vowel c -> False) by (unfold consonant, vowel; intros; lia).
  assert (IS : forall (P : N -> Prop) x, P x -> is_some P (Some x)) by (intros P x H; exists x; auto).
  inversion H1; inversion H2; subst;
  repeat match goal with
    | H : Some _ = Some _ |- _ => injection H as ?; subst
    | H : None = Some _ |- _ => discriminate
    | H1 : syl ?c _ _ _, H2 : ~ syllable ?c |- _ => exfalso; apply H2; eapply SY; exact H1
    | H1 : syl ?c ?a ?b ?d, H2 : syl ?c ?a' ?b' ?d' |- _ =>
       first [ constr_eq a a'; constr_eq b b'; constr_eq d d'; fail 1 |
       destruct (D _ _ _ _ _ _ _ H1 H2) as (? & ? & ?); subst; clear H2 ]
    | H : ~ is_some consonant (Some ?x), H2 : consonant ?x |- _ => exfalso; apply H, IS, H2
    | H : ~ is_some vowel (Some ?x), H2 : vowel ?x |- _ => exfalso; apply H, IS, H2
    | H : consonant ?x, H2 : vowel ?x |- _ => exfalso; exact (CV x H H2)
  end; try reflexivity; try congruence; try tauto.
  all: try (match goal with |- [?x; _] = [?y; _] => assert (x = y) by (eapply D2; eassumption); congruence end).
Qed.

(** text without lone consonants is copied *)
Lemma emoticon_id p s t : Forall (fun c => ~ consonant c) s -> ~ is_some consonant p -> Neighbours Emoticon p s t -> t = s.
Proof.
  intros F NP H. revert F NP. induction H as [|p c s a b R H IH]; intros F NP; [reflexivity|].
  inversion F as [|? ? Fc F']; subst. rewrite IH; [|exact F'|intros (x & [= ->] & X); exact (Fc X)].
  assert (NN : ~ is_some consonant (hd_error s)).
  { intros (x & E & X). destruct s as [|y s]; [discriminate|]. injection E as ->. inversion F'; contradiction. }
  assert (E : Emoticon p c (hd_error s) [c]).
  { destruct (character_is_complete_korean c) eqn:K.
    - apply E_alone; [apply syllable_iff; exact K|exact NP|exact NN].
    - apply E_other. rewrite syllable_iff. congruence. }
  rewrite (emoticon_det _ _ _ _ _ R E). reflexivity.
Qed.

(** ** remain_hangle_on_last *)
Lemma upto_last_none s : Forall (fun c => ~ hangul c) s -> upto_last_hangle s = [].
Proof.
  induction 1 as [|c s Hc F IH]; [reflexivity|]. simpl. rewrite IH.
  destruct (hangle_c c) eqn:E; [|reflexivity]. apply hangle_c_iff in E. contradiction.
Qed.
Lemma upto_last_some p h q : hangul h -> Forall (fun c => ~ hangul c) q -> upto_last_hangle (p ++ h :: q) = p ++ [h].
Proof.
  intros Hh F. induction p as [|c p IH]; simpl.
  - rewrite upto_last_none by exact F. apply hangle_c_iff in Hh. rewrite Hh. reflexivity.
  - rewrite IH. destruct p; reflexivity.
Qed.
Lemma last_hangul_cases s : Forall (fun c => ~ hangul c) s \/ exists p h q, s = p ++ h :: q /\ hangul h /\ Forall (fun c => ~ hangul c) q.
Proof.
  induction s as [|c s [F|(p & h & q & -> & Hh & F)]]; [left; constructor| |right; exists (c :: p), h, q; auto].
  destruct (hangle_c c) eqn:E.
  - right. exists [], c, s. repeat split; auto. apply hangle_c_iff, E.
  - left. constructor; [rewrite <- hangle_c_iff; congruence|exact F].
Qed.
Lemma hangul_nonspace c : hangul c -> is_space c = false.
Proof. intros H. apply text_nonspace. left. exact H. Qed.
Lemma strip_nonspace_end p h : is_space h = false -> strip (p ++ [h]) = lstrip (p ++ [h]).
Proof.
  intros S. unfold strip. unfold lstrip. assert (E : exists p', dropwhile is_space (p ++ [h]) = p' ++ [h]).
  { induction p as [|c p (p' & IH)]; simpl; [rewrite S; exists []; reflexivity|]. destruct (is_space c); [eauto|exists (c :: p); reflexivity]. }
  destruct E as (p' & ->). apply rstrip_app_nonspace. exact S.
Qed.
Lemma remain_spec e : 
  (Forall (fun c => ~ hangul c) e -> remain_hangle_on_last e = []) /\
  (forall p h q, e = p ++ h :: q -> hangul h -> Forall (fun c => ~ hangul c) q -> remain_hangle_on_last e = lstrip (p ++ [h])).
Proof.
  split.
  - intros F. unfold remain_hangle_on_last. rewrite upto_last_none by exact F. reflexivity.
  - intros p h q -> Hh F. unfold remain_hangle_on_last. rewrite upto_last_some by assumption. apply strip_nonspace_end, hangul_nonspace, Hh.
Qed.

(** ** normalize_sent_for_lrgraph *)
Definition lr_keep (c : N) : bool := text_c c && negb (symbol_c c).
Lemma lr_keep_iff c : lr_keep c = true <-> hangul c \/ letter c \/ digit c \/ In c (u ",.?!""'").
Proof.
  unfold lr_keep. rewrite andb_true_iff, negb_true_iff, <- not_true_iff_false, text_c_iff. unfold symbol_c. rewrite mem_In.
  unfold text_char, hangul, letter, digit, syllable, consonant, vowel. inlit. cbn [In]. lia.
Qed.
Lemma lr_keep_nonspace c : lr_keep c = true -> is_space c = false.
Proof. unfold lr_keep. rewrite andb_true_iff. intros [H _]. apply text_nonspace, text_c_iff, H. Qed.
Lemma lr_blank s : blank symbol_c (blank_unless text_c s) = blank_unless lr_keep s.
Proof.
  unfold blank, blank_unless, lr_keep. rewrite map_map. apply map_ext. intros c.
  destruct (text_c c), (symbol_c c) eqn:S; cbn [andb negb]; try rewrite S; reflexivity.
Qed.

(** [v] is the longest prefix of [w] ending with Hangul *)
Lemma remain_word w : Forall (fun c => is_space c = false) w ->
  (exists r, w = remain_hangle_on_last w ++ r /\ Forall (fun c => ~ hangul c) r) /\
  (remain_hangle_on_last w = [] \/ exists p h, remain_hangle_on_last w = p ++ [h] /\ hangul h).
Proof.
  intros F. destruct (remain_spec w) as [R1 R2]. destruct (last_hangul_cases w) as [N|(p & h & q & E & Hh & N)].
  - rewrite (R1 N). split; [exists w; auto|auto].
  - rewrite (R2 p h q E Hh N). assert (L : lstrip (p ++ [h]) = p ++ [h]).
    { assert (F' : Forall (fun c => is_space c = false) (p ++ [h])).
      { rewrite E in F. apply Forall_app in F as [F1 F2]. apply Forall_app. split; [exact F1|]. inversion F2; auto. }
      unfold lstrip. destruct (p ++ [h]) as [|x l]; [reflexivity|]. inversion F' as [|? ? X _]. simpl. rewrite X. reflexivity. }
    rewrite L. split; [exists q; split; [rewrite E, <- app_assoc; reflexivity|exact N]|right; eauto].
Qed.

Definition nonempty (e : str) : bool := match e with [] => false | _ => true end.
Lemma lrgraph_runs s : normalize_sent_for_lrgraph s =
  join [SP] (filter nonempty (map remain_hangle_on_last (runs lr_keep s))).
Proof.
  unfold normalize_sent_for_lrgraph. rewrite lr_blank, split_blank_unless by apply lr_keep_nonspace. reflexivity.
Qed.
Lemma lr_runs_words s : Forall (fun w => w <> [] /\ Forall (fun c => lr_keep c = true) w) (filter nonempty (map remain_hangle_on_last (runs lr_keep s))).
Proof.
  apply Forall_forall. intros w I. apply filter_In in I as [I NE]. split; [destruct w; [discriminate|congruence]|].
  apply in_map_iff in I as (v & <- & I). pose proof (runs_Forall lr_keep s) as F. rewrite Forall_forall in F.
  destruct (F v I) as [_ Fv]. destruct (remain_word v) as [(r & E & _) _].
  { eapply Forall_impl; [|exact Fv]. intros c. apply lr_keep_nonspace. }
  rewrite E in Fv. apply Forall_app in Fv. apply Fv.
Qed.
Lemma remain_idem w : Forall (fun c => is_space c = false) w -> remain_hangle_on_last (remain_hangle_on_last w) = remain_hangle_on_last w.
Proof.
  intros F. destruct (remain_word w F) as [(r & E & _) [->|(p & h & Er & Hh)]]; [reflexivity|].
  rewrite Er. unfold remain_hangle_on_last. rewrite upto_last_some by (auto; constructor).
  rewrite strip_nonspace_end by (apply hangul_nonspace, Hh).
  assert (F' : Forall (fun c => is_space c = false) (p ++ [h])).
  { rewrite E, Er in F. apply Forall_app in F. apply F. }
  unfold lstrip. destruct (p ++ [h]) as [|x l]; [reflexivity|]. inversion F' as [|? ? X _]. simpl. rewrite X. reflexivity.
Qed.
Lemma lrgraph_idem s : normalize_sent_for_lrgraph (normalize_sent_for_lrgraph s) = normalize_sent_for_lrgraph s.
Proof.
  rewrite (lrgraph_runs s) at 1. rewrite lrgraph_runs, runs_join; [|reflexivity|apply lr_runs_words].
  rewrite lrgraph_runs. f_equal.
  pose proof (runs_Forall lr_keep s) as F. induction (runs lr_keep s) as [|w ws IH]; [reflexivity|].
  inversion F as [|? ? [_ Fw] F']; subst. cbn [map filter]. destruct (nonempty (remain_hangle_on_last w)) eqn:E; [|apply IH, F'].
  cbn [map filter]. rewrite remain_idem, E by (eapply Forall_impl; [|exact Fw]; apply lr_keep_nonspace). f_equal. apply IH, F'.
Qed.

(** ** tokenizer.normalize *)
Lemma consonant_decompose n : consonant n -> decompose n = Some (n, 32, 32).
Proof. intros C. apply consonant_iff in C. apply decompose_jaum, C. Qed.
Lemma vowel_decompose n : vowel n -> decompose n = Some (32, n, 32).
Proof. intros C. apply vowel_iff in C. apply decompose_moum, C. Qed.

Lemma In_chosung_bounds x : In x chosung_list -> 12593 <= x <= 12622.
Proof. intros I. assert (F : Forall (fun x => 12593 <= x <= 12622) chosung_list) by (repeat constructor; vm_compute; try discriminate).
  rewrite Forall_forall in F. apply F, I. Qed.
Lemma In_jungsung_bounds x : In x jungsung_list -> 12623 <= x <= 12643.
Proof. intros I. assert (F : Forall (fun x => 12623 <= x <= 12643) jungsung_list) by (repeat constructor; vm_compute; try discriminate).
  rewrite Forall_forall in F. apply F, I. Qed.

(** the three shapes of a decomposition *)
Lemma decompose_shape c : 
  (decompose c = None /\ ~ hangul c) \/
  (exists a b d, decompose c = Some (a, b, d) /\ syl c a b d /\ consonant a /\ vowel b) \/
  (decompose c = Some (c, 32, 32) /\ consonant c) \/ (decompose c = Some (32, c, 32) /\ vowel c).
Proof.
  destruct (character_is_korean c) eqn:K.
  - apply korean_cases in K as [K|[K|K]].
    + apply syllable_iff in K. destruct (syl_ex c K) as (a & b & d & E & S & A & B & _). right. left. exists a, b, d.
      repeat split; auto; try (apply In_chosung_bounds in A; apply A); apply In_jungsung_bounds in B; apply B.
    + right. right. left. split; [apply decompose_jaum, K|apply consonant_iff, K].
    + right. right. right. split; [apply decompose_moum, K|apply vowel_iff, K].
  - left. split; [apply decompose_other, K|]. unfold hangul. rewrite korean_iff. congruence.
Qed.

Lemma emoji_char_spec c n : exists a, emoji_char c (decompose c) (decompose n) = Ok a /\ Emoji c n a.
Proof.
  assert (SYL : forall c a b d, syl c a b d -> syllable c) by (intros * S; apply syl_iff in S; tauto).
  assert (DET : forall c a b d a' b' d', syl c a b d -> syl c a' b' d' -> a = a' /\ b = b' /\ d = d').
  { intros * S1 S2. apply syl_iff in S1 as [_ S1]. apply syl_iff in S2 as [_ S2]. rewrite S1 in S2. injection S2. auto. }
  assert (KEEP : (~ syllable c) \/ (~ consonant n /\ ~ vowel n) -> Emoji c n [c]).
  { intros [H|[H1 H2]]; apply J_keep; try (intros; contradiction); intros _ **; intros S; apply SYL in S; contradiction. }
  destruct (decompose_shape c) as [[Ec Hc]|[(a & b & d & Ec & Sc & Ca & Vb)|[[Ec Hc]|[Ec Hc]]]]; rewrite Ec.
  - exists [c]. split; [destruct (decompose n) as [[[? ?] ?]|]; reflexivity|]. apply KEEP. left. intros S. apply Hc. left. exact S.
  - destruct (decompose_shape n) as [[En Hn]|[(a' & b' & d' & En & Sn & Ca' & Vb')|[[En Hn]|[En Hn]]]]; rewrite En; cbn [emoji_char].
    + exists [c]. split; [reflexivity|]. apply KEEP. right. unfold hangul in Hn. tauto.
    + unfold SP. replace (b' =? 32) with false by (symmetry; apply N.eqb_neq; unfold vowel in *; lia). cbn [andb].
      replace (a' =? 32) with false by (symmetry; apply N.eqb_neq; unfold consonant in *; lia). rewrite ?andb_false_r. cbn [andb].
      exists [c]. split; [reflexivity|]. apply KEEP. right. apply SYL in Sn. unfold syllable, consonant, vowel in *. lia.
    + unfold SP. rewrite N.eqb_refl. cbn [andb]. destruct (d =? n) eqn:E.
      * apply N.eqb_eq in E. subst d. destruct (syl_drop_final _ _ _ _ Sc) as (c' & C' & S'). unfold SP in C'. rewrite C'. cbn [bind].
        exists [c'; n]. split; [reflexivity|]. eapply J_final; eauto.
      * replace (n =? 32) with false by (symmetry; apply N.eqb_neq; unfold consonant in *; lia). rewrite ?andb_false_r. cbn [andb].
        exists [c]. split; [reflexivity|]. apply J_keep.
        -- intros _ x y S. destruct (DET _ _ _ _ _ _ _ Sc S) as (_ & _ & X). apply N.eqb_neq in E. contradiction.
        -- intros V. unfold vowel, consonant in *. lia.
    + unfold SP. replace (n =? 32) with false by (symmetry; apply N.eqb_neq; unfold vowel in *; lia). cbn [andb].
      rewrite N.eqb_refl, andb_true_r. destruct ((d =? 32) && (b =? n)) eqn:E.
      * apply andb_true_iff in E as [E1 E2]. apply N.eqb_eq in E1, E2. subst d b.
        replace (a =? 32) with false by (symmetry; apply N.eqb_neq; unfold consonant in *; lia). cbn [negb].
        exists [a; n]. split; [reflexivity|]. apply J_vowel; assumption.
      * exists [c]. split; [reflexivity|]. apply J_keep.
        -- intros V. unfold vowel, consonant in *. lia.
        -- intros _ x S. destruct (DET _ _ _ _ _ _ _ Sc S) as (_ & -> & ->). rewrite !N.eqb_refl in E. discriminate.
  - assert (NS : ~ syllable c) by (unfold syllable, consonant in *; lia).
    exists [c]. split; [|apply KEEP; auto].
    destruct (decompose_shape n) as [[En Hn]|[(a' & b' & d' & En & Sn & Ca' & Vb')|[[En Hn]|[En Hn]]]]; rewrite En; cbn [emoji_char]; unfold SP.
    + reflexivity.
    + replace (b' =? 32) with false by (symmetry; apply N.eqb_neq; unfold vowel in *; lia). cbn [andb].
      replace (a' =? 32) with false by (symmetry; apply N.eqb_neq; unfold consonant in *; lia). reflexivity.
    + replace (32 =? n) with false by (symmetry; apply N.eqb_neq; unfold consonant in *; lia).
      replace (n =? 32) with false by (symmetry; apply N.eqb_neq; unfold consonant in *; lia). reflexivity.
    + replace (n =? 32) with false by (symmetry; apply N.eqb_neq; unfold vowel in *; lia).
      replace (32 =? n) with false by (symmetry; apply N.eqb_neq; unfold vowel in *; lia). reflexivity.
  - assert (NS : ~ syllable c) by (unfold syllable, vowel in *; lia).
    exists [c]. split; [|apply KEEP; auto].
    destruct (decompose_shape n) as [[En Hn]|[(a' & b' & d' & En & Sn & Ca' & Vb')|[[En Hn]|[En Hn]]]]; rewrite En; cbn [emoji_char]; unfold SP.
    + reflexivity.
    + replace (b' =? 32) with false by (symmetry; apply N.eqb_neq; unfold vowel in *; lia). cbn [andb].
      replace (a' =? 32) with false by (symmetry; apply N.eqb_neq; unfold consonant in *; lia). reflexivity.
    + replace (32 =? n) with false by (symmetry; apply N.eqb_neq; unfold consonant in *; lia).
      replace (n =? 32) with false by (symmetry; apply N.eqb_neq; unfold consonant in *; lia). reflexivity.
    + replace (n =? 32) with false by (symmetry; apply N.eqb_neq; unfold vowel in *; lia). cbn [andb].
      rewrite N.eqb_refl. cbn [andb]. destruct (c =? n) eqn:E; [|reflexivity]. apply N.eqb_eq in E. subst. reflexivity.
Qed.

Lemma emoji_loop_spec s : s <> [] -> exists t, emoji_loop s = Ok t /\ Pairs Emoji s t.
Proof.
  intros NE. destruct s as [|c s]; [congruence|]. clear NE. revert c. induction s as [|d s IH]; intros c.
  - exists [c]. split; [reflexivity|constructor].
  - destruct (emoji_char_spec c d) as (a & A & Ea). destruct (IH d) as (b & B & Eb).
    exists (a ++ b). change (emoji_loop (c :: d :: s)) with (do a <- emoji_char c (decompose c) (decompose d); do b <- emoji_loop (d :: s); Ok (a ++ b)).
    rewrite A. cbn [bind]. rewrite B. split; [reflexivity|]. constructor; assumption.
Qed.
Lemma normalize_emoji_spec s : s <> [] -> exists t, normalize_emoji s = Ok t /\ Pairs Emoji s t.
Proof.
  intros NE. unfold normalize_emoji. destruct (length s <=? 1)%nat eqn:L; [|apply emoji_loop_spec, NE].
  destruct s as [|c [|]]; [congruence| |discriminate]. exists [c]. split; [reflexivity|constructor].
Qed.

(** the emoji step keeps tokens non-empty and free of whitespace *)
Lemma emoji_nonspace c n a : Emoji c n a -> is_space c = false -> a <> [] /\ Forall (fun x => is_space x = false) a.
Proof.
  assert (K : forall x, hangul x -> is_space x = false) by apply hangul_nonspace.
  assert (SY : forall c a b d, syl c a b d -> syllable c /\ consonant a).
  { intros * S. apply syl_iff in S as [S E]. destruct (decompose_shape c0) as [[Ec Hc]|[(x & y & z & Ec & Sc & Ca & Vb)|[[Ec Hc]|[Ec Hc]]]];
    rewrite E in Ec; try discriminate; injection Ec as <- <- <-; auto;
    unfold syllable, consonant, vowel in *; lia. }
  intros [] S; split; try discriminate; repeat constructor; auto; apply K; unfold hangul;
  repeat match goal with H : syl _ _ _ _ |- _ => apply SY in H end; tauto.
Qed.
Lemma pairs_nonspace s t : Pairs Emoji s t -> Forall (fun x => is_space x = false) s -> t <> [] /\ Forall (fun x => is_space x = false) t.
Proof.
  induction 1 as [c|c d s a b R H IH]; intros F.
  - split; [discriminate|exact F].
  - inversion F as [|? ? Fc F']; subst. destruct (IH F') as [NE Fb]. destruct (emoji_nonspace _ _ _ R Fc) as [NA Fa].
    split; [destruct a; [congruence|discriminate]|apply Forall_app; auto].
Qed.
Lemma times_Forall (P : N -> Prop) n b : Forall P b -> Forall P (times n b).
Proof. intros F. induction n as [|n IH]; [constructor|]. rewrite times_S. apply Forall_app; auto. Qed.
Lemma times_Forall_inv (P : N -> Prop) n b : Forall P (times (S n) b) -> Forall P b.
Proof. rewrite times_S. intros F. apply Forall_app in F. apply F. Qed.
Lemma BlockSub_nonspace word k m n s t (P : N -> Prop) : (0 < k)%nat -> (0 < n)%nat -> BlockSub word k m n s t -> Forall P s ->
  Forall P t /\ (s <> [] -> t <> []).
Proof.
  intros K N0 H. induction H as [|b j s t L F J X H IH|c s t X H IH]; intros Fs.
  - split; auto.
  - apply Forall_app in Fs as [F1 F2]. destruct (IH F2) as [Ft NEt].
    split; [apply Forall_app; split; [apply times_Forall; eapply times_Forall_inv; exact F1|exact Ft]|].
    intros _. destruct n as [|n]; [lia|]. rewrite times_S. destruct b; [simpl in L; lia|discriminate].
  - inversion Fs; subst. destruct (IH H3). split; [constructor; auto|discriminate].
Qed.

Lemma remove_repeat_spec word t n : (0 < n)%Z -> Shortened word (Z.to_nat n) t (remove_repeat word t n).
Proof.
  intros P. unfold remove_repeat. replace (0 <? n)%Z with true by (symmetry; apply Z.ltb_lt; lia). cbn [fold_left].
  econstructor; apply re_repeat_sub_spec; try lia; reflexivity.
Qed.

Lemma tok_normalize_spec word s n : exists ts, tok_normalize word s n = Ok (join [SP] ts) /\
  Forall2 (fun e t => exists t0, Pairs Emoji e t0 /\ ((0 < n)%Z -> Shortened word (Z.to_nat n) t0 t) /\ ((n <= 0)%Z -> t = t0)) (split s) ts /\
  Forall (fun t => t <> [] /\ Forall (fun c => nonspace c = true) t) ts.
Proof.
  unfold tok_normalize. pose proof (split_words s) as F. induction (split s) as [|e es IH].
  - exists []. repeat split; constructor.
  - inversion F as [|? ? [NE Fe] F']; subst. destruct (IH F') as (ts & E & F2 & FN).
    destruct (normalize_emoji_spec e NE) as (t0 & E0 & P0).
    destruct (mapM (fun t : str => normalize_korean_token word t n) es) as [ts'|] eqn:M; [|discriminate].
    cbn [bind] in E. 
    exists (remove_repeat word t0 n :: ts').
    cbn [mapM]. unfold normalize_korean_token at 1. rewrite E0. cbn [bind]. rewrite M. cbn [bind].
    assert (FNS : Forall (fun x => is_space x = false) e) by (eapply Forall_impl; [|exact Fe]; intros; apply nonspace_true; assumption).
    destruct (pairs_nonspace _ _ P0 FNS) as [NE0 F0].
    split; [reflexivity|].
    assert (IH2 : Forall2 (fun e t => exists t0, Pairs Emoji e t0 /\ ((0 < n)%Z -> Shortened word (Z.to_nat n) t0 t) /\ ((n <= 0)%Z -> t = t0)) es ts' /\ Forall (fun t => t <> [] /\ Forall (fun c => nonspace c = true) t) ts').
    { clear - M F'. revert ts' M. induction F' as [|e es [NE Fe] F' IH]; intros ts' M; cbn [mapM] in M.
      - injection M as <-. split; constructor.
      - destruct (normalize_emoji_spec e NE) as (t0 & E0 & P0). unfold normalize_korean_token at 1 in M. rewrite E0 in M. cbn [bind] in M.
        destruct (mapM _ es) as [ts1|] eqn:M1; [|discriminate]. cbn [bind] in M. injection M as <-.
        destruct (IH ts1 eq_refl) as [A B].
        assert (FNS : Forall (fun x => is_space x = false) e) by (eapply Forall_impl; [|exact Fe]; intros; apply nonspace_true; assumption).
        destruct (pairs_nonspace _ _ P0 FNS) as [NE0 F0].
        split; constructor; auto.
        + exists t0. split; [exact P0|]. split; [apply remove_repeat_spec|]. intros L. unfold remove_repeat.
          replace (0 <? n)%Z with false by (symmetry; apply Z.ltb_ge; lia). reflexivity.
        + destruct (Z_le_gt_dec n 0) as [L|G].
          * unfold remove_repeat. replace (0 <? n)%Z with false by (symmetry; apply Z.ltb_ge; lia). split; [exact NE0|].
            eapply Forall_impl; [|exact F0]. intros; apply nonspace_true; assumption.
          * destruct (remove_repeat_spec word t0 n ltac:(lia)) as [t0 t1 t2 t3 t4 B1 B2 B3 B4].
            apply (BlockSub_nonspace _ _ _ _ _ _ (fun x => is_space x = false)) in B1 as [G1 N1]; try lia; auto.
            apply (BlockSub_nonspace _ _ _ _ _ _ (fun x => is_space x = false)) in B2 as [G2 N2]; try lia; auto.
            apply (BlockSub_nonspace _ _ _ _ _ _ (fun x => is_space x = false)) in B3 as [G3 N3]; try lia; auto.
            apply (BlockSub_nonspace _ _ _ _ _ _ (fun x => is_space x = false)) in B4 as [G4 N4]; try lia; auto.
            split; [auto|]. eapply Forall_impl; [|exact G4]. intros; apply nonspace_true; assumption. }
    clear IH. destruct IH2 as [A B]. split; constructor; auto.
    + exists t0. split; [exact P0|]. split; [apply remove_repeat_spec|]. intros L. unfold remove_repeat.
      replace (0 <? n)%Z with false by (symmetry; apply Z.ltb_ge; lia). reflexivity.
    + destruct (Z_le_gt_dec n 0) as [L|G].
      * unfold remove_repeat. replace (0 <? n)%Z with false by (symmetry; apply Z.ltb_ge; lia). split; [exact NE0|].
        eapply Forall_impl; [|exact F0]. intros; apply nonspace_true; assumption.
      * destruct (remove_repeat_spec word t0 n ltac:(lia)) as [t0 t1 t2 t3 t4 B1 B2 B3 B4].
        apply (BlockSub_nonspace _ _ _ _ _ _ (fun x => is_space x = false)) in B1 as [G1 N1]; try lia; auto.
        apply (BlockSub_nonspace _ _ _ _ _ _ (fun x => is_space x = false)) in B2 as [G2 N2]; try lia; auto.
        apply (BlockSub_nonspace _ _ _ _ _ _ (fun x => is_space x = false)) in B3 as [G3 N3]; try lia; auto.
        apply (BlockSub_nonspace _ _ _ _ _ _ (fun x => is_space x = false)) in B4 as [G4 N4]; try lia; auto.
        split; [auto|]. eapply Forall_impl; [|exact G4]. intros; apply nonspace_true; assumption.
Qed.

Lemma pairs_id s t : Forall (fun c => ~ consonant c /\ ~ vowel c) s -> Pairs Emoji s t -> t = s.
Proof.
  intros F H. induction H as [c|c d s a b R H IH]; [reflexivity|].
  inversion F as [|? ? Fc F']; subst. rewrite (IH F'). inversion F' as [|? ? [C V] _]; subst.
  inversion R; subst; try contradiction. reflexivity.
Qed.
Lemma tok_token_unchanged word e n : e <> [] -> Forall (fun c => ~ consonant c /\ ~ vowel c) e ->
  (forall a b r, (1 <= length b <= 4)%nat -> Forall (fun c => word c = true) b -> e <> a ++ times 4 b ++ r) ->
  normalize_korean_token word e n = Ok e.
Proof.
  intros NE F X. unfold normalize_korean_token. destruct (normalize_emoji_spec e NE) as (t & E & P). rewrite E. cbn [bind].
  rewrite (pairs_id _ _ F P). f_equal. unfold remove_repeat. destruct (0 <? n)%Z; [|reflexivity]. cbn [fold_left].
  assert (G : forall k, (1 <= k <= 4)%nat -> re_repeat_sub word k 3 (Z.to_nat n) e = e).
  { intros k K. apply re_repeat_sub_id; [lia|]. intros a b r L W. apply X; [lia|exact W]. }
  rewrite !G by lia. reflexivity.
Qed.
Lemma mapM_app_single {A B} (f : A -> res B) l : (forall x, In x l -> exists y, f x = Ok y) -> exists ys, mapM f l = Ok ys.
Proof.
  induction l as [|x l IH]; intros H; [exists []; reflexivity|]. destruct (H x (or_introl eq_refl)) as (y & E).
  destruct IH as (ys & E2); [intros; apply H; right; assumption|]. exists (y :: ys). cbn [mapM]. rewrite E. cbn [bind]. rewrite E2. reflexivity.
Qed.
Lemma tok_unchanged word ws n : Forall (fun e => e <> [] /\ Forall (fun c => is_space c = false /\ ~ consonant c /\ ~ vowel c) e /\
  (forall a b r, (1 <= length b <= 4)%nat -> Forall (fun c => word c = true) b -> e <> a ++ times 4 b ++ r)) ws ->
  tok_normalize word (join [SP] ws) n = Ok (join [SP] ws).
Proof.
  intros F. unfold tok_normalize. rewrite split_join.
  - assert (M : mapM (fun t => normalize_korean_token word t n) ws = Ok ws).
    { induction F as [|e es (NE & Fe & X) F IH]; [reflexivity|]. cbn [mapM]. rewrite tok_token_unchanged; auto.
      - cbn [bind]. rewrite IH. reflexivity.
      - eapply Forall_impl; [|exact Fe]. cbv beta. tauto. }
    rewrite M. reflexivity.
  - eapply Forall_impl; [|exact F]. cbv beta. intros e (NE & Fe & _). split; [exact NE|]. eapply Forall_impl; [|exact Fe].
    cbv beta. intros c (S & _). apply nonspace_true, S.
Qed.

(** ** the deprecated hangle.normalize *)
Definition old_keep (english number punctuation : bool) (remains : list N) (c : N) : bool :=
  nonspace c && (hangle_c c || (english && alphabet_c c) || (number && number_c c) || (punctuation && mem c (u "!""',.?`")) || mem c remains).
Lemma old_keep_iff e n p rem c : old_keep e n p rem c = true <->
  (is_space c = false /\ (hangul c \/ (e = true /\ letter c) \/ (n = true /\ digit c) \/ (p = true /\ In c (u "!""',.?`")) \/ In c rem)).
Proof.
  unfold old_keep. rewrite andb_true_iff, !orb_true_iff, !andb_true_iff, nonspace_true, hangle_c_iff, alphabet_c_iff, number_c_iff, !mem_In. tauto.
Qed.
Lemma split_ext_space s t : Forall2 (fun c d => c = d \/ (is_space c = true /\ is_space d = true)) s t -> split s = split t.
Proof.
  intros F. unfold split. induction F as [|c d s t H F IH]; [reflexivity|].
  assert (N : nonspace c = nonspace d). { destruct H as [->|[A B]]; [reflexivity|]. unfold nonspace. rewrite A, B. reflexivity. }
  cbn [runs]. rewrite N. destruct (nonspace d) eqn:D; [|exact IH].
  assert (c = d). { destruct H as [H|[A B]]; [exact H|]. apply nonspace_true in D. congruence. } subst d.
  destruct F as [|c2 d2 s t H2 F]; [reflexivity|].
  assert (N2 : nonspace c2 = nonspace d2). { destruct H2 as [->|[A B]]; [reflexivity|]. unfold nonspace. rewrite A, B. reflexivity. }
  rewrite N2. destruct (nonspace d2); rewrite IH; reflexivity.
Qed.
Lemma old_normalize_runs word s e n p rr rem : 
  let doc := if (0 <? rr)%Z then re_repeat_sub word 1 3 (Z.to_nat rr) s else s in
  old_normalize word s e n p rr rem = join [SP] (runs (old_keep e n p rem) doc).
Proof.
  cbv zeta. unfold old_normalize. set (doc := if (0 <? rr)%Z then _ else s). clearbody doc.
  rewrite strip_collapse. f_equal. rewrite <- split_blank_unless by (intros c H; unfold old_keep in H; apply andb_true_iff in H as [H _]; apply nonspace_true, H).
  apply split_ext_space. unfold blank_unless. induction doc as [|c doc IH]; constructor; [|exact IH].
  assert (LIT : mem c (u "!""',.?`") = ((c =? 33) || (c =? 34) || (c =? 39) || (c =? 44) || (c =? 46) || (c =? 63) || (c =? 96))).
  { apply eq_true_iff_eq. rewrite mem_In, !orb_true_iff, !N.eqb_eq. inlit. cbn [In]. lia. }
  unfold old_keep. rewrite LIT. unfold hangle_c, alphabet_c, number_c. fold jaum_begin jaum_end moum_begin moum_end kor_begin kor_end.
  change 12593 with jaum_begin. change 12622 with jaum_end. change 12623 with moum_begin. change 12643 with moum_end. change 44032 with kor_begin. change 55203 with kor_end.
  destruct (c =? SP) eqn:S. { apply N.eqb_eq in S. subst c. right. split; [reflexivity|]. destruct (nonspace SP && _); reflexivity. }
  rewrite (orb_comm _ (between kor_begin c kor_end)), orb_assoc.
  destruct (nonspace c) eqn:NS; cbn [andb].
  - left. destruct (between kor_begin c kor_end || between jaum_begin c jaum_end || between moum_begin c moum_end); [reflexivity|]. cbn [orb].
    destruct (e && _); [reflexivity|]. cbn [orb]. destruct (n && _); [reflexivity|]. cbn [orb].
    destruct (p && _); [reflexivity|]. cbn [orb]. destruct (mem c rem); reflexivity.
  - right. apply nonspace_false in NS. split; [|reflexivity].
    repeat match goal with |- context [if ?b then _ else _] => destruct b; [exact NS|] end. reflexivity.
Qed.
