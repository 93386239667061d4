(** * Proofs about conjugation: each rule *)
From Verif Require Import PyBase HangleModel HangleSpec HangleProofs LemmaModel LemmaSpec LemmaProofs.
Open Scope N_scope.

Local Opaque syl.
Definition okr {A} (r : res (list A)) (P : A -> Prop) : Prop := exists l, r = Ok l /\ forall s, In s l <-> P s.
Lemma okr_nil {A} (P : A -> Prop) : (forall s, ~ P s) -> okr (Ok []) P.
Proof. intros N. exists []. split; [reflexivity|]. intros s. split; [intros []|]. intros X. exact (N s X). Qed.
Lemma okr_one {A} (P : A -> Prop) x : (forall s, P s <-> s = x) -> okr (Ok [x]) P.
Proof. intros N. exists [x]. split; [reflexivity|]. intros s. rewrite N. cbn [In]. intuition. Qed.
Lemma okr_two {A} (P : A -> Prop) x y : (forall s, P s <-> s = x \/ s = y) -> okr (Ok [x; y]) P.
Proof. intros N. exists [x; y]. split; [reflexivity|]. intros s. rewrite N. cbn [In]. intuition. Qed.

Section Rules.
  Variables (p : str) (a b f E o v g : N) (t : str).
  Hypothesis JL : jamo a b f.
  Hypothesis HE : head_parts E o v g.
  Hypothesis G : syl a b f = "르"%ch -> forall q c, p = q ++ [c] -> syllable c.
  Let rfc := if negb (v =? " "%ch) then syl o v " "%ch else E.
  Let x := mkCctx (p ++ [syl a b f]) (E :: t) a b f o v g rfc.
  Notation by_r := (by_rule p a b f E o v g t).

  Lemma head_syl : v <> " "%ch -> jamo o v g /\ E = syl o v g.
  Proof. intros NV. destruct HE as [H|(_ & _ & H & _)]; [exact H|contradiction]. Qed.
  Lemma head_lone : v = " "%ch -> (E = "ㄴ"%ch \/ E = "ㄹ"%ch \/ E = "ㅁ"%ch \/ E = "ㅂ"%ch \/ E = "ㅆ"%ch) /\ o = E /\ g = " "%ch.
  Proof. intros V. destruct HE as [[(A & B & D) _]|(A & B & _ & D)]; [exfalso; exact (SP_vowel v B V)|auto]. Qed.
  Lemma o_ieung : o = "ㅇ"%ch -> v <> " "%ch.
  Proof. intros O V. destruct (head_lone V) as (H & E1 & _). rewrite O in E1. subst E. destruct H as [H|[H|[H|[H|H]]]]; discriminate H. Qed.
  Lemma rf_eq v' : In v' vowels -> (rfc = syl "ㅇ"%ch v' " "%ch <-> o = "ㅇ"%ch /\ v = v').
  Proof.
    intros IV. assert (J : jamo "ㅇ"%ch v' " "%ch) by (split; [lit|split; [exact IV|lit]]). unfold rfc.
    destruct (N.eqb_spec v (" "%ch)) as [V|V]; cbn [negb].
    - destruct (head_lone V) as (H & -> & _). destruct (syl_decompose _ _ _ J) as [_ S]. unfold syllable in S. split.
      + intros X. rewrite <- X in S. destruct H as [H|[H|[H|[H|H]]]]; rewrite H in S; destruct S as [S _]; vm_compute in S; exfalso; apply S; reflexivity.
      + intros (X & ->). exfalso. apply (SP_vowel _ IV). exact V.
    - destruct (head_syl V) as ((A & B & D) & _). assert (J' : jamo o v " "%ch) by (split; [exact A|split; [exact B|lit]]). split.
      + intros X. destruct (syl_inj _ _ _ _ _ _ J' J X) as (-> & -> & _). auto.
      + intros (-> & ->). reflexivity.
  Qed.
  Lemma rf_a : rfc = "아"%ch <-> o = "ㅇ"%ch /\ v = "ㅏ"%ch.
  Proof. rewrite <- (rf_eq "ㅏ"%ch) by lit. replace (syl "ㅇ"%ch "ㅏ"%ch " "%ch) with ("아"%ch) by (vm_compute; reflexivity). tauto. Qed.
  Lemma rf_eo : rfc = "어"%ch <-> o = "ㅇ"%ch /\ v = "ㅓ"%ch.
  Proof. rewrite <- (rf_eq "ㅓ"%ch) by lit. replace (syl "ㅇ"%ch "ㅓ"%ch " "%ch) with ("어"%ch) by (vm_compute; reflexivity). tauto. Qed.
  (** a literal final or vowel *)
  Lemma jf d : In d finals -> jamo a b d. Proof. intros I. destruct JL as (A & B & _). split; [exact A|split; [exact B|exact I]]. Qed.
  Lemma g_final : v <> " "%ch -> In g finals. Proof. intros V. destruct (head_syl V) as ((_ & _ & I) & _). exact I. Qed.
  Lemma v_vowel : v <> " "%ch -> In v vowels. Proof. intros V. destruct (head_syl V) as ((_ & I & _) & _). exact I. Qed.
  Lemma jv w : In w vowels -> v <> " "%ch -> jamo a w g.
  Proof. intros I V. destruct JL as (A & _ & _). split; [exact A|split; [exact I|apply g_final, V]]. Qed.
  Lemma jcv c w : In c initials -> In w vowels -> v <> " "%ch -> jamo c w g.
  Proof. intros IC I V. split; [exact IC|split; [exact I|apply g_final, V]]. Qed.
  Lemma p_nil : (1 <? length (p ++ [syl a b f]))%nat = negb (match p with [] => true | _ => false end).
  Proof. rewrite app_length. destruct p as [|c0 p']; cbn [length negb Nat.add]; [reflexivity|]. apply Nat.ltb_lt. lia. Qed.
  Lemma p_nil2 : (2 <=? length (p ++ [syl a b f]))%nat = negb (match p with [] => true | _ => false end).
  Proof. rewrite <- p_nil. reflexivity. Qed.
  Lemma L_eq a' b' f' c : syl a' b' f' = c -> jamo a' b' f' -> (syl a b f = c <-> a = a' /\ b = b' /\ f = f').
  Proof. intros H J. apply lit_syl; assumption. Qed.

  Ltac prep := unfold x; cbn [c_stem c_ending l0 l1 l2 r0 r1 r2 rf hd tl app]; rewrite ?removelast_last, ?last_app, <- ?app_assoc; cbn [app].
  Ltac seal := try clear x; repeat match goal with
    | |- context [syl ?c ?d ?e] => let k := fresh in set (k := syl c d e) in *; clearbody k
    | H : context [syl ?c ?d ?e] |- _ => let k := fresh in set (k := syl c d e) in *; clearbody k end.
  Ltac tt := clear HE G JL; seal; tauto.
  Ltac rl := cbv beta iota zeta delta [by_rule].
  Ltac bool1 := match goal with |- context [N.eqb ?y ?z] => destruct (N.eqb_spec y z) end.

  Lemma ok_da : okr (rule_da x) (by_r Rda).
  Proof. unfold rule_da. prep. bool1; [apply okr_one|apply okr_nil]; intros s; rl; tt. Qed.
  Lemma ok_d : okr (rule_d x) (fun s => by_r Rd s \/ by_r Rd_keep s).
  Proof.
    unfold rule_d. prep. bool1; [bool1|]; cbn [andb]; [|apply okr_nil; intros s; rl; tt|apply okr_nil; intros s; rl; tt].
    rewrite (compose_syl a b "ㄹ"%ch) by (apply jf; lit). cbn [bind app]. apply okr_two. intros s. rl. tt.
  Qed.
  Lemma ok_s : okr (rule_s x) (fun s => by_r Rs s \/ by_r Rs_keep s).
  Proof.
    assert (B : syl a b f = "벗"%ch -> f = "ㅅ"%ch) by (intros X; apply (L_eq "ㅂ"%ch "ㅓ"%ch "ㅅ"%ch) in X; [tt|vm_compute; reflexivity|split; [lit|split; lit]]).
    unfold rule_s. prep. bool1; [bool1|]; cbn [andb].
    - bool1; [apply okr_one; intros s; rl; tt|]. rewrite (compose_syl a b " "%ch) by (apply jf; lit). cbn [bind app]. apply okr_one. intros s. rl. tt.
    - apply okr_nil; intros s; rl; tt.
    - apply okr_nil; intros s; rl. tt.
  Qed.
  Lemma ok_final : okr (rule_final x) (by_r Rfinal).
  Proof.
    unfold rule_final. prep. destruct (N.eqb_spec v (" "%ch)) as [V|V]; cbn [andb]; [|apply okr_nil; intros s; rl; tt].
    destruct (head_lone V) as (H & EO & _). rewrite EO.
    replace ((E =? "ㄴ"%ch) || (E =? "ㄹ"%ch) || (E =? "ㅁ"%ch) || (E =? "ㅂ"%ch) || (E =? "ㅆ"%ch)) with true by (destruct H as [->|[->|[->|[->| ->]]]]; reflexivity).
    rewrite (compose_syl a b E) by (apply jf; destruct H as [->|[->|[->|[->| ->]]]]; lit). cbn [bind app]. apply okr_one. intros s. rl. tt.
  Qed.
  Lemma ok_u : okr (rule_u x) (fun s => by_r Rpu s \/ by_r Ru s).
  Proof.
    assert (B : syl a b f = "푸"%ch -> b = "ㅜ"%ch /\ f = " "%ch) by (intros X; apply (L_eq "ㅍ"%ch "ㅜ"%ch " "%ch) in X; [tt|vm_compute; reflexivity|split; [lit|split; lit]]).
    pose proof o_ieung as OI. unfold rule_u. prep.
    destruct (N.eqb_spec b ("ㅜ"%ch)); cbn [andb]; [|apply okr_nil; intros s; rl; tt]. destruct (N.eqb_spec f (" "%ch)); cbn [andb]; [|apply okr_nil; intros s; rl; tt].
    destruct (N.eqb_spec o ("ㅇ"%ch)); cbn [andb]; [|apply okr_nil; intros s; rl; tt]. destruct (N.eqb_spec v ("ㅓ"%ch)); cbn [andb]; [|apply okr_nil; intros s; rl; tt].
    destruct (N.eqb_spec (syl a b f) ("푸"%ch)); [apply okr_one; intros s; rl; tt|].
    rewrite (compose_syl a "ㅝ"%ch g) by (apply jv; [lit|auto]). cbn [bind app]. apply okr_one. intros s. rl. tt.
  Qed.
  Lemma ok_o : okr (rule_o x) (by_r Ro).
  Proof.
    pose proof o_ieung as OI. unfold rule_o. prep.
    destruct (N.eqb_spec b ("ㅗ"%ch)); cbn [andb]; [|apply okr_nil; intros s; rl; tt]. destruct (N.eqb_spec f (" "%ch)); cbn [andb]; [|apply okr_nil; intros s; rl; tt].
    destruct (N.eqb_spec o ("ㅇ"%ch)); cbn [andb]; [|apply okr_nil; intros s; rl; tt]. destruct (N.eqb_spec v ("ㅏ"%ch)); cbn [andb]; [|apply okr_nil; intros s; rl; tt].
    rewrite (compose_syl a "ㅘ"%ch g) by (apply jv; [lit|auto]). cbn [bind app]. apply okr_one. intros s. rl. tt.
  Qed.
  Lemma ok_eu : okr (rule_eu x) (fun s => by_r Reu_drop s \/ by_r Reu s).
  Proof.
    assert (B : syl a b f = "으"%ch <-> a = "ㅇ"%ch /\ b = "ㅡ"%ch /\ f = " "%ch) by (apply L_eq; [vm_compute; reflexivity|split; [lit|split; lit]]).
    pose proof o_ieung as OI. unfold rule_eu. prep.
    destruct (N.eqb_spec b ("ㅡ"%ch)); cbn [andb]; [|apply okr_nil; intros s; rl; tt]. destruct (N.eqb_spec f (" "%ch)); cbn [andb]; [|apply okr_nil; intros s; rl; tt].
    destruct (N.eqb_spec o ("ㅇ"%ch)) as [O|O]; cbn [andb]; [|apply okr_nil; intros s; rl; tt].
    rewrite p_nil. specialize (OI O).
    assert (C : compose a v g = Ok (syl a v g)) by (apply compose_syl, jv; [exact (v_vowel OI)|exact OI]). rewrite C. cbn [bind app].
    destruct (N.eqb_spec a ("ㅇ"%ch)) as [A|A]; cbn [andb].
    - destruct p as [|p0 p']; cbn [negb].
      + replace (a =? "ㄹ"%ch) with false by (rewrite A; reflexivity). cbn [negb]. apply okr_one. intros s. rl.
        split; [intros [X|X]; [exfalso; apply X; reflexivity|apply X]|]. intros X. right. split; [assumption|]. split; [assumption|]. split; [assumption|]. split; [rewrite A; discriminate|]. split; [|exact X]. intros [_ Y]. apply Y; reflexivity.
      + apply okr_one. intros s. rl. split; [intros [X|X]; [apply X|]|].
        * exfalso. destruct X as (_ & _ & _ & _ & X & _). apply X. split; [exact A|discriminate].
        * intros X. left. split; [apply B; auto|]. split; [discriminate|]. split; [assumption|exact X].
    - destruct (N.eqb_spec a ("ㄹ"%ch)); cbn [negb]; [apply okr_nil; intros s; rl; tt|]. apply okr_one. intros s. rl. tt.
  Qed.
  Lemma E_a : E = "아"%ch <-> o = "ㅇ"%ch /\ v = "ㅏ"%ch /\ g = " "%ch.
  Proof.
    destruct HE as [[J X]|(H & _)].
    - rewrite X. apply lit_syl; [exact J|vm_compute; reflexivity|split; [lit|split; lit]].
    - split; [intros ->; destruct H as [H|[H|[H|[H|H]]]]; discriminate H|]. intros (O & V & _). exfalso. pose proof (o_ieung O). destruct HE as [[(A & B & D) X]|(_ & _ & Y & _)]; [|congruence].
      destruct (syl_decompose o v g (conj A (conj B D))) as [_ S]. rewrite <- X in S. unfold syllable in S. destruct S as [S _].
      destruct H as [H|[H|[H|[H|H]]]]; rewrite H in S; vm_compute in S; apply S; reflexivity.
  Qed.
  Lemma ok_ara : okr (rule_ara x) (fun s => by_r Rara_o s \/ by_r Rara_u s \/ by_r Rara_ga s \/ by_r Rara s).
  Proof.
    unfold rule_ara. prep.
    assert (C : eqb (firstn 2 (E :: t)) (u "어라") || eqb (firstn 2 (E :: t)) (u "아라") = true <-> (E = "어"%ch \/ E = "아"%ch) /\ exists t', t = "라"%ch :: t').
    { rewrite orb_true_iff, !eqb_eq. replace (u "어라") with ["어"%ch; "라"%ch] by (vm_compute; reflexivity). replace (u "아라") with ["아"%ch; "라"%ch] by (vm_compute; reflexivity).
      destruct t as [|c t']; cbn [firstn]; split.
      - intros [H|H]; discriminate H.
      - intros [_ (t' & H)]. discriminate H.
      - intros [H|H]; injection H as -> ->; split; [left; reflexivity|eauto|right; reflexivity|eauto].
      - intros [[-> | ->] (t'' & H)]; injection H as -> ->; auto. }
    destruct (eqb (firstn 2 (E :: t)) (u "어라") || eqb (firstn 2 (E :: t)) (u "아라")).
    2:{ apply okr_nil. intros s X. assert (D : (E = "어"%ch \/ E = "아"%ch) /\ exists t', t = "라"%ch :: t') by (cbv beta iota zeta delta [by_rule] in X; tt). apply C in D. discriminate. }
    pose proof (proj1 C eq_refl) as (C1 & C2). clear C.
    destruct (N.eqb_spec (syl a b f) ("오"%ch)) as [L|L1]; [|destruct (N.eqb_spec (syl a b f) ("우"%ch)) as [L|L2]; [|destruct (N.eqb_spec (syl a b f) ("가"%ch)) as [L|L3]]].
    - apply okr_one. intros s. rl. rewrite L. split; [intros [X|[X|[X|X]]]|]; try (destruct X as [X _]; discriminate X); [tt|tt|]. intros X. left. split; [reflexivity|split; [exact C1|split; [exact C2|exact X]]].
    - apply okr_one. intros s. rl. rewrite L. split; [intros [X|[X|[X|X]]]|]; try (destruct X as [X _]; discriminate X); [tt|tt|]. intros X. right; left. split; [reflexivity|split; [exact C1|split; [exact C2|exact X]]].
    - apply okr_one. intros s. rl. rewrite L. split; [intros [X|[X|[X|X]]]|]; try (destruct X as [X _]; discriminate X); [tt|tt|]. intros X. right; right; left. split; [reflexivity|split; [exact C1|split; [exact C2|exact X]]].
    - assert (M : mem b negative_moum = true <-> (b = "ㅓ"%ch \/ b = "ㅕ"%ch \/ b = "ㅜ"%ch \/ b = "ㅠ"%ch)).
      { rewrite mem_In. unfold negative_moum. cbn [In]. intuition. }
      destruct (mem b negative_moum); apply okr_one; intros s; rl.
      + pose proof (proj1 M eq_refl). tt.
      + assert (~ (b = "ㅓ"%ch \/ b = "ㅕ"%ch \/ b = "ㅜ"%ch \/ b = "ㅠ"%ch)) by (intros X; apply M in X; discriminate). tt.
  Qed.
  Lemma ok_yeo : okr (rule_yeo x) (fun s => by_r Ryeo s \/ by_r Rhae s).
  Proof.
    pose proof o_ieung as OI. unfold rule_yeo. prep.
    destruct (N.eqb_spec (syl a b f) ("하"%ch)) as [L|L]; cbn [andb]; [|apply okr_nil; intros s; rl; tt]. destruct (N.eqb_spec o ("ㅇ"%ch)) as [O|O]; cbn [andb]; [|apply okr_nil; intros s; rl; tt].
    specialize (OI O).
    destruct (N.eqb_spec v ("ㅏ"%ch)); cbn [orb]; [|destruct (N.eqb_spec v ("ㅓ"%ch)); [|apply okr_nil; intros s; rl; unfold a_or_eo; tt]].
    1,2: assert (CO : compose o "ㅕ"%ch g = Ok (syl "ㅇ"%ch "ㅕ"%ch g)) by (rewrite O; apply compose_syl, jcv; [lit|lit|exact OI]);
      rewrite CO, (compose_syl "ㅎ"%ch "ㅐ"%ch g) by (apply jcv; [lit|lit|exact OI]); cbn [bind app]; rewrite <- app_assoc; cbn [app]; apply okr_two; intros s; rl; unfold a_or_eo; clear CO; tt.
  Qed.
  Lemma ok_h_drop : okr (rule_h_drop x) (fun s => by_r Rh_keep s \/ by_r Rh_drop s).
  Proof.
    assert (B1 : syl a b f = "좋"%ch -> f = "ㅎ"%ch) by (intros X; apply (L_eq "ㅈ"%ch "ㅗ"%ch "ㅎ"%ch) in X; [tt|vm_compute; reflexivity|split; [lit|split; lit]]).
    assert (B2 : syl a b f = "놓"%ch -> f = "ㅎ"%ch) by (intros X; apply (L_eq "ㄴ"%ch "ㅗ"%ch "ㅎ"%ch) in X; [tt|vm_compute; reflexivity|split; [lit|split; lit]]).
    unfold rule_h_drop. prep. destruct (N.eqb_spec f ("ㅎ"%ch)); cbn [andb]; [|apply okr_nil; intros s; rl; tt].
    destruct (N.eqb_spec v (" "%ch)); cbn [negb]; [apply okr_nil; intros s; rl; tt|].
    destruct (N.eqb_spec (syl a b f) ("좋"%ch)); cbn [orb]; [apply okr_one; intros s; rl; tt|]. destruct (N.eqb_spec (syl a b f) ("놓"%ch)); [apply okr_one; intros s; rl; tt|].
    rewrite (compose_syl a b " "%ch) by (apply jf; lit). cbn [bind app]. apply okr_one. intros s. rl. tt.
  Qed.
  Lemma ok_h_contract : okr (rule_h_contract x) (by_r Rh_contract).
  Proof.
    pose proof o_ieung as OI.
    unfold rule_h_contract. prep. destruct (N.eqb_spec f ("ㅎ"%ch)); cbn [andb]; [|apply okr_nil; intros s; rl; tt].
    destruct (N.eqb_spec (syl a b f) ("좋"%ch)); cbn [negb andb]; [apply okr_nil; intros s; rl; tt|].
    destruct (N.eqb_spec v ("ㅓ"%ch)) as [V|V].
    - rewrite V. replace (("ㅓ"%ch =? "ㅏ"%ch)) with false by reflexivity. rewrite andb_false_r. cbn [orb].
      assert (NV : v <> " "%ch) by (rewrite V; discriminate). rewrite (compose_syl a "ㅔ"%ch g) by (apply jv; [lit|exact NV]). cbn [bind app]. apply okr_one. intros s. rl.
      split; [intros (_ & _ & [(_ & X & _)|(_ & X)]); [discriminate X|exact X]|]. intros X. split; [assumption|]. split; [assumption|]. right. split; [reflexivity|exact X].
    - destruct (N.eqb_spec o ("ㅇ"%ch)) as [O|O]; cbn [andb orb]; [|apply okr_nil; intros s; rl; tt]. destruct (N.eqb_spec v ("ㅏ"%ch)) as [V'|V']; cbn [orb]; [|apply okr_nil; intros s; rl; tt].
      rewrite (compose_syl a "ㅐ"%ch g) by (apply jv; [lit|auto]). cbn [bind app]. apply okr_one. intros s. rl. tt.
  Qed.
  Lemma ok_h_n : okr (rule_h_n x) (by_r Rh_n).
  Proof.
    unfold rule_h_n. prep. destruct (N.eqb_spec f ("ㅎ"%ch)); cbn [andb]; [|apply okr_nil; intros s; rl; tt]. destruct (N.eqb_spec o ("ㄴ"%ch)); cbn [andb]; [|apply okr_nil; intros s; rl; tt].
    destruct (N.eqb_spec v (" "%ch)); cbn [negb]; [apply okr_nil; intros s; rl; tt|]. apply okr_one. intros s. rl. tt.
  Qed.
  Lemma ok_i : okr (rule_i x) (fun s => by_r Ri s \/ by_r Ri_keep s).
  Proof.
    pose proof o_ieung as OI. pose proof rf_eo as RF. unfold rule_i. prep.
    destruct (N.eqb_spec rfc ("어"%ch)) as [R|R]; cbn [andb]; [|apply okr_nil; intros s; rl; tt]. apply RF in R as (O & V).
    destruct (N.eqb_spec b ("ㅣ"%ch)); cbn [andb]; [|apply okr_nil; intros s; rl; tt]. destruct (N.eqb_spec f (" "%ch)); [|apply okr_nil; intros s; rl; tt].
    rewrite (compose_syl a "ㅕ"%ch g) by (apply jv; [lit|auto]). cbn [bind app]. apply okr_two. intros s. rl. tt.
  Qed.
  Lemma ok_b : okr (rule_b x) (fun s => by_r Rb_a s \/ by_r Rb_vowel s).
  Proof.
    pose proof o_ieung as OI. pose proof rf_eo as RE. pose proof rf_a as RA. unfold rule_b. prep. rewrite p_nil2.
    destruct (N.eqb_spec f ("ㅂ"%ch)) as [F|F]; cbn [andb]; [|apply okr_nil; intros s; rl; tt].
    rewrite (compose_syl a b " "%ch) by (apply jf; lit). cbn [bind app].
    destruct ((rfc =? "어"%ch) || (rfc =? "아"%ch)) eqn:R.
    - assert (OV : o = "ㅇ"%ch /\ a_or_eo v).
      { apply orb_true_iff in R as [R|R]; apply N.eqb_eq in R; [apply RE in R as [-> ->]|apply RA in R as [-> ->]]; unfold a_or_eo; auto. }
      destruct OV as [O AV]. specialize (OI O).
      replace (v =? "ㅗ"%ch) with false by (destruct AV as [-> | ->]; reflexivity). replace (v =? "ㅜ"%ch) with false by (destruct AV as [-> | ->]; reflexivity).
      assert (RV : (rfc =? "어"%ch) = (v =? "ㅓ"%ch)).
      { destruct (N.eqb_spec rfc ("어"%ch)) as [X|X]; [apply RE in X as [_ ->]; reflexivity|]. destruct (N.eqb_spec v ("ㅓ"%ch)) as [Y|Y]; [|reflexivity]. exfalso. apply X, RE. auto. }
      rewrite RV. set (special := negb match p with [] => true | _ :: _ => false end && ((syl a b f =? "답"%ch) || (syl a b f =? "곱"%ch) || (syl a b f =? "깝"%ch) || (syl a b f =? "롭"%ch))).
      assert (SP : special = true <-> p <> [] /\ (syl a b f = "답"%ch \/ syl a b f = "곱"%ch \/ syl a b f = "깝"%ch \/ syl a b f = "롭"%ch)).
      { unfold special. rewrite andb_true_iff, !orb_true_iff, !N.eqb_eq. assert (PN : negb match p with [] => true | _ :: _ => false end = true <-> p <> []) by (destruct p; cbn; intuition congruence). rewrite PN. tt. }
      destruct special.
      + pose proof (proj1 SP eq_refl) as S. rewrite (compose_syl "ㅇ"%ch "ㅝ"%ch g) by (apply jcv; [lit|lit|exact OI]). cbn [bind app]. apply okr_one. intros s. rl. split.
        * intros [(_ & _ & _ & w & [(-> & _)|(_ & _ & N)] & X)|X]; [exact X|contradiction|tt].
        * intros ->. left. split; [exact F|]. split; [exact O|]. split; [exact AV|]. exists ("ㅝ"%ch). split; [left; split; [reflexivity|right; exact S]|reflexivity].
      + assert (NS : ~ (p <> [] /\ (syl a b f = "답"%ch \/ syl a b f = "곱"%ch \/ syl a b f = "깝"%ch \/ syl a b f = "롭"%ch))) by (intros X; apply SP in X; discriminate).
        destruct (N.eqb_spec v ("ㅓ"%ch)) as [V|V].
        * rewrite (compose_syl "ㅇ"%ch "ㅝ"%ch g) by (apply jcv; [lit|lit|exact OI]). cbn [bind app]. apply okr_one. intros s. rl. split.
          -- intros [(_ & _ & _ & w & [(-> & _)|(_ & V' & _)] & X)|X]; [exact X|rewrite V in V'; discriminate V'|tt].
          -- intros ->. left. split; [exact F|]. split; [exact O|]. split; [exact AV|]. exists ("ㅝ"%ch). split; [left; split; [reflexivity|left; exact V]|reflexivity].
        * assert (V' : v = "ㅏ"%ch) by (destruct AV; tt). rewrite (compose_syl "ㅇ"%ch "ㅘ"%ch g) by (apply jcv; [lit|lit|exact OI]). cbn [bind app]. apply okr_one. intros s. rl. split.
          -- intros [(_ & _ & _ & w & [(_ & [Y|Y])|(-> & _)] & X)|X]; [contradiction|contradiction|exact X|tt].
          -- intros ->. left. split; [exact F|]. split; [exact O|]. split; [exact AV|]. exists ("ㅘ"%ch). split; [right; split; [reflexivity|split; [exact V'|exact NS]]|reflexivity].
    - apply orb_false_iff in R as [R1 R2]. apply N.eqb_neq in R1, R2. assert (NAV : o = "ㅇ"%ch -> ~ a_or_eo v) by (intros O [V|V]; [apply R2, RA; auto|apply R1, RE; auto]).
      destruct (N.eqb_spec o ("ㅇ"%ch)) as [O|O]; [|apply okr_nil; intros s; rl; tt]. apply okr_one. intros s. rl. specialize (NAV O). tt.
  Qed.
  Lemma ok_reo : okr (rule_reo x) (by_r Rreo).
  Proof.
    pose proof o_ieung as OI. unfold rule_reo. prep. destruct (N.eqb_spec (syl a b f) ("르"%ch)) as [L|L]; cbn [andb]; [|apply okr_nil; intros s; rl; tt].
    assert (K : eqb (last_two (p ++ [syl a b f])) (u "구르") = false <-> (forall q, p <> q ++ ["구"%ch])).
    { rewrite eqb_neq. replace (u "구르") with ["구"%ch; "르"%ch] by (vm_compute; reflexivity). rewrite L. destruct (snoc_case p) as [->|(q & c & ->)].
      - split; [intros _ q X; destruct q; discriminate X|]. intros _ X. discriminate X.
      - replace ((q ++ [c]) ++ ["르"%ch]) with (q ++ [c; "르"%ch]) by (rewrite <- app_assoc; reflexivity). rewrite last_two_app. split.
        + intros X q' Y. apply app_inj_tail in Y as [_ ->]. apply X. reflexivity.
        + intros X Y. injection Y as ->. apply (X q). reflexivity. }
    destruct (eqb (last_two (p ++ [syl a b f])) (u "구르")) eqn:Q; cbn [negb andb].
    - apply okr_nil. intros s (_ & X & _). apply K in X. discriminate X.
    - destruct (N.eqb_spec o ("ㅇ"%ch)) as [O|O]; cbn [andb]; [|apply okr_nil; intros s; rl; tt]. destruct (N.eqb_spec v ("ㅓ"%ch)) as [V|V]; [|apply okr_nil; intros s; rl; tt].
      rewrite V. rewrite (compose_syl "ㄹ"%ch "ㅓ"%ch g) by (apply jcv; [lit|lit|auto]). cbn [bind app]. apply okr_one. intros s. rl. pose proof (proj1 K eq_refl) as KK. rewrite <- app_assoc. cbn [app]. split; [intros (_ & _ & _ & _ & X); exact X|]. intros X. split; [exact L|]. split; [exact KK|]. split; [exact O|]. split; [reflexivity|exact X].
  Qed.
  Lemma ok_reu : okr (rule_reu x) (by_r Rreu).
  Proof.
    pose proof o_ieung as OI. pose proof rf_eo as RE. pose proof rf_a as RA. unfold rule_reu. prep. destruct (N.eqb_spec (syl a b f) ("르"%ch)) as [L|L]; cbn [andb].
    2:{ apply okr_nil. intros s (q & y & z & w & _ & _ & X & _). contradiction. }
    destruct ((rfc =? "아"%ch) || (rfc =? "어"%ch)) eqn:R.
    2:{ rewrite andb_false_r. cbn [andb]. apply okr_nil. intros s (q & y & z & w & _ & _ & _ & _ & O & AV & _). apply orb_false_iff in R as [R1 R2]. apply N.eqb_neq in R1, R2.
        destruct AV as [V|V]; [apply R1, RA; auto|apply R2, RE; auto]. }
    assert (OV : o = "ㅇ"%ch /\ a_or_eo v).
    { apply orb_true_iff in R as [R|R]; apply N.eqb_eq in R; [apply RA in R as [-> ->]|apply RE in R as [-> ->]]; unfold a_or_eo; auto. }
    destruct OV as [O AV]. specialize (OI O). rewrite andb_true_r, p_nil2.
    destruct (snoc_case p) as [EP|(q & c & EP)].
    - rewrite EP. cbn [negb andb]. rewrite andb_false_r. apply okr_nil. intros s (q & y & z & w & X & _). destruct q; discriminate X.
    - assert (SC : syllable c) by (exact (G L q c EP)). destruct (syllable_syl c SC) as (y & z & w & J & EC).
      assert (PN : negb match p with [] => true | _ :: _ => false end = true) by (rewrite EP; destruct q; reflexivity). rewrite PN, andb_true_r.
      replace (p ++ [syl a b f]) with (q ++ [c; "르"%ch]) by (rewrite EP, L, <- app_assoc; reflexivity). rewrite last_two_app, but_last_two_app.
      replace (u "푸르") with ["푸"%ch; "르"%ch] by (vm_compute; reflexivity). destruct (eqb_spec [c; "르"%ch] ["푸"%ch; "르"%ch]) as [X|X]; cbn [negb].
      + apply okr_nil. intros s (q' & y' & z' & w' & Y & _ & _ & NP & _). rewrite EP in Y. apply app_inj_tail in Y as [_ Y]. injection X as X. congruence.
      + unfold at_last2. rewrite rev_app_distr. cbn [rev app bind]. rewrite EC, (parts_syl _ _ _ J). cbn [bind].
        rewrite (compose_syl y z "ㄹ"%ch) by (destruct J as (J1 & J2 & J3); split; [exact J1|split; [exact J2|lit]]).
        rewrite (compose_syl "ㄹ"%ch v g) by (apply jcv; [lit|exact (v_vowel OI)|exact OI]). cbn [bind app]. apply okr_one. intros s. rl. split.
        * intros (q' & y' & z' & w' & Y & J' & _ & _ & _ & _ & S). rewrite EP in Y. apply app_inj_tail in Y as [<- Y]. rewrite EC in Y. destruct (syl_inj _ _ _ _ _ _ J J' Y) as (<- & <- & <-). exact S.
        * intros S. exists q, y, z, w. split; [rewrite EP, EC; reflexivity|]. split; [exact J|]. split; [exact L|]. split; [rewrite <- EC; congruence|]. split; [exact O|]. split; [exact AV|exact S].
  Qed.
  Lemma ok_regular : okr (rule_regular x) (regular_form p a b f E o v g t).
  Proof.
    unfold rule_regular, regular_form. prep. destruct (N.eqb_spec v (" "%ch)) as [V|V]; cbn [negb]; [apply okr_nil; intros s; tt|].
    destruct (N.eqb_spec f (" "%ch)); cbn [andb]; [|apply okr_one; intros s; tt]. destruct (N.eqb_spec o ("ㅇ"%ch)); cbn [andb]; [|apply okr_one; intros s; tt].
    destruct (N.eqb_spec v b) as [VB|VB]; [|apply okr_one; intros s; tt]. rewrite (compose_syl a b g) by (apply jv; [exact (proj1 (proj2 JL))|exact V]). cbn [bind app]. apply okr_one. intros s. tt.
  Qed.

  Lemma rules_exact : exists cs, run_rules [] (conj_rules x) = Ok cs /\ forall s, In s cs <-> exists r, by_r r s.
  Proof.
    destruct ok_da as (c1 & E1 & S1). destruct ok_d as (c2 & E2 & S2). destruct ok_reu as (c3 & E3 & S3). destruct ok_b as (c4 & E4 & S4). destruct ok_final as (c5 & E5 & S5).
    destruct ok_s as (c6 & E6 & S6). destruct ok_u as (c7 & E7 & S7). destruct ok_o as (c8 & E8 & S8). destruct ok_eu as (c9 & E9 & S9). destruct ok_ara as (c10 & E10 & S10).
    destruct ok_reo as (c11 & E11 & S11). destruct ok_yeo as (c12 & E12 & S12). destruct ok_h_drop as (c13 & E13 & S13). destruct ok_h_contract as (c14 & E14 & S14).
    destruct ok_h_n as (c15 & E15 & S15). destruct ok_i as (c16 & E16 & S16).
    unfold conj_rules. rewrite E1, E2, E3, E4, E5, E6, E7, E8, E9, E10, E11, E12, E13, E14, E15, E16.
    destruct (run_rules_ok (map Ok [c1; c2; c3; c4; c5; c6; c7; c8; c9; c10; c11; c12; c13; c14; c15; c16]) []) as (cs & R & S).
    { apply Forall_forall. intros r I. apply in_map_iff in I as (l & <- & _). eauto. }
    exists cs. split; [exact R|]. intros s. rewrite S. split.
    - intros [[]|(l & I & J)]. apply in_map_iff in I as (l' & EQ & I). injection EQ as ->. cbn [In] in I.
      repeat (destruct I as [<-|I]; [(apply S1 in J || apply S2 in J || apply S3 in J || apply S4 in J || apply S5 in J || apply S6 in J || apply S7 in J || apply S8 in J || apply S9 in J || apply S10 in J || apply S11 in J || apply S12 in J || apply S13 in J || apply S14 in J || apply S15 in J || apply S16 in J);
        repeat (destruct J as [J|J]; [eexists; exact J|]); eexists; exact J|]); destruct I.
    - intros (r & B). right.
      assert (Q : In s c1 \/ In s c2 \/ In s c3 \/ In s c4 \/ In s c5 \/ In s c6 \/ In s c7 \/ In s c8 \/ In s c9 \/ In s c10 \/ In s c11 \/ In s c12 \/ In s c13 \/ In s c14 \/ In s c15 \/ In s c16).
      { rewrite S1, S2, S3, S4, S5, S6, S7, S8, S9, S10, S11, S12, S13, S14, S15, S16. clear - B. revert B. generalize (by_rule p a b f E o v g t). clear. intros P B. destruct r; tauto. }
      assert (M : forall c, In c [c1; c2; c3; c4; c5; c6; c7; c8; c9; c10; c11; c12; c13; c14; c15; c16] -> In s c -> exists l, In (Ok l) (map Ok [c1; c2; c3; c4; c5; c6; c7; c8; c9; c10; c11; c12; c13; c14; c15; c16]) /\ In s l).
      { intros c I J. exists c. split; [|exact J]. apply in_map, I. }
      clear - Q M. repeat (destruct Q as [Q|Q]; [eapply M; [|exact Q]; cbn [In]; tauto|]). eapply M; [|exact Q]; cbn [In]; tauto.
  Qed.
  Lemma rf_ok : (if negb (v =? " "%ch) then compose o v " "%ch else Ok (hd 0 (E :: t))) = Ok rfc.
  Proof.
    unfold rfc. destruct (N.eqb_spec v (" "%ch)) as [V|V]; cbn [negb hd]; [reflexivity|]. destruct (head_syl V) as ((A & B & _) & _). apply compose_syl. split; [exact A|split; [exact B|lit]].
  Qed.
  Lemma parts_head : parts_of E = Ok (o, v, g).
  Proof.
    destruct HE as [[J ->]|(H & -> & -> & ->)]; [apply parts_syl, J|]. destruct H as [->|[->|[->|[->| ->]]]]; vm_compute; reflexivity.
  Qed.
  Lemma conjugate_parts : exists cs, conjugate (p ++ [syl a b f]) (E :: t) false = Ok cs /\ forall s, In s cs <-> surface_form p a b f E o v g t s.
  Proof.
    unfold conjugate. rewrite at_last_app. cbn [bind]. rewrite (parts_syl _ _ _ JL). cbn [bind fst snd]. rewrite parts_head. cbn [bind fst snd]. rewrite rf_ok. cbn [bind].
    fold x. destruct rules_exact as (cs & R & S). rewrite R. cbn [bind]. destruct cs as [|c0 cs'].
    - destruct ok_regular as (l & RR & SR). rewrite RR. cbn [run_rules bind]. exists (setupdate [] l). split; [reflexivity|]. intros s. rewrite setupdate_In, SR. unfold surface_form. split.
      + intros [[]|X]. right. split; [|exact X]. intros r s' B. apply (proj2 (S s')). eauto.
      + intros [(r & B)|[_ X]]; [|auto]. exfalso. apply (proj2 (S s)). eauto.
    - exists (c0 :: cs'). split; [reflexivity|]. intros s. rewrite S. unfold surface_form. split; [auto|]. intros [X|[N _]]; [exact X|]. exfalso.
      destruct (proj1 (S c0) (or_introl eq_refl)) as (r & B). exact (N r c0 B).
  Qed.
End Rules.
