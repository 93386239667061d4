(** * Proofs about the round trip: conjugate, then analyse *)
From Verif Require Import PyBase HangleModel HangleSpec HangleProofs LemmaModel LemmaSpec LemmaProofs LemmaProofs2 LemmaProofs3 LemmaProofs4 LemmaProofs5.
Open Scope N_scope.
Local Opaque syl.

Section RoundTrip.
  Variables (p : str) (a b f E o v g : N) (t : str).
  Hypothesis JL : jamo a b f.
  Hypothesis HE : head_parts E o v g.
  Hypothesis NH : g <> "ㅎ"%ch.
  Hypothesis FP : Forall syllable p.
  Hypothesis GT : good_right t.
  Notation by_r := (by_rule p a b f E o v g t).
  Notation stem := (p ++ [syl a b f]).

  Lemma GP q c : p = q ++ [c] -> syllable c.
  Proof. intros ->. apply Forall_app in FP as [_ F]. inversion F; assumption. Qed.
  Lemma GP2 q c d c' : p = q ++ [c] -> q = d ++ [c'] -> syllable c'.
  Proof. intros EP ->. rewrite EP in FP. apply Forall_app in FP as [F _]. apply Forall_app in F as [_ F]. inversion F; assumption. Qed.
  Lemma left_ok x y z : jamo x y z -> good_left (p ++ [syl x y z]).
  Proof. intros J. exists p, (syl x y z). split; [reflexivity|]. split; [apply syllable_jamo, J|exact GP]. Qed.
  Lemma right_ok : v <> " "%ch -> good_right (E :: t) /\ jamo o v g /\ E = syl o v g.
  Proof.
    intros V. destruct (head_syl E o v g HE V) as [J EQ]. split; [|split; [exact J|exact EQ]]. right. exists E, t. split; [reflexivity|]. rewrite EQ. apply syllable_jamo, J.
  Qed.
  Lemma found_at (s l r : str) x y z p' : s = l ++ r -> surface_of stem (E :: t) s -> l = p' ++ [syl x y z] -> jamo x y z -> good_left l -> good_right r -> proposal p' x y z r stem (E :: t) -> found s stem (E :: t).
  Proof.
    intros S SO EL J GL GR P. exists l, r. split; [exact S|]. split; [exact GL|]. split; [exact GR|]. split; [exists p', x, y, z; split; [exact EL|split; [exact J|exact P]]|].
    split; [exact (proj1 (not_h E o v g t HE) NH)|]. rewrite <- S. exact SO.
  Qed.
  Lemma split1 (c : N) (r : str) : p ++ c :: r = (p ++ [c]) ++ r. Proof. rewrite <- app_assoc. reflexivity. Qed.
  (** the word is the concatenation *)
  Lemma found_plain s : v <> " "%ch -> surface_of stem (E :: t) s -> s = p ++ syl a b f :: E :: t -> found s stem (E :: t).
  Proof.
    intros V SO S. destruct (right_ok V) as (GR & _). rewrite split1 in S. apply (found_at s _ _ a b f p S SO eq_refl JL (left_ok _ _ _ JL) GR). apply P_same.
  Qed.
  Lemma lit_parts_eq c a' b' f' : syl a b f = c -> syl a' b' f' = c -> jamo a' b' f' -> a = a' /\ b = b' /\ f = f'.
  Proof. intros L L' J. apply syl_inj; [exact JL|exact J|congruence]. Qed.
  Lemma E_lit c v' : E = c -> syl "ㅇ"%ch v' " "%ch = c -> In v' vowels -> o = "ㅇ"%ch /\ v = v' /\ g = " "%ch.
  Proof.
    intros EC L IV. assert (J : jamo "ㅇ"%ch v' " "%ch) by (split; [lit|split; [exact IV|lit]]). assert (H : head_parts E "ㅇ"%ch v' " "%ch) by (left; split; [exact J|congruence]).
    exact (head_unique _ _ _ _ _ _ _ HE H).
  Qed.
  Lemma dark_iff : dark b <-> b = "ㅓ"%ch \/ b = "ㅕ"%ch \/ b = "ㅜ"%ch \/ b = "ㅠ"%ch.
  Proof. rewrite <- mem_dark, mem_In. unfold negative_moum. cbn [In]. split; [intros [<-|[<-|[<-|[<-|[]]]]]; auto|intros [-> |[-> |[-> | ->]]]; auto]. Qed.

  Theorem round_trip r s : by_r r s -> recoverable p a b f E o v g t r -> surface_of stem (E :: t) s -> found s stem (E :: t).
  Proof.
    intros B R SO.
    assert (OI : o = "ㅇ"%ch -> v <> " "%ch) by (exact (o_ieung p a b f E o v g t HE)).
    assert (FI : forall c r', In c finals -> s = p ++ syl a b c :: r' -> good_right r' -> proposal p a b c r' stem (E :: t) -> found s stem (E :: t)).
    { intros c r' I S GR P. assert (J : jamo a b c) by (destruct JL as (A & B' & _); split; [exact A|split; [exact B'|exact I]]). rewrite split1 in S. exact (found_at s _ _ a b c p S SO eq_refl J (left_ok _ _ _ J) GR P). }
    assert (VI : forall w d r', In w vowels -> In d finals -> s = p ++ syl a w d :: r' -> good_right r' -> proposal p a w d r' stem (E :: t) -> found s stem (E :: t)).
    { intros w d r' I I' S GR P. assert (J : jamo a w d) by (destruct JL as (A & _ & _); split; [exact A|split; [exact I|exact I']]). rewrite split1 in S. exact (found_at s _ _ a w d p S SO eq_refl J (left_ok _ _ _ J) GR P). }
    destruct r; cbv beta iota zeta delta [by_rule] in B; cbv beta iota zeta delta [recoverable] in R.
    - (* Rda *) destruct B as (EC & S). apply (found_plain s); [|exact SO|exact S]. intros V. destruct (head_lone E o v g HE V) as (H & _ & _). rewrite EC in H. destruct H as [H|[H|[H|[H|H]]]]; discriminate H.
    - (* Rd *) destruct B as (F & O & S). destruct (right_ok (OI O)) as (GR & J & EQ). apply (FI ("ㄹ"%ch) (E :: t)); [lit|exact S|exact GR|]. rewrite F. rewrite O in J, EQ. apply (P_d p a b ("ㄹ"%ch) (E :: t) v g t eq_refl J). rewrite EQ. reflexivity.
    - (* Rd_keep *) destruct B as (F & O & S). exact (found_plain s (OI O) SO S).
    - (* Rreu *) destruct B as (q & x & y & z & EP & J & L & _ & O & AV & S). destruct R as (q' & x' & y' & EP' & IX & IY). assert (J' : jamo x' y' " "%ch) by (split; [exact IX|split; [exact IY|lit]]).
      rewrite EP in EP'. apply app_inj_tail in EP' as [<- EC]. destruct (syl_inj _ _ _ _ _ _ J J' EC) as (<- & <- & Z). clear EC.
      destruct (right_ok (OI O)) as (_ & JE & EQ). assert (JR : jamo x y "ㄹ"%ch) by (split; [exact IX|split; [exact IY|lit]]).
      assert (ST : stem = q ++ [syl x y " "%ch; "르"%ch]) by (rewrite EP, L, Z, <- app_assoc; reflexivity).
      assert (JH : jamo "ㄹ"%ch v g) by (split; [lit|exact (proj2 JE)]).
      apply (found_at s (q ++ [syl x y "ㄹ"%ch]) (syl "ㄹ"%ch v g :: t) x y ("ㄹ"%ch) q); [rewrite S, <- app_assoc; reflexivity|exact SO|reflexivity|exact JR| | |].
      + exists q, (syl x y "ㄹ"%ch). split; [reflexivity|]. split; [apply syllable_jamo, JR|]. intros q'' c' EQ'. exact (GP2 _ _ _ _ EP EQ').
      + right. exists (syl "ㄹ"%ch v g), t. split; [reflexivity|apply syllable_jamo, JH].
      + rewrite ST. replace (E :: t) with (syl "ㅇ"%ch v g :: t) by (rewrite EQ, O; reflexivity). exact (P_reu q x y ("ㄹ"%ch) _ v g t eq_refl AV (proj2 (proj2 JE)) eq_refl).
    - (* Rb_a *) destruct B as (F & O & AV & w & W & S). destruct (right_ok (OI O)) as (_ & JE & EQ). pose proof (proj2 (proj2 JE)) as IG. destruct W as [(EW & W)|(EW & V & W)].
      + assert (V : v = "ㅓ"%ch) by (destruct W as [W|W]; [exact W|destruct R as [R|R]; [exact R|contradiction]]).
        apply (FI (" "%ch) (syl "ㅇ"%ch w g :: t)); [lit|exact S| |].
        * right. exists (syl "ㅇ"%ch w g), t. split; [reflexivity|]. apply syllable_jamo. rewrite EW. split; [lit|split; [lit|exact IG]].
        * rewrite F. replace (E :: t) with (syl "ㅇ"%ch "ㅓ"%ch g :: t) by (rewrite EQ, O, V; reflexivity). rewrite EW. exact (P_b_eo p a b (" "%ch) _ g t eq_refl IG eq_refl).
      + apply (FI (" "%ch) (syl "ㅇ"%ch w g :: t)); [lit|exact S| |].
        * right. exists (syl "ㅇ"%ch w g), t. split; [reflexivity|]. apply syllable_jamo. rewrite EW. split; [lit|split; [lit|exact IG]].
        * rewrite F. replace (E :: t) with (syl "ㅇ"%ch "ㅏ"%ch g :: t) by (rewrite EQ, O, V; reflexivity). rewrite EW. exact (P_b_a p a b (" "%ch) _ g t eq_refl IG eq_refl).
    - (* Rb_vowel *) destruct B as (F & O & AV & S). destruct R as (R1 & R2 & R3). destruct (right_ok (OI O)) as (GR & JE & EQ). apply (FI (" "%ch) (E :: t)); [lit|exact S|exact GR|]. rewrite F.
      destruct t as [|c t'] eqn:ET; [|destruct (N.eq_dec c ("려"%ch)) as [C|C]].
      + apply P_b; [reflexivity| |intros c' t'' X; discriminate X]. intros g' t'' IG'. split; intros X; injection X as X _; rewrite EQ in X.
        * apply (syl_inj _ _ _ _ _ _ JE) in X; [|split; [lit|split; [lit|exact IG']]]. exact (R1 (proj1 (proj2 X))).
        * apply (syl_inj _ _ _ _ _ _ JE) in X; [|split; [lit|split; [lit|exact IG']]]. exact (R2 (proj1 (proj2 X))).
      + assert (V : v = "ㅜ"%ch) by (apply R3; exists t'; rewrite C; reflexivity).
        replace (proposal p a b (" "%ch) (E :: c :: t') (p ++ [syl a b "ㅂ"%ch]) (E :: c :: t')) with (proposal p a b (" "%ch) (E :: c :: t') (p ++ [syl a b "ㅂ"%ch]) (syl "ㅇ"%ch "ㅜ"%ch g :: "려"%ch :: t')) by (rewrite EQ, O, V, C; reflexivity).
        apply (P_b_u p a b (" "%ch) (E :: c :: t') o v g t' eq_refl JE); [|rewrite EQ, C; reflexivity]. intros (_ & [X|X]); contradiction.
      + apply P_b; [reflexivity| |intros c' t'' X; injection X as _ X _; contradiction]. intros g' t'' IG'. split; intros X; injection X as X _; rewrite EQ in X.
        * apply (syl_inj _ _ _ _ _ _ JE) in X; [|split; [lit|split; [lit|exact IG']]]. exact (R1 (proj1 (proj2 X))).
        * apply (syl_inj _ _ _ _ _ _ JE) in X; [|split; [lit|split; [lit|exact IG']]]. exact (R2 (proj1 (proj2 X))).
    - (* Rfinal *) destruct B as (V & S). destruct R as (R & NE). destruct (head_lone E o v g HE V) as (H & EO & _). rewrite EO in S, NE.
      apply (FI E t); [destruct H as [-> |[-> |[-> |[-> | ->]]]]; lit|exact S|exact GT|]. exact (P_final p a b E t f H R NE).
    - (* Rs *) destruct B as (F & O & _ & S). destruct (right_ok (OI O)) as (GR & J & EQ). apply (FI (" "%ch) (E :: t)); [lit|exact S|exact GR|]. rewrite F. rewrite O in J, EQ. apply (P_s p a b (" "%ch) (E :: t) v g t eq_refl J). rewrite EQ. reflexivity.
    - (* Rs_keep *) destruct B as (L & O & S). exact (found_plain s (OI O) SO S).
    - (* Rpu *) destruct B as (L & O & V & S). destruct (right_ok (OI O)) as (_ & J & EQ).
      assert (JP : jamo "ㅍ"%ch "ㅓ"%ch " "%ch) by (split; [lit|split; lit]). assert (PE : "퍼"%ch = syl "ㅍ"%ch "ㅓ"%ch " "%ch) by (vm_compute; reflexivity).
      rewrite PE, split1 in S. apply (found_at s _ _ _ _ _ p S SO eq_refl JP (left_ok _ _ _ JP) GT). rewrite L.
      replace (E :: t) with (syl "ㅇ"%ch "ㅓ"%ch " "%ch :: t) by (rewrite EQ, O, V, R; reflexivity). exact (P_pu p ("ㅍ"%ch) ("ㅓ"%ch) (" "%ch) t eq_refl eq_refl).
    - (* Ru *) destruct B as (B & F & _ & O & V & S). destruct (right_ok (OI O)) as (_ & J & EQ). pose proof (proj2 (proj2 J)) as IG. apply (VI ("ㅝ"%ch) g t); [lit|exact IG|exact S|exact GT|].
      rewrite B, F. replace (E :: t) with (syl "ㅇ"%ch "ㅓ"%ch g :: t) by (rewrite EQ, O, V; reflexivity). exact (P_u p a ("ㅝ"%ch) g t eq_refl).
    - (* Ro *) destruct B as (B & F & O & V & S). destruct (right_ok (OI O)) as (_ & J & EQ). pose proof (proj2 (proj2 J)) as IG. apply (VI ("ㅘ"%ch) g t); [lit|exact IG|exact S|exact GT|].
      rewrite B, F. replace (E :: t) with (syl "ㅇ"%ch "ㅏ"%ch g :: t) by (rewrite EQ, O, V; reflexivity). exact (P_o p a ("ㅘ"%ch) g t eq_refl).
    - (* Reu_drop *) destruct B as (L & _ & O & S). destruct R as (AV & q & x & y & EP & IX & IY). destruct (right_ok (OI O)) as (GR & J & EQ). assert (JX : jamo x y " "%ch) by (split; [exact IX|split; [exact IY|lit]]).
      apply (found_at s p (E :: t) x y (" "%ch) q S SO EP JX); [|exact GR|].
      + exists q, (syl x y " "%ch). split; [exact EP|]. split; [apply syllable_jamo, JX|]. intros q'' c' EQ'. exact (GP2 _ _ _ _ EP EQ').
      + replace stem with (q ++ [syl x y " "%ch; "으"%ch]) by (rewrite EP, L, <- app_assoc; reflexivity). rewrite O in EQ. apply (P_eu_drop q x y (" "%ch) (E :: t) v g t eq_refl AV (proj2 (proj2 J))). rewrite EQ. reflexivity.
    - (* Reu *) destruct B as (B & F & O & _ & _ & S). destruct (right_ok (OI O)) as (_ & J & EQ). apply (VI v g t); [exact (proj1 (proj2 J))|exact (proj2 (proj2 J))|exact S|exact GT|].
      rewrite B, F. replace (E :: t) with (syl "ㅇ"%ch v g :: t) by (rewrite EQ, O; reflexivity). exact (P_eu p a v g t R).
    - (* Rara_o *) destruct B as (L & _ & _ & S). assert (JP : jamo "ㅇ"%ch "ㅘ"%ch " "%ch) by (split; [lit|split; lit]). assert (PE : "와"%ch = syl "ㅇ"%ch "ㅘ"%ch " "%ch) by (vm_compute; reflexivity).
      rewrite PE, split1 in S. apply (found_at s _ _ _ _ _ p S SO eq_refl JP (left_ok _ _ _ JP) GT).
      replace stem with (p ++ [syl "ㅇ"%ch "ㅗ"%ch " "%ch]) by (rewrite L; vm_compute; reflexivity). replace (E :: t) with (syl "ㅇ"%ch "ㅏ"%ch " "%ch :: t) by (rewrite R; vm_compute; reflexivity). exact (P_o p ("ㅇ"%ch) ("ㅘ"%ch) (" "%ch) t eq_refl).
    - (* Rara_u *) destruct B as (L & _ & _ & S). assert (JP : jamo "ㅇ"%ch "ㅝ"%ch " "%ch) by (split; [lit|split; lit]). assert (PE : "워"%ch = syl "ㅇ"%ch "ㅝ"%ch " "%ch) by (vm_compute; reflexivity).
      rewrite PE, split1 in S. apply (found_at s _ _ _ _ _ p S SO eq_refl JP (left_ok _ _ _ JP) GT).
      replace stem with (p ++ [syl "ㅇ"%ch "ㅜ"%ch " "%ch]) by (rewrite L; vm_compute; reflexivity). replace (E :: t) with (syl "ㅇ"%ch "ㅓ"%ch " "%ch :: t) by (rewrite R; vm_compute; reflexivity). exact (P_u p ("ㅇ"%ch) ("ㅝ"%ch) (" "%ch) t eq_refl).
    - (* Rara_ga *) destruct R.
    - (* Rara *) destruct B as (_ & _ & _ & EE & _ & S). assert (NV : v <> " "%ch).
      { intros V. destruct (head_lone E o v g HE V) as (H & _ & _). destruct EE as [EE|EE]; rewrite EE in H; destruct H as [H|[H|[H|[H|H]]]]; discriminate H. }
      rewrite <- dark_iff in S. apply (found_plain s NV SO). destruct R as [(RE & D)|(RE & D)]; destruct S as [(D' & S)|(D' & S)]; try contradiction; rewrite RE; exact S.
    - (* Rreo *) destruct R.
    - (* Ryeo *) destruct R.
    - (* Rhae *) destruct B as (L & O & _ & S). destruct (right_ok (OI O)) as (_ & J & EQ). pose proof (proj2 (proj2 J)) as IG. assert (JP : jamo "ㅎ"%ch "ㅐ"%ch g) by (split; [lit|split; [lit|exact IG]]).
      rewrite split1 in S. apply (found_at s _ _ _ _ _ p S SO eq_refl JP (left_ok _ _ _ JP) GT). rewrite L. replace (E :: t) with (syl "ㅇ"%ch "ㅏ"%ch g :: t) by (rewrite EQ, O, R; reflexivity). exact (P_ha p ("ㅎ"%ch) ("ㅐ"%ch) g t eq_refl eq_refl).
    - (* Rh_keep *) destruct B as (_ & V & S). exact (found_plain s V SO S).
    - (* Rh_drop *) destruct B as (F & _ & _ & V & S). destruct (right_ok V) as (GR & J & EQ). apply (FI (" "%ch) (E :: t)); [lit|exact S|exact GR|]. rewrite F. exact (P_h_open p a b (" "%ch) (E :: t) eq_refl R).
    - (* Rh_contract *) destruct B as (F & _ & S). destruct R as (O & G & K). destruct (right_ok (OI O)) as (_ & J & EQ). pose proof (proj2 (proj2 J)) as IG.
      assert (W : exists w, (w = "ㅐ"%ch /\ v = "ㅏ"%ch \/ w = "ㅔ"%ch /\ v = "ㅓ"%ch) /\ s = p ++ syl a w g :: t).
      { destruct S as [(_ & V & S)|(V & S)]; [exists ("ㅐ"%ch)|exists ("ㅔ"%ch)]; (split; [|exact S]); [left|right]; (split; [reflexivity|exact V]). }
      destruct W as (w & W & S'). assert (EE : E :: t = syl "ㅇ"%ch v g :: t) by (rewrite EQ, O; reflexivity). apply (VI w g t); [destruct W as [[-> _]|[-> _]]; lit|exact IG|exact S'|exact GT|]. rewrite EE, F. destruct K as [(BV & N)|(BE & A & Q)].
      + rewrite BV. exact (P_h_contract p a w g t v G W N).
      + destruct Q as (q & Q). replace (syl a b "ㅎ"%ch) with ("렇"%ch) by (rewrite A, BE; vm_compute; reflexivity). exact (P_geureo p a w g t q v G W A Q).
    - (* Rh_n *) destruct B as (_ & _ & V & S). exact (found_plain s V SO S).
    - (* Ri *) destruct B as (B & F & O & V & S). destruct (right_ok (OI O)) as (_ & J & EQ). pose proof (proj2 (proj2 J)) as IG. apply (VI ("ㅕ"%ch) g t); [lit|exact IG|exact S|exact GT|].
      rewrite B, F. replace (E :: t) with (syl "ㅇ"%ch "ㅓ"%ch g :: t) by (rewrite EQ, O, V; reflexivity). exact (P_i p a ("ㅕ"%ch) g t R eq_refl).
    - (* Ri_keep *) destruct B as (_ & _ & O & _ & S). exact (found_plain s (OI O) SO S).
  Qed.
End RoundTrip.
