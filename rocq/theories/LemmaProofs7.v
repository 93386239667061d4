(** * Proofs about conjugate_chat and the forms of a stem *)
From Verif Require Import PyBase PyText HangleModel HangleSpec HangleProofs LemmaModel LemmaSpec LemmaProofs LemmaProofs2 LemmaProofs3.
Open Scope N_scope.
Local Opaque syl.

(** ** conjugate_chat *)
Lemma consonant_parts c : consonant c -> parts_of c = Ok (c, SP, SP).
Proof. intros C. unfold parts_of. rewrite decompose_jaum; [reflexivity|]. unfold character_is_jaum, between. destruct C. apply andb_true_iff. split; apply N.leb_le; assumption. Qed.
Lemma chat_empty stem h : conjugate_chat stem [] h = Ok [stem]. Proof. reflexivity. Qed.
Lemma chat_consonant p a b f c t cs h : jamo a b f -> consonant c -> conjugate (p ++ [syl a b f]) (c :: t) h = Ok cs ->
  conjugate_chat (p ++ [syl a b f]) (c :: t) h = do x <- compose a b c; Ok (setadd cs (p ++ x :: t)).
Proof.
  intros J C E. unfold conjugate_chat. rewrite E. cbn [bind]. rewrite at_last_app. cbn [bind]. rewrite (parts_syl _ _ _ J). cbn [bind]. rewrite (consonant_parts c C). cbn [bind fst snd].
  change (SP =? " "%ch) with true. assert (N : (c =? " "%ch) = false) by (apply N.eqb_neq; unfold consonant in C; lia). rewrite N. cbn [negb andb]. rewrite removelast_last. reflexivity.
Qed.
Lemma chat_good stem ending : good_stem stem -> good_ending ending -> exists cs, conjugate_chat stem ending false = Ok cs /\ forall s, In s cs <-> surface_of stem ending s.
Proof.
  intros GS GE. destruct (conjugate_exact stem ending GS GE) as (cs & C & S). destruct (good_stem_parts stem GS) as (p & a & b & f & -> & J & G). destruct GE as (E & t & -> & [SY|H]).
  - exists cs. split; [|exact S]. destruct (syllable_syl E SY) as (o & v & g & JE & ->). unfold conjugate_chat. rewrite C. cbn [bind]. rewrite at_last_app. cbn [bind]. rewrite (parts_syl _ _ _ J). cbn [bind]. rewrite (parts_syl _ _ _ JE). cbn [bind].
    assert (N : (v =? " "%ch) = false) by (apply N.eqb_neq; exact (SP_vowel v (proj1 (proj2 JE)))). rewrite N. reflexivity.
  - assert (CE : consonant E) by (destruct H as [-> |[-> |[-> |[-> | ->]]]]; unfold consonant; lia). assert (IE : In E finals) by (destruct H as [-> |[-> |[-> |[-> | ->]]]]; lit).
    rewrite (chat_consonant p a b f E t cs false J CE C). rewrite (compose_syl a b E) by (destruct J as (A & B & _); split; [exact A|split; [exact B|exact IE]]). cbn [bind]. eexists. split; [reflexivity|].
    intros s. rewrite setadd_In, S. split; [|intros X; left; exact X]. intros [X|X]; [exact X|]. assert (HE : head_parts E E " "%ch " "%ch) by (right; auto).
    apply (surface_of_parts p a b f E E (" "%ch) (" "%ch) t s J HE). left. exists Rfinal. split; [reflexivity|exact X].
Qed.
Definition joins (b f c : N) : Prop := In c finals /\ consonant c /\ (c = "ㅇ"%ch -> f <> "ㄷ"%ch /\ f <> "ㅂ"%ch /\ f <> "ㅅ"%ch /\ ~ (b = "ㅡ"%ch /\ f = " "%ch)).
Lemma chat_lone p a b f c t h : jamo a b f -> In c finals -> consonant c -> c <> "ㄴ"%ch -> c <> "ㄹ"%ch -> c <> "ㅁ"%ch -> c <> "ㅂ"%ch -> c <> "ㅆ"%ch ->
  (c = "ㅇ"%ch -> f <> "ㄷ"%ch /\ f <> "ㅂ"%ch /\ f <> "ㅅ"%ch /\ ~ (b = "ㅡ"%ch /\ f = " "%ch)) -> conjugate_chat (p ++ [syl a b f]) (c :: t) h = Ok [p ++ syl a b c :: t].
Proof.
  intros J I C N1 N2 N3 N4 N5 N6. assert (E : conjugate (p ++ [syl a b f]) (c :: t) h = Ok []).
  { destruct h; [rewrite (conjugate_lone_harmony p a b f c t J C)|]; exact (conjugate_lone p a b f c t J C N1 N2 N3 N4 N5 N6). }
  rewrite (chat_consonant p a b f c t [] h J C E). rewrite (compose_syl a b c) by (destruct J as (A & B & _); split; [exact A|split; [exact B|exact I]]). reflexivity.
Qed.
Lemma chat_tense p a b f c t h : jamo a b f -> c = "ㄸ"%ch \/ c = "ㅃ"%ch \/ c = "ㅉ"%ch -> conjugate_chat (p ++ [syl a b f]) (c :: t) h = Err ValueError.
Proof.
  intros J H. assert (C : consonant c) by (destruct H as [-> |[-> | ->]]; unfold consonant; lia). assert (E : conjugate (p ++ [syl a b f]) (c :: t) h = Ok []).
  { assert (X : conjugate (p ++ [syl a b f]) (c :: t) false = Ok []) by (apply conjugate_lone; try assumption; destruct H as [-> |[-> | ->]]; discriminate).
    destruct h; [rewrite (conjugate_lone_harmony p a b f c t J C)|]; exact X. }
  rewrite (chat_consonant p a b f c t [] h J C E).
  assert (X : compose a b c = Err ValueError).
  { apply (proj2 (proj1 (C03_compose_error_iff_pf a b c))). intros (_ & _ & X). apply mem_In in X. destruct H as [-> |[-> | ->]]; vm_compute in X; discriminate X. }
  rewrite X. reflexivity.
Qed.

(** ** conjugate_stem *)
Section Stem.
  Variables (p : str) (a b f : N).
  Hypothesis JL : jamo a b f.
  Hypothesis G : syl a b f = "르"%ch -> forall q c, p = q ++ [c] -> syllable c.
  Let stem := p ++ [syl a b f].
  Lemma adds_ok (l : list (N * N)) : (forall w d, In (w, d) l -> In w vowels /\ In d finals) ->
    mapM (fun abd : N * N * N => let '(a0, b0, d0) := abd in do c <- compose a0 b0 d0; Ok (removelast stem ++ [c])) (map (fun wd => (a, fst wd, snd wd)) l) = Ok (map (fun wd => p ++ [syl a (fst wd) (snd wd)]) l).
  Proof.
    unfold stem. rewrite removelast_last. induction l as [|[w d] l IH]; intros H; [reflexivity|]. cbn [map mapM fst snd]. destruct (H w d (or_introl eq_refl)) as [IW ID].
    rewrite (compose_syl a w d) by (split; [exact (proj1 JL)|split; [exact IW|exact ID]]). cbn [bind]. rewrite IH by (intros w' d' I; apply H; right; exact I). reflexivity.
  Qed.
  Lemma adds_okr (l : list (N * N)) (P : str -> Prop) : (forall w d, In (w, d) l -> In w vowels /\ In d finals) -> (forall s, P s <-> exists w d, In (w, d) l /\ s = p ++ [syl a w d]) ->
    okr (mapM (fun abd : N * N * N => let '(a0, b0, d0) := abd in do c <- compose a0 b0 d0; Ok (removelast stem ++ [c])) (map (fun wd => (a, fst wd, snd wd)) l)) P.
  Proof.
    intros H K. exists (map (fun wd => p ++ [syl a (fst wd) (snd wd)]) l). split; [apply adds_ok, H|]. intros s. rewrite K, in_map_iff. split.
    - intros ((w & d) & <- & I). exists w, d. auto.
    - intros (w & d & I & ->). exists (w, d). auto.
  Qed.
  Lemma IB : In b vowels. Proof. exact (proj1 (proj2 JL)). Qed.
  Lemma okr_ext {A} (R : res (list A)) (P Q : A -> Prop) : okr R P -> (forall s, P s <-> Q s) -> okr R Q.
  Proof. intros (l & E & H) K. exists l. split; [exact E|]. intros s. rewrite H. apply K. Qed.
  Ltac wd := intros w d I; cbn [In] in I; repeat (destruct I as [I|I]; [injection I as <- <-; split; [exact IB || lit|lit]|]); destruct I.
  (** one form *)
  Lemma okr_if1 (c : bool) (w d : N) (C : Prop) : (c = true <-> C) -> In w vowels -> In d finals ->
    okr (if c then mapM (fun abd : N * N * N => let '(a0, b0, d0) := abd in do c <- compose a0 b0 d0; Ok (removelast stem ++ [c])) [(a, w, d)] else Ok []) (fun s => C /\ s = p ++ [syl a w d]).
  Proof.
    intros HC IW ID. destruct c.
    - apply (adds_okr [(w, d)]); [intros w' d' [I|[]]; injection I as <- <-; split; [exact IW|exact ID]|]. intros s. pose proof (proj1 HC eq_refl) as K. split.
      + intros (_ & ->). exists w, d. split; [left; reflexivity|reflexivity].
      + intros (w' & d' & [I|[]] & ->). injection I as <- <-. split; [exact K|reflexivity].
    - apply okr_nil. intros s (K & _). apply HC in K. discriminate K.
  Qed.
  Lemma okr_ifl (c : bool) (w : N) (ds : list N) (C : Prop) : (c = true <-> C) -> In w vowels -> (forall d, In d ds -> In d finals) ->
    okr (if c then mapM (fun abd : N * N * N => let '(a0, b0, d0) := abd in do c <- compose a0 b0 d0; Ok (removelast stem ++ [c])) (map (fun d => (a, w, d)) ds) else Ok []) (fun s => C /\ exists d, In d ds /\ s = p ++ [syl a w d]).
  Proof.
    intros HC IW ID. destruct c.
    - assert (E : map (fun d => (a, w, d)) ds = map (fun wd => (a, fst wd, snd wd)) (map (fun d => (w, d)) ds)) by (rewrite map_map; reflexivity). rewrite E. apply adds_okr.
      + intros w' d' I. apply in_map_iff in I as (d & X & I). injection X as <- <-. split; [exact IW|exact (ID d I)].
      + intros s. pose proof (proj1 HC eq_refl) as K. split.
        * intros (_ & d & I & ->). exists w, d. split; [apply in_map_iff; exists d; split; [reflexivity|exact I]|reflexivity].
        * intros (w' & d' & I & ->). apply in_map_iff in I as (d & X & I). injection X as <- <-. split; [exact K|]. exists d. split; [exact I|reflexivity].
    - apply okr_nil. intros s (K & _). apply HC in K. discriminate K.
  Qed.
  Lemma st_d : okr (stem_d stem a b f) (fun s => f = "ㄷ"%ch /\ s = p ++ [syl a b "ㄹ"%ch]).
  Proof. exact (okr_if1 (f =? "ㄷ"%ch) b ("ㄹ"%ch) _ (N.eqb_eq _ _) IB ltac:(lit)). Qed.
  Lemma st_b : okr (stem_b stem a b f) (fun s => f = "ㅂ"%ch /\ s = p ++ [syl a b " "%ch]).
  Proof. exact (okr_if1 (f =? "ㅂ"%ch) b (" "%ch) _ (N.eqb_eq _ _) IB ltac:(lit)). Qed.
  Lemma last_stem : last stem 0 = syl a b f. Proof. apply last_app. Qed.
  Lemma st_s : okr (stem_s stem a b f) (fun s => (f = "ㅅ"%ch /\ syl a b f <> "벗"%ch) /\ s = p ++ [syl a b " "%ch]).
  Proof.
    unfold stem_s. rewrite last_stem. apply okr_if1; [|exact IB|lit]. rewrite andb_true_iff, negb_true_iff, N.eqb_neq, N.eqb_eq. split; intros X; exact X.
  Qed.
  Lemma u1 : u "ㄴㄹㅂㅆ" = ["ㄴ"%ch; "ㄹ"%ch; "ㅂ"%ch; "ㅆ"%ch]. Proof. vm_compute. reflexivity. Qed.
  Lemma u2 : u " ㅆ" = [" "%ch; "ㅆ"%ch]. Proof. vm_compute. reflexivity. Qed.
  Lemma u3 : u " ㄴㄹㅆ" = [" "%ch; "ㄴ"%ch; "ㄹ"%ch; "ㅆ"%ch]. Proof. vm_compute. reflexivity. Qed.
  Lemma fin_all ds : forallb (fun d => mem d finals) ds = true -> forall d, In d ds -> In d finals.
  Proof. intros H d I. rewrite forallb_forall in H. apply mem_In, H, I. Qed.
  Lemma st_final : okr (stem_final stem a b f) (fun s => f = " "%ch /\ exists d, one_of d (u "ㄴㄹㅂㅆ") /\ s = p ++ [syl a b d]).
  Proof. rewrite u1. unfold one_of. assert (FA : forall d, In d ["ㄴ"%ch; "ㄹ"%ch; "ㅂ"%ch; "ㅆ"%ch] -> In d finals) by (apply fin_all; vm_compute; reflexivity).
    exact (okr_ifl (f =? " "%ch) b ["ㄴ"%ch; "ㄹ"%ch; "ㅂ"%ch; "ㅆ"%ch] _ (N.eqb_eq _ _) IB FA). Qed.
  Lemma and3 (c1 c2 : bool) (P Q : Prop) : (c1 = true <-> P) -> (c2 = true <-> Q) -> (c1 && c2 = true <-> P /\ Q).
  Proof. intros A B. rewrite andb_true_iff, A, B. tauto. Qed.
  Lemma st_u : okr (stem_u stem a b f) (fun s => (b = "ㅜ"%ch /\ f = " "%ch /\ syl a b f <> "푸"%ch) /\ exists d, one_of d (u " ㅆ") /\ s = p ++ [syl a "ㅝ"%ch d]).
  Proof.
    rewrite u2. unfold one_of, stem_u. rewrite last_stem. destruct (N.eqb_spec b ("ㅜ"%ch)) as [B|B]; cbn [andb]; [|apply okr_nil; intros s ((X & _) & _); contradiction].
    destruct (N.eqb_spec f (" "%ch)) as [F|F]; [|apply okr_nil; intros s ((_ & X & _) & _); contradiction].
    destruct (N.eqb_spec (syl a b f) ("푸"%ch)) as [L|L]; [apply okr_nil; intros s ((_ & _ & X) & _); contradiction|].
    apply (okr_ifl true ("ㅝ"%ch) [" "%ch; "ㅆ"%ch] _); [|lit|apply fin_all; vm_compute; reflexivity]. split; [intros _; split; [exact B|split; [exact F|exact L]]|reflexivity].
  Qed.
  Lemma st_o : okr (stem_o stem a b f) (fun s => (b = "ㅗ"%ch /\ f = " "%ch) /\ exists d, one_of d (u " ㅆ") /\ s = p ++ [syl a "ㅘ"%ch d]).
  Proof.
    rewrite u2. assert (FA : forall d, In d [" "%ch; "ㅆ"%ch] -> In d finals) by (apply fin_all; vm_compute; reflexivity).
    exact (okr_ifl ((b =? "ㅗ"%ch) && (f =? " "%ch)) ("ㅘ"%ch) [" "%ch; "ㅆ"%ch] _ (and3 _ _ _ _ (N.eqb_eq b ("ㅗ"%ch)) (N.eqb_eq f (" "%ch))) ltac:(lit) FA).
  Qed.
  Lemma st_i : okr (stem_i stem a b f) (fun s => (b = "ㅣ"%ch /\ f = " "%ch) /\ s = p ++ [syl a "ㅕ"%ch "ㅆ"%ch]).
  Proof. exact (okr_if1 ((b =? "ㅣ"%ch) && (f =? " "%ch)) ("ㅕ"%ch) ("ㅆ"%ch) _ (and3 _ _ _ _ (N.eqb_eq b ("ㅣ"%ch)) (N.eqb_eq f (" "%ch))) ltac:(lit) ltac:(lit)). Qed.
  Lemma st_eu : okr (stem_eu stem a b f) (fun s => (b = "ㅡ"%ch /\ f = " "%ch) /\ ((exists d, one_of d (u " ㅆ") /\ s = p ++ [syl a "ㅓ"%ch d]) \/ a = "ㅇ"%ch /\ p <> [] /\ s = p)).
  Proof.
    rewrite u2. unfold one_of, stem_eu. destruct (N.eqb_spec b ("ㅡ"%ch)) as [B|B]; cbn [andb]; [|apply okr_nil; intros s ((X & _) & _); contradiction].
    destruct (N.eqb_spec f (" "%ch)) as [F|F]; [|apply okr_nil; intros s ((_ & X) & _); contradiction].
    pose proof (adds_ok [("ㅓ"%ch, " "%ch); ("ㅓ"%ch, "ㅆ"%ch)]) as A. cbn [map fst snd] in A. rewrite A by wd. cbn [bind]. unfold stem at 1. rewrite app_length. cbn [length].
    assert (LN : (1 <? length p + 1)%nat = true <-> p <> []) by (rewrite Nat.ltb_lt; destruct p; cbn [length]; split; [lia|congruence|discriminate|lia]).
    destruct (N.eqb_spec a ("ㅇ"%ch)) as [A'|A']; cbn [andb]; [destruct (1 <? length p + 1)%nat|].
    - pose proof (proj1 LN eq_refl) as NP. unfold stem. rewrite removelast_last. eexists. split; [reflexivity|]. intros s. cbn [app In]. split.
      + intros [<-|[<-|[<-|[]]]]; (split; [split; [exact B|exact F]|]); [left; exists (" "%ch); split; [left; reflexivity|reflexivity]|left; exists ("ㅆ"%ch); split; [right; left; reflexivity|reflexivity]|right; split; [exact A'|split; [exact NP|reflexivity]]].
      + intros (_ & [(d & [<-|[<-|[]]] & ->)|(_ & _ & ->)]); [left; reflexivity|right; left; reflexivity|right; right; left; reflexivity].
    - eexists. split; [reflexivity|]. intros s. cbn [In]. split.
      + intros [<-|[<-|[]]]; (split; [split; [exact B|exact F]|]); left; [exists (" "%ch); split; [left; reflexivity|reflexivity]|exists ("ㅆ"%ch); split; [right; left; reflexivity|reflexivity]].
      + intros (_ & [(d & [<-|[<-|[]]] & ->)|(_ & NP & _)]); [left; reflexivity|right; left; reflexivity|]. apply LN in NP. discriminate NP.
    - eexists. split; [reflexivity|]. intros s. cbn [In]. split.
      + intros [<-|[<-|[]]]; (split; [split; [exact B|exact F]|]); left; [exists (" "%ch); split; [left; reflexivity|reflexivity]|exists ("ㅆ"%ch); split; [right; left; reflexivity|reflexivity]].
      + intros (_ & [(d & [<-|[<-|[]]] & ->)|(X & _)]); [left; reflexivity|right; left; reflexivity|]. contradiction.
  Qed.
  Lemma st_ha : okr (stem_ha stem) (fun s => syl a b f = "하"%ch /\ (s = p ++ ["해"%ch] \/ s = p ++ ["했"%ch])).
  Proof.
    unfold stem_ha. rewrite last_stem. destruct (N.eqb_spec (syl a b f) ("하"%ch)) as [L|L]; [|apply okr_nil; intros s (X & _); contradiction]. unfold stem. rewrite removelast_last.
    apply okr_two. intros s. split; [intros (_ & X); exact X|]. intros X. split; [exact L|exact X].
  Qed.
  Lemma st_h : okr (stem_h stem a b f) (fun s => (f = "ㅎ"%ch /\ syl a b f <> "좋"%ch) /\ ((exists d, one_of d (u " ㄴㄹㅆ") /\ s = p ++ [syl a b d]) \/ s = p ++ [syl a "ㅐ"%ch "ㅆ"%ch])).
  Proof.
    rewrite u3. unfold one_of, stem_h. rewrite last_stem. destruct (N.eqb_spec f ("ㅎ"%ch)) as [F|F]; cbn [andb]; [|apply okr_nil; intros s ((X & _) & _); contradiction].
    destruct (N.eqb_spec (syl a b f) ("좋"%ch)) as [L|L]; cbn [negb]; [apply okr_nil; intros s ((_ & X) & _); contradiction|].
    pose proof (adds_ok [(b, " "%ch); (b, "ㄴ"%ch); (b, "ㄹ"%ch); (b, "ㅆ"%ch); ("ㅐ"%ch, "ㅆ"%ch)]) as A. cbn [map fst snd] in A. eexists. split; [apply A|].
    { intros w d I. cbn [In] in I. destruct I as [I|[I|[I|[I|[I|[]]]]]]; injection I as <- <-; [split; [exact IB|lit]|split; [exact IB|lit]|split; [exact IB|lit]|split; [exact IB|lit]|split; lit]. }
    intros s. cbn [In]. split.
    - intros [<-|[<-|[<-|[<-|[<-|[]]]]]]; (split; [split; [exact F|exact L]|]); [left; exists (" "%ch); split; [left; reflexivity|reflexivity]|left; exists ("ㄴ"%ch); split; [right; left; reflexivity|reflexivity]|left; exists ("ㄹ"%ch); split; [right; right; left; reflexivity|reflexivity]|left; exists ("ㅆ"%ch); split; [do 3 right; left; reflexivity|reflexivity]|right; reflexivity].
    - intros (_ & [(d & [<-|[<-|[<-|[<-|[]]]]] & ->)| ->]); [left; reflexivity|right; left; reflexivity|right; right; left; reflexivity|do 3 right; left; reflexivity|do 4 right; left; reflexivity].
  Qed.
  Lemma st_reu : okr (stem_reu stem) (fun s => exists q x y z, p = q ++ [syl x y z] /\ jamo x y z /\ syl a b f = "르"%ch /\ s = q ++ [syl x y "ㄹ"%ch]).
  Proof.
    unfold stem_reu. rewrite last_stem. destruct (N.eqb_spec (syl a b f) ("르"%ch)) as [L|L]; cbn [andb]; [|apply okr_nil; intros s (q & x & y & z & _ & _ & X & _); contradiction].
    destruct (snoc_case p) as [EP|(q & c & EP)].
    - unfold stem. rewrite EP. cbn [app length]. change (2 <=? 1)%nat with false. cbv iota. apply okr_nil. intros s (q & x & y & z & X & _). destruct q; discriminate X.
    - pose proof (G L q c EP) as S. destruct (syllable_syl c S) as (x & y & z & J & EC). assert (ES : stem = q ++ [c; "르"%ch]) by (unfold stem; rewrite EP, L, <- app_assoc; reflexivity).
      assert (LN : (2 <=? length stem)%nat = true) by (rewrite ES, app_length; apply Nat.leb_le; cbn [length]; lia). rewrite LN, ES, but_last_two_app. unfold at_last2. rewrite rev_app_distr. cbn [rev app bind].
      rewrite EC, (parts_syl _ _ _ J). cbn [bind]. rewrite (compose_syl x y "ㄹ"%ch) by (split; [exact (proj1 J)|split; [exact (proj1 (proj2 J))|lit]]). cbn [bind]. apply okr_one. intros s. split.
      + intros (q' & x' & y' & z' & X & J' & _ & ->). rewrite EP in X. apply app_inj_tail in X as [<- X]. rewrite EC in X. destruct (syl_inj _ _ _ _ _ _ J J' X) as (<- & <- & _). reflexivity.
      + intros ->. exists q, x, y, z. split; [rewrite EP, EC; reflexivity|]. split; [exact J|]. split; [exact L|reflexivity].
  Qed.
  Lemma stem_exact : exists cs, conjugate_stem stem = Ok cs /\ forall s, In s cs <-> stem_surface p a b f s.
  Proof.
    destruct st_d as (c1 & E1 & S1). destruct st_reu as (c2 & E2 & S2). destruct st_b as (c3 & E3 & S3). destruct st_final as (c4 & E4 & S4). destruct st_s as (c5 & E5 & S5).
    destruct st_u as (c6 & E6 & S6). destruct st_o as (c7 & E7 & S7). destruct st_eu as (c8 & E8 & S8). destruct st_ha as (c9 & E9 & S9). destruct st_h as (c10 & E10 & S10). destruct st_i as (c11 & E11 & S11).
    unfold conjugate_stem, stem. rewrite at_last_app. cbn [bind]. rewrite (parts_syl _ _ _ JL). cbn [bind fst snd]. fold stem. unfold stem_rules.
    rewrite E1, E2, E3, E4, E5, E6, E7, E8, E9, E10, E11. cbn [run_rules bind]. eexists. split; [reflexivity|].
    intros s. rewrite !setupdate_In. unfold stem, stem_surface. cbv zeta.
    assert (K : forall A0 A1 A2 A3 A4 A5 A6 A7 A8 A9 A10 A11 : Prop, (((((((((((A0 \/ A1) \/ A2) \/ A3) \/ A4) \/ A5) \/ A6) \/ A7) \/ A8) \/ A9) \/ A10) \/ A11) <-> A0 \/ A1 \/ A2 \/ A3 \/ A4 \/ A5 \/ A6 \/ A7 \/ A8 \/ A9 \/ A10 \/ A11) by (clear; intros; tauto).
    assert (OC : forall A B A' B' : Prop, (A <-> A') -> (B <-> B') -> (A \/ B <-> A' \/ B')) by (clear; intros; tauto).
    assert (A3 : forall P Q R : Prop, (P /\ Q) /\ R <-> P /\ Q /\ R) by (clear; intros; tauto). assert (A4 : forall P Q R T : Prop, (P /\ Q /\ R) /\ T <-> P /\ Q /\ R /\ T) by (clear; intros; tauto).
    eapply iff_trans; [apply K|].
    apply OC; [cbn [In]; split; [intros [X|[]]; symmetry; exact X|intros X; left; symmetry; exact X]|].
    apply OC; [exact (S1 s)|]. apply OC; [exact (S2 s)|]. apply OC; [exact (S3 s)|]. apply OC; [exact (S4 s)|].
    apply OC; [exact (iff_trans (S5 s) (A3 _ _ _))|]. apply OC; [exact (iff_trans (S6 s) (A4 _ _ _ _))|]. apply OC; [exact (iff_trans (S7 s) (A3 _ _ _))|]. apply OC; [exact (iff_trans (S8 s) (A3 _ _ _))|].
    apply OC; [exact (S9 s)|]. apply OC; [exact (iff_trans (S10 s) (A3 _ _ _))|]. exact (iff_trans (S11 s) (A3 _ _ _)).
  Qed.
End Stem.
