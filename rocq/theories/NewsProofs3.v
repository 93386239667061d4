(** * Proofs about NewsNounExtractor: the rules on endings *)
From Coq Require Import QArith Permutation Lqa.
From Verif Require Import PyBase PyDict CountLemmas QLemmas PyText HangleModel HangleProofs UtilsModel UtilsSpec UtilsProofs UtilsProofs2 NounModel NounSpec NounProofs NounProofs2 VectorizerSpec VectorizerProofs3 JosaProofs NounV1Model NounV1Proofs NounV1Proofs3 NewsModel NewsSpec NewsProofs NewsProofs2.
Open Scope Z_scope.

Fixpoint nodups (l : list str) : bool := match l with [] => true | x :: l' => negb (mem x l') && nodups l' end.
Lemma nodups_NoDup l : nodups l = true -> NoDup l.
Proof.
  induction l as [|x l IH]; intros H; [constructor|]. cbn [nodups] in H. apply andb_true_iff in H as [H1 H2]. constructor; [|apply IH, H2].
  intros I. apply (proj2 (mem_In _ _)) in I. rewrite I in H1. discriminate.
Qed.
(** ** endings *)
Lemma ending (l s : str) : skipn (length l - length s) l = s <-> exists a, l = a ++ s.
Proof.
  split.
  - intros E. exists (firstn (length l - length s) l). transitivity (firstn (length l - length s) l ++ skipn (length l - length s) l); [symmetry; apply firstn_skipn|]. f_equal. exact E.
  - intros (a & ->). rewrite app_length. replace (length a + length s - length s)%nat with (length a) by lia. apply skipn_pre.
Qed.
Lemma ends_k (l : str) k ss : (forall s, In s ss -> length s = k) -> (mem (skipn (length l - k) l) ss = true <-> ends_with l ss).
Proof.
  intros K. rewrite mem_In. unfold ends_with. split.
  - intros I. exists (firstn (length l - k) l), (skipn (length l - k) l). rewrite firstn_skipn. auto.
  - intros (a & s & E & I). rewrite <- (K s I). rewrite (proj2 (ending l s)) by (exists a; exact E). exact I.
Qed.
Lemma ends_one (l : str) k s : length s = k -> (eqb (skipn (length l - k) l) s = true <-> ends_with l [s]).
Proof.
  intros K. rewrite <- (ends_k l k [s]) by (intros x [<-|[]]; exact K). unfold mem. cbn [existsb]. rewrite orb_false_r. split; intros E; apply eqb_eq in E; apply eqb_eq; congruence.
Qed.
Lemma last_split (l : str) : l <> [] -> exists a x, l = a ++ [x].
Proof. intros H. destruct (exists_last H) as (a & x & E). eauto. Qed.
Lemma drop_app (a s : str) : drop_last (length s) (a ++ s) = a.
Proof. unfold drop_last. rewrite app_length. replace (length a + length s - length s)%nat with (length a) by lia. apply firstn_pre. Qed.

(** ** syllables with ㅎ *)
Lemma h_decompose x : match decompose x with Some (a, _, _) => N.eqb a (ch "ㅎ") | None => false end = true <-> x = 12622%N \/ (54616 <= x <= 55203)%N.
Proof.
  change (ch "ㅎ") with 12622%N. destruct (character_is_complete_korean x) eqn:K.
  - destruct (decompose_syllable x K) as (a & b & d & i & j & k & E & A & B & D & X). rewrite E. apply index_of_bound in B as B'. apply index_of_bound in D as D'. change (N.of_nat (length jungsung_list)) with 21%N in B'. change (N.of_nat (length jongsung_list)) with 28%N in D'.
    unfold kor_begin, chosung_base, jungsung_base in X. apply index_of_bound in A as A'. change (N.of_nat (length chosung_list)) with 19%N in A'.
    assert (I : a = 12622%N <-> i = 18%N).
    { split; intros H.
      - subst a. assert (Z : index_of chosung_list 12622%N = Ok 18%N) by (vm_compute; reflexivity). congruence.
      - subst i. pose proof (index_of_spec chosung_list a) as S. rewrite A in S. vm_compute in S. congruence. }
    rewrite N.eqb_eq, I. unfold kor_begin in *. lia.
  - destruct (character_is_jaum x) eqn:J.
    + rewrite (decompose_jaum x J), N.eqb_eq. unfold character_is_jaum, between, jaum_begin, jaum_end in J. apply andb_true_iff in J as [J1 J2]. apply N.leb_le in J1. apply N.leb_le in J2. lia.
    + assert (H : match decompose x with Some (a, _, _) => N.eqb a 12622 | None => false end = false).
      { destruct (character_is_moum x) eqn:M; [rewrite (decompose_moum x M); reflexivity|]. rewrite decompose_other; [reflexivity|]. unfold character_is_korean. unfold character_is_complete_korean in K. unfold character_is_jaum in J. unfold character_is_moum in M. rewrite K, J, M. reflexivity. }
      rewrite H. split; [discriminate|]. unfold character_is_complete_korean, character_is_jaum, between, kor_begin, kor_end, jaum_begin, jaum_end in *. intros [->|X]; [discriminate|].
      apply andb_false_iff in K as [K|K]; apply N.leb_gt in K; lia.
Qed.

Lemma occ_list_filter (rs B : list str) : NoDup rs -> Zsum (fun r => occ r B) rs = len (filter (fun x => mem x rs) B).
Proof.
  intros ND. induction B as [|x B IH].
  - cbn [filter]. apply Zsum_zero. reflexivity.
  - rewrite (Zsum_ext _ (fun r => occ r B + (if eqb r x then 1 else 0))) by (intros r _; unfold occ at 1; cbn [Zsum]; fold (occ r B); lia). rewrite Zsum_add, IH.
    assert (E : Zsum (fun r => if eqb r x then 1 else 0) rs = if mem x rs then 1 else 0).
    { rewrite <- (occ_NoDup x rs ND). unfold occ. apply Zsum_ext. intros r _. destruct (eqb_spec r x) as [->|n]; [rewrite eqb_refl; reflexivity|]. replace (eqb x r) with false by (symmetry; apply eqb_neq; congruence). reflexivity. }
    rewrite E. cbn [filter]. unfold len. destruct (mem x rs); cbn [length]; lia.
Qed.

Section Rules.
  Variables (c : nwconf) (st : nwstate) (W : list str).
  Let coef := w_coef c.
  Let lm := w_lm c.
  Let rm := w_rm c.
  Let verbs : str -> Prop := fun x => In x (w_verbs c).
  Hypothesis T : trained lm rm W st.
  Notation aft := (after lm rm W).
  Notation fr := (freq lm rm W).

  Lemma row_get l r : dgetd (row st l) r 0 = occ r (aft l).
  Proof. destruct (proj1 T l) as [_ G]. unfold dgetd. rewrite G. pose proof (occ_nonneg r (aft l)). destruct (Z.ltb_spec 0 (occ r (aft l))); lia. Qed.
  Lemma half_spec l rs : NoDup rs -> (more_than_half st l rs = true <-> more_than (1 # 2) (fun r => In r rs) (aft l)).
  Proof.
    intros ND. unfold more_than_half. rewrite gtb_iff. rewrite (more_than_b (1 # 2) (fun r => In r rs) (fun x => mem x rs)) by (intros x _; apply mem_In). rewrite <- (occ_list_filter rs (aft l) ND).
    assert (E : forall a, (fold_left (fun a r => a + prop_r st l r) rs a == a + zq (Zsum (fun r => occ r (aft l)) rs) / zq (len (aft l)))%Q).
    { clear ND. induction rs as [|r rs IH]; intros a; cbn [fold_left Zsum].
      - unfold zq, Qdiv. change (inject_Z 0) with 0%Q. ring.
      - rewrite IH. unfold prop_r. rewrite (counts_total _ _ (proj1 T l)), row_get. destruct (Z.eqb_spec (len (aft l)) 0) as [E|E].
        + rewrite E. unfold zq, Qdiv. change (/ inject_Z 0)%Q with 0%Q. ring.
        + unfold qdiv, zq. rewrite inject_Z_plus. field. intros X. change 0%Q with (inject_Z 0) in X. rewrite inject_Z_injective in X. contradiction. }
    rewrite E. setoid_replace (0 + zq (Zsum (fun r => occ r (aft l)) rs) / zq (len (aft l)))%Q with (zq (Zsum (fun r => occ r (aft l)) rs) / zq (len (aft l)))%Q by ring.
    apply share_gt; [discriminate|]. rewrite (occ_list_filter rs (aft l) ND). apply len_filter.
  Qed.
  Lemma drops_spec l : l <> [] -> (negb (Qle_bool (8 # 10) (droprate st l)) = true <-> drops lm rm W l).
  Proof.
    intros NE. destruct (last_split l NE) as (a & x & ->). unfold droprate. change 1%nat with (length [x]) at 1. rewrite drop_app. destruct T as (_ & TF & _ & TL & _). rewrite TL, TF, gtb_iff. pose proof (freq_nonneg c W a) as P. fold lm rm in P. unfold drops. split.
    - intros H. exists a, x. split; [reflexivity|]. destruct (Z.ltb_spec 0 (fr a)); [right; exact H|left; lia].
    - intros (a' & x' & E & H). apply app_inj_tail in E as [<- _]. destruct (Z.ltb_spec 0 (fr a)); [|reflexivity]. destruct H as [H|H]; [lia|exact H].
  Qed.

  Section Known.
    Variables (nd : dict str nval) (N : str -> Prop).
    Hypothesis HN : forall x, dmem nd x = true <-> N x.
    Variables (ns : dict str nscore) (Sc : str -> Prop).
    Hypothesis HS : forall x, dmem ns x = true <-> Sc x.
    Let K : str -> Prop := fun x => Sc x \/ N x.
    Let KI x : known ns nd x = true <-> K x := known_iff nd N HN ns Sc HS x.

    Lemma suffix_spec l : l <> [] -> (suffix_filter c st ns nd l = true <-> ~ bad_suffix lm rm verbs W K l).
    Proof.
      intros NE. unfold suffix_filter, bad_suffix.
      assert (F : forall (b : bool) (P R : Prop) (k : bool), (b = true <-> P) -> (k = true <-> ~ R) -> ((if b then false else k) = true <-> ~ (P \/ R))).
      { intros b P R k HB HK. destruct b; [split; [discriminate|intros X; exfalso; apply X; left; apply HB; reflexivity]|]. rewrite HK. split; [|tauto]. intros X [Y|Y]; [|tauto]. apply HB in Y. discriminate. }
      assert (ANDB : forall (b1 b2 : bool) (P Q : Prop), (b1 = true <-> P) -> (b2 = true <-> Q) -> (b1 && b2 = true <-> P /\ Q)) by (intros b1 b2 P Q <- <-; apply andb_true_iff).
      unfold last1, last2. apply F; [apply mem_In|]. apply F; [apply ends_k; intros s [<-|[<-|[<-|[<-|[]]]]]; reflexivity|].
      apply F; [apply ANDB; [apply ends_one; reflexivity|apply half_spec; apply nodups_NoDup; vm_compute; reflexivity]|].
      apply F; [apply ANDB; [apply ends_one; reflexivity|apply half_spec; constructor; [tauto|constructor]]|].
      apply F; [apply ANDB; [apply ends_one; reflexivity|apply half_spec; apply nodups_NoDup; vm_compute; reflexivity]|].
      change [u "인"; u "은"; u "의"; u "와"; u "과"; u "들이"; u "들은"; u "들도"; u "들을"] with ([u "인"; u "은"; u "의"; u "와"; u "과"] ++ [u "들이"; u "들은"; u "들도"; u "들을"]).
      set (A := [u "인"; u "은"; u "의"; u "와"; u "과"]). set (B := [u "들이"; u "들은"; u "들도"; u "들을"]).
      assert (EA : ends_with l (A ++ B) <-> ends_with l A \/ ends_with l B).
      { unfold ends_with. split; [intros (a & s & E & I); apply in_app_iff in I as [I|I]; [left|right]; eauto|intros [(a & s & E & I)|(a & s & E & I)]; exists a, s; split; try exact E; apply in_app_iff; auto]. }
      assert (FIN : (if eqb (skipn (length l - 2) l) (u "으로") && ((length l =? 3)%nat || known ns nd (drop_last 2 l)) then false else true) = true <-> ~ exists a, l = a ++ u "으로" /\ (length l = 3%nat \/ K a)).
      { destruct (eqb (skipn (length l - 2) l) (u "으로")) eqn:EE; cbn [andb].
        - assert (X : exists a, l = a ++ u "으로") by (apply ending; apply eqb_eq in EE; exact EE). destruct X as (a & ->). rewrite (drop_app a (u "으로") : drop_last 2 (a ++ u "으로") = a). destruct (Nat.eqb_spec (length (a ++ u "으로")) 3) as [L3|L3]; cbn [orb].
          + split; [discriminate|]. intros X. exfalso. apply X. exists a. auto.
          + destruct (known ns nd a) eqn:KA.
            * split; [discriminate|]. intros X. exfalso. apply X. exists a. split; [reflexivity|]. right. apply KI, KA.
            * split; [|reflexivity]. intros _ (a' & E & [X|X]); [contradiction|]. apply app_inv_tail in E. subst a'. apply KI in X. congruence.
        - split; [|reflexivity]. intros _ (a & E & _). assert (X : skipn (length l - length (u "으로")) l = u "으로") by (apply ending; exists a; exact E). change (length (u "으로")) with 2%nat in X. apply eqb_neq in EE. contradiction. }
      assert (D1 : mem (skipn (length l - 1) l) A && negb (Qle_bool (8 # 10) (droprate st l)) = true <-> ends_with l A /\ drops lm rm W l).
      { apply ANDB; [apply ends_k; intros s [<-|[<-|[<-|[<-|[<-|[]]]]]]; reflexivity|apply drops_spec, NE]. }
      assert (D2 : mem (skipn (length l - 2) l) B && negb (Qle_bool (8 # 10) (droprate st l)) = true <-> ends_with l B /\ drops lm rm W l).
      { apply ANDB; [apply ends_k; intros s [<-|[<-|[<-|[<-|[]]]]]; reflexivity|apply drops_spec, NE]. }
      rewrite (F _ _ _ _ D1 (F _ _ _ _ D2 FIN)). rewrite EA. tauto.
    Qed.

    Lemma dang_spec l : l <> [] -> (dang_hada_filter st ns nd l = true <-> not_hada lm rm W K l).
    Proof.
      intros NE. destruct (last_split l NE) as (a & x & EL). unfold dang_hada_filter, not_hada.
      assert (L1 : eqb (last1 l) (u "당") = true <-> ends_with l [u "당"]) by (apply ends_one; reflexivity).
      assert (D1 : drop_last 1 l = a) by (subst l; change 1%nat with (length [x]); apply drop_app). rewrite D1.
      assert (C1 : negb (eqb (last1 l) (u "당")) && known ns nd a = true <-> ~ ends_with l [u "당"] /\ exists a x, l = a ++ [x] /\ K a).
      { rewrite andb_true_iff, negb_true_iff, KI, <- L1, not_true_iff_false. split; [intros [H1 H2]; split; [exact H1|]; exists a, x; auto|]. intros [H1 (a' & x' & E & H2)]. rewrite EL in E. apply app_inj_tail in E as [<- _]. auto. }
      destruct (negb (eqb (last1 l) (u "당")) && known ns nd a) eqn:B; [split; [intros _; left; apply C1; reflexivity|reflexivity]|].
      assert (NC : ~ (~ ends_with l [u "당"] /\ exists a x, l = a ++ [x] /\ K a)) by (intros X; apply C1 in X; discriminate). clear C1 B. cbv zeta.
      assert (BS : Zsum (fun rc : str * Z => if snd rc =? 0 then 0 else snd rc) (row st l) = fr l).
      { rewrite (Zsum_ext _ snd) by (intros [r n] _; cbn [snd]; destruct (Z.eqb_spec n 0); lia). apply (counts_total _ _ (proj1 T l)). }
      rewrite BS. pose proof (freq_nonneg c W l) as FN. fold lm rm in FN. destruct (Z.leb_spec (fr l) 0) as [F0|F0]; [split; [intros _; right; left; lia|reflexivity]|].
      set (hb := fun r : str => match r with [] => false | x :: _ => match decompose x with Some (a, _, _) => N.eqb a (ch "ㅎ") | None => false end end).
      assert (HB : forall r, hb r = true <-> h_initial r).
      { intros [|y r]; cbn [hb]; [split; [discriminate|intros (? & ? & X & _); discriminate]|]. rewrite h_decompose. unfold h_initial. split; [intros H; exists y, r; auto|intros (y' & r' & E & H); injection E as <- <-; exact H]. }
      rewrite (Zsum_ext _ (fun rc => if hb (fst rc) then snd rc else 0)).
      2:{ intros [r n] _. cbn [fst snd]. destruct r as [|y r]; cbn [hb]; [reflexivity|]. destruct (decompose y) as [[[? ?] ?]|]; reflexivity. }
      rewrite (counts_Zsum _ _ hb (proj1 T l)), gtb_iff. unfold qdiv. fold (zq (len (filter hb (aft l)))). fold (zq (fr l)).
      rewrite (at_least_b (1 # 2) h_initial hb) by (intros r _; apply HB). fold (fr l). rewrite <- (ratio_ge (1 # 2) _ (fr l) F0). split.
      - intros H. right. right. lra.
      - intros [H|[H|H]]; [contradiction|lia|]. apply Qnot_le_lt, H.
    Qed.
    Lemma unijosa_spec l s : dget ns l = Some s -> predicted coef lm rm W l s -> (unijosa_filter c st ns nd l = true <-> typical coef lm rm W K l).
    Proof.
      intros G (_ & EF & _ & _ & EP & _). unfold unijosa_filter, typical. rewrite G, EF, EP. destruct (Z.leb_spec (fr l) 10) as [F|F]; cbn [andb]; [|split; [intros _; lia|reflexivity]]. destruct (Z.leb_spec (n_positive coef lm rm W l) 1) as [P|P]; [|split; [intros _ _; lia|reflexivity]].
      set (ne := fun r : str => negb (eqb r [])). set (tb := fun r : str => mem (firstn 2 r) news_pass || is_NJ c ns nd r).
      assert (TB : forall r, tb r = true <-> In (firstn 2 r) news_pass \/ noun_josa coef K r) by (intros r; unfold tb; rewrite orb_true_iff, (is_NJ_spec c nd N HN ns Sc HS); split; (intros [H|H]; [left|right; exact H]); apply mem_In; exact H).
      assert (E : (fun r => negb (eqb r [])) = ne) by reflexivity.
      assert (MT : more_than (1 # 2) (fun r => In (firstn 2 r) news_pass \/ noun_josa coef K r) (filter ne (aft l)) <-> (1 # 2 < zq (len (filter tb (filter ne (aft l)))) / zq (len (filter ne (aft l))))%Q).
      { rewrite (more_than_b (1 # 2) _ tb) by (intros r _; apply TB). symmetry. apply share_gt; [discriminate|apply len_filter]. }
      transitivity (1 # 2 < zq (len (filter tb (filter ne (aft l)))) / zq (len (filter ne (aft l))))%Q; [|rewrite <- MT; split; [intros H _ _; exact H|intros H; apply H; assumption]].
      pose proof (proj1 T l) as CT. destruct (row st l) as [|rc0 d0] eqn:R.
      - assert (B : aft l = []) by (apply (counts_nil [] (aft l) CT); reflexivity). rewrite B. cbn. split; [discriminate|]. intros H. vm_compute in H. discriminate.
      - rewrite <- R in *. clear rc0 d0 R.
        rewrite (Zsum_ext (fun rc : str * Z => match fst rc with [] => 0 | _ :: _ => snd rc end) (fun rc => if ne (fst rc) then snd rc else 0)) by (intros [[|y r] n] _; reflexivity).
        rewrite (Zsum_ext (fun rc : str * Z => match fst rc with [] => 0 | r => if mem (firstn 2 r) news_pass || is_NJ c ns nd r then snd rc else 0 end) (fun rc => if ne (fst rc) && tb (fst rc) then snd rc else 0)) by (intros [[|y r] n] _; reflexivity).
        rewrite (counts_Zsum _ _ ne CT), (counts_Zsum _ _ (fun r => ne r && tb r) CT), filter_and, gtb_iff. unfold qdiv.
        destruct (Z.eqb_spec (len (filter ne (aft l))) 0) as [E0|_]; [|reflexivity]. rewrite E0. unfold zq, Qdiv. change (/ inject_Z 0)%Q with 0%Q. rewrite Qmult_0_r. reflexivity.
    Qed.
  End Known.
End Rules.
