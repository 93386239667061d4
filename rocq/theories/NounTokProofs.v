(** * Proofs about NounLMatchTokenizer (C24) and NounMatchTokenizer (C25) *)
From Coq Require Import QArith Lqa.
From Verif Require Import PyBase PyDict PySort SortLemmas PyText TokenizerModel TokenizerSpec QLemmas MaxScoreProofs MaxScoreProofs2 RegexTokProofs.
Open Scope nat_scope.

Section NounL.
  Variable is_noun : str -> bool.
  Hypothesis not_empty : is_noun [] = false.
  Variable token : str.
  Let n := length token.
  Notation cnd := (str * nat * nat)%type.
  Definition cb (x : cnd) := snd (fst x).
  Definition cl (x : cnd) := snd x.

  Lemma nl_In x : In x (nl_candidates is_noun token) <-> exists b e, b < e <= n /\ is_noun (slice b e token) = true /\ x = (slice b e token, b, e - b).
  Proof.
    unfold nl_candidates. rewrite in_flat_map. split.
    - intros (b & Ib & I). apply in_flat_map in I as (e & Ie & I). apply in_seq in Ib, Ie. fold n in Ib, Ie.
      destruct (is_noun (slice b e token)) eqn:E; [|destruct I]. destruct I as [<-|[]]. exists b, e. split; [|auto].
      destruct (Nat.eq_dec b e) as [->|N]; [rewrite slice_nil in E; congruence|lia].
    - intros (b & e & L & E & ->). exists b. split; [apply in_seq; fold n; lia|]. apply in_flat_map. exists e. split; [apply in_seq; fold n; lia|].
      rewrite E. left. reflexivity.
  Qed.
  Lemma nl_le_iff x y : nl_le x y = true <-> cb x < cb y \/ cb x = cb y /\ cl y <= cl x.
  Proof. destruct x as [[? bx] lx], y as [[? by_] ly]. unfold nl_le, cb, cl. simpl. qb. reflexivity. Qed.
  Lemma nl_le_total x y : nl_le x y = true \/ nl_le y x = true.
  Proof. rewrite !nl_le_iff. lia. Qed.
  Lemma nl_le_trans x y z : nl_le x y = true -> nl_le y z = true -> nl_le x z = true.
  Proof. rewrite !nl_le_iff. lia. Qed.

  Let C (e : nat) := filter (fun x : cnd => e <=? snd (fst x)) (sort nl_le (nl_candidates is_noun token)).
  Lemma C_In e x : In x (C e) <-> exists b q, e <= b /\ b < q <= n /\ is_noun (slice b q token) = true /\ x = (slice b q token, b, q - b).
  Proof.
    unfold C. rewrite filter_In, sort_In, nl_In. split.
    - intros ((b & q & L & E & ->) & H). simpl in H. qb. exists b, q. auto.
    - intros (b & q & H & L & E & ->). split; [eauto|]. simpl. qb. exact H.
  Qed.
  Lemma C_sorted e : StronglySorted (fun x y => nl_le x y = true) (C e).
  Proof. apply SS_filter. apply sort_sorted; [apply nl_le_total|apply nl_le_trans]. Qed.
  Lemma filter_filter_le {A} (f g : A -> bool) l : (forall x, g x = true -> f x = true) -> filter g (filter f l) = filter g l.
  Proof.
    intros H. induction l as [|x l IH]; simpl; [reflexivity|]. destruct (f x) eqn:F; simpl; [rewrite IH; reflexivity|].
    destruct (g x) eqn:G; [rewrite H in F by exact G; discriminate|exact IH].
  Qed.

  Lemma nl_loop_chain fuel : forall e, e <= n -> length (C e) <= fuel -> exists q, longest_chain is_noun token e (nl_loop fuel (C e) e) q /\ e <= q <= n.
  Proof.
    induction fuel as [|fuel IH]; intros e Le Lf.
    - destruct (C e) eqn:EC; [|simpl in Lf; lia]. simpl. exists e. split; [|lia]. constructor. intros q Lq.
      destruct (is_noun (slice e q token)) eqn:E; [|reflexivity]. assert (I : In (slice e q token, e, q - e) (C e)) by (apply C_In; exists e, q; auto).
      rewrite EC in I. destruct I.
    - pose proof (C_In e) as CI. pose proof (C_sorted e) as CS. destruct (C e) as [|[[w b] len] rest] eqn:EC.
      + simpl. exists e. split; [|lia]. constructor. intros q Lq. destruct (is_noun (slice e q token)) eqn:E; [|reflexivity].
        assert (I : In (slice e q token, e, q - e) []) by (apply CI; exists e, q; auto). destruct I.
      + assert (Hd : In (w, b, len) ((w, b, len) :: rest)) by (left; reflexivity). apply CI in Hd as (b' & q & Lb & Lq & E & X). injection X as -> -> ->.
        inversion CS as [|? ? CS' F]; subst. rewrite Forall_forall in F.
        cbn [nl_loop]. destruct (Nat.eqb_spec b' e) as [->|N]; cbn [negb].
        * replace (e + (q - e)) with q by lia.
          assert (Er : filter (fun x : cnd => q <=? snd (fst x)) rest = C q).
          { transitivity (filter (fun x : cnd => q <=? snd (fst x)) (C e)).
            - rewrite EC. simpl. destruct (Nat.leb_spec q e); [lia|]. reflexivity.
            - unfold C. apply filter_filter_le. intros x H. qb. lia. }
          rewrite Er. destruct (IH q) as (z & Z1 & Z2); [lia| |].
          { rewrite <- Er. simpl in Lf. clear - Lf. assert (length (filter (fun x : cnd => q <=? snd (fst x)) rest) <= length rest); [|lia].
            clear. induction rest as [|y r IH]; simpl; [lia|]. destruct (q <=? snd (fst y)); simpl; lia. }
          exists z. split; [|lia]. constructor; auto. intros e' Le'. destruct (is_noun (slice e e' token)) eqn:E'; [|reflexivity]. exfalso.
          assert (I : In (slice e e' token, e, e' - e) ((slice e q token, e, q - e) :: rest)) by (apply CI; exists e, e'; repeat split; auto; lia).
          destruct I as [I|I]; [injection I; lia|]. apply F, nl_le_iff in I. unfold cb, cl in I. simpl in I. lia.
        * exists e. split; [|lia]. constructor. intros e' Le'. destruct (is_noun (slice e e' token)) eqn:E'; [|reflexivity]. exfalso.
          assert (I : In (slice e e' token, e, e' - e) ((slice b' q token, b', q - b') :: rest)) by (apply CI; exists e, e'; repeat split; auto; lia).
          destruct I as [I|I]; [injection I; lia|]. apply F, nl_le_iff in I. unfold cb, cl in I. simpl in I. lia.
  Qed.

  Lemma chain_text p ws q : longest_chain is_noun token p ws q -> p <= n -> concat ws = slice p q token /\ p <= q <= n.
  Proof.
    induction 1 as [p _|p e ws q L E M LC IH]; intros Lp; simpl; [rewrite slice_nil; split; [reflexivity|lia]|].
    destruct IH as [IH1 IH2]; [fold n in L; lia|]. rewrite IH1. fold n in L. split; [apply slice_app; lia|lia].
  Qed.
  Lemma chain_unique p ws q : longest_chain is_noun token p ws q -> forall ws' q', longest_chain is_noun token p ws' q' -> ws' = ws /\ q' = q.
  Proof.
    induction 1 as [p Z|p e ws q L E M LC IH]; intros ws' q' LC'; inversion LC' as [? Z'|? e' ? ? L' E' M' LC'']; subst.
    - auto.
    - rewrite Z in E' by exact L'. discriminate.
    - rewrite Z' in E by exact L. discriminate.
    - assert (e' = e). { destruct (Nat.lt_trichotomy e e') as [H|[H|H]]; [rewrite M in E' by lia; discriminate|auto|rewrite M' in E by lia; discriminate]. }
      subst e'. destruct (IH _ _ LC'') as [-> ->]. auto.
  Qed.

  Lemma nl_tokenize1_spec : exists ws q, nl_tokenize1 is_noun token = (ws, skipn q token) /\ longest_chain is_noun token 0 ws q /\ concat ws = firstn q token /\ q <= n.
  Proof.
    unfold nl_tokenize1. assert (E : sort nl_le (nl_candidates is_noun token) = C 0).
    { unfold C. symmetry. apply filter_id. apply Forall_forall. intros; reflexivity. }
    rewrite E. destruct (nl_loop_chain (length (C 0)) 0 ltac:(lia) (le_n _)) as (q & LC & Lq).
    destruct (chain_text _ _ _ LC ltac:(lia)) as [T _]. exists (nl_loop (length (C 0)) (C 0) 0), q. rewrite T.
    rewrite slice_length by (fold n; lia). rewrite Nat.sub_0_r. split; [reflexivity|]. split; [exact LC|]. split; [|lia].
    unfold slice. rewrite Nat.sub_0_r. reflexivity.
  Qed.
End NounL.

Lemma chain_nonempty is_noun token p ws q : is_noun [] = false -> longest_chain is_noun token p ws q -> Forall (fun w => w <> [] /\ is_noun w = true) ws.
Proof. intros NE. induction 1 as [|p e ws q L E M LC IH]; constructor; [|exact IH]. split; [|exact E]. intros Z. rewrite Z in E. congruence. Qed.

Lemma nl_tokenize_spec is_noun s : is_noun [] = false -> exists wss,
  Forall2 (fun e ws => exists q, longest_chain is_noun e 0 ws q /\ concat ws = firstn q e) (split s) wss /\
  nl_tokenize is_noun s false = concat wss /\
  nl_tokenize is_noun s true = map (@concat N) (filter (fun ws => negb (length ws =? 0)) wss).
Proof.
  intros NE. exists (map (fun e => fst (nl_tokenize1 is_noun e)) (split s)). split; [|split].
  - induction (split s) as [|e es IH]; cbn [map]; constructor; [|exact IH].
    destruct (nl_tokenize1_spec is_noun NE e) as (ws & q & E & LC & T & _). rewrite E. eauto.
  - unfold nl_tokenize. induction (split s) as [|e es IH]; [reflexivity|]. cbn [map filter concat].
    destruct (nl_tokenize1_spec is_noun NE e) as (ws & q & E & LC & _ & _). rewrite E. cbn [fst].
    assert (F : filter (fun t => negb (length t =? 0)) ws = ws).
    { apply filter_id. eapply Forall_impl; [|eapply chain_nonempty; eassumption]. intros [|] [H _]; [congruence|reflexivity]. }
    destruct (negb (length ws =? 0)) eqn:L.
    + cbn [map fst concat]. rewrite filter_app. f_equal; [exact F|exact IH].
    + destruct ws; [exact IH|discriminate].
  - unfold nl_tokenize. induction (split s) as [|e es IH]; [reflexivity|]. cbn [map filter].
    destruct (nl_tokenize1_spec is_noun NE e) as (ws & q & E & LC & _ & _). rewrite E. cbn [fst].
    pose proof (chain_nonempty _ _ _ _ _ NE LC) as F.
    destruct (negb (length ws =? 0)) eqn:L; [|exact IH]. cbn [map fst filter].
    destruct ws as [|w ws]; [discriminate|].
    inversion F as [|? ? [Nw _] _]; subst. destruct w as [|c w]; [congruence|]. cbn [concat app length Nat.eqb negb]. f_equal. exact IH.
Qed.

(** ** NounMatchTokenizer *)
Section NounMatch.
  Variable scores : dict str Q.

  Lemma ms_chain s p ts : tiles s p ts -> StronglySorted (fun x y => te x <= tb y) ts.
  Proof.
    induction 1 as [|p t ts E B W TL T IH]; constructor; [exact IH|]. apply Forall_forall. intros y I. destruct (tiles_In _ _ _ _ T I) as (H & _). lia.
  Qed.

  (** a positive score always comes from the table *)
  Lemma ms_positive e out t : e <> [] -> ms_recursive scores 0 10 e = Ok out -> In t out -> (0 < tsc t)%Q -> dget scores (tw t) = Some (tsc t).
  Proof.
    intros N E I P. destruct (Nat.le_gt_cases (length e) 2) as [L|L].
    - rewrite ms_short in E by exact L. injection E as <-. destruct I as [<-|[]]. simpl in P. lra.
    - destruct (ms_recursive_spec scores 0%Q 10 e ltac:(lia) L) as (out' & E' & T & SS & PI & GI). rewrite E in E'. injection E' as <-.
      destruct (tiles_In _ _ _ _ T I) as (_ & _ & W & _).
      assert (S : tsc t = score_of scores 0 e (tb t) (te t)).
      { destruct (GI t I) as [J|(_ & _ & S)].
        - destruct (picks_cand _ _ _ _ _ J) as (b & q & _ & ->). reflexivity.
        - destruct ((tb t =? 0) || (te t =? length e)); [exact S|]. rewrite S in P. lra. }
      rewrite W. unfold score_of in S. destruct (dget scores (slice (tb t) (te t) e)); [rewrite S; reflexivity|]. rewrite S in P. lra.
  Qed.

  Lemma nm_eojeol_sound e : e <> [] -> exists ws, nm_eojeol scores false e = Ok ws /\ nm_sound scores e ws.
  Proof.
    intros N. unfold nm_eojeol. destruct (ms_recursive_tiles scores 0%Q 10 e N ltac:(lia)) as (out & E & T). rewrite E. cbn [bind]. eexists. split; [reflexivity|].
    split; [apply SS_filter, (ms_chain _ _ _ T)|]. apply Forall_forall. intros w I. apply filter_In in I as [I P]. apply qltb_true in P.
    destruct (tiles_In _ _ _ _ T I) as (_ & B & W & TL). repeat split; auto; try lia. eapply ms_positive; eassumption.
  Qed.

  Definition nonempty_tok (t : tok) : bool := tb t <? te t.
  Lemma nm_concat_spec eoj ws : forall b e sc, b <= e <= length eoj -> StronglySorted (fun x y => te x <= tb y) ws ->
    Forall (fun w => e <= tb w /\ tb w < te w <= length eoj) ws ->
    let out := nm_concat_loop eoj ws b e sc in
    StronglySorted (fun x y => te x < tb y) (filter nonempty_tok out) /\
    Forall (fun w => b <= tb w /\ tb w <= te w <= length eoj /\ tw w = slice (tb w) (te w) eoj) out /\
    forall i, covered (filter nonempty_tok out) i <-> b <= i < e \/ covered ws i.
  Proof.
    induction ws as [|w ws IH]; intros b e sc L S F; cbn [nm_concat_loop].
    - destruct (Nat.ltb_spec b e) as [H|H]; cbv zeta.
      + simpl. unfold nonempty_tok at 1 2. simpl. destruct (Nat.ltb_spec b e); [|lia]. split; [repeat constructor|]. split; [constructor; [simpl; auto|constructor]|].
        intros i. unfold covered. simpl. split.
        * intros (x & [<-|[]] & Hi). simpl in Hi. auto.
        * intros [Hi|(x & [] & _)]. eexists. split; [left; reflexivity|]. exact Hi.
      + split; [constructor|]. split; [constructor|]. intros i. unfold covered. simpl. split; [intros (x & [] & _)|]. intros [Hi|(x & [] & _)]. lia.
    - inversion S as [|? ? S' Fw]; inversion F as [|? ? [Lw1 Lw2] F']; subst.
      assert (G : Forall (fun x => te w <= tb x /\ tb x < te x <= length eoj) ws).
      { rewrite Forall_forall in *. intros x I. split; [apply Fw, I|apply F', I]. }
      destruct (Nat.eqb_spec e (tb w)) as [E|E]; cbv zeta.
      + destruct (IH b (te w) (if qltb sc (tsc w) then tsc w else sc) ltac:(lia) S' G) as (A & B & Cv). split; [exact A|]. split; [exact B|].
        intros i. rewrite Cv. unfold covered. split.
        * intros [Hi|(x & I & Hi)]; [|right; exists x; split; [right; exact I|exact Hi]].
          destruct (Nat.lt_ge_cases i e); [left; lia|right; exists w; split; [left; reflexivity|lia]].
        * intros [Hi|(x & [<-|I] & Hi)]; [left; lia|left; lia|right; eauto].
      + destruct (IH (tb w) (te w) sc ltac:(lia) S' G) as (A & B & Cv).
        assert (B' : Forall (fun w0 => b <= tb w0 /\ tb w0 <= te w0 <= length eoj /\ tw w0 = slice (tb w0) (te w0) eoj) (nm_concat_loop eoj ws (tb w) (te w) sc)).
        { eapply Forall_impl; [|exact B]. intros x (H1 & H2 & H3). repeat split; auto; lia. }
        split; [|split].
        * cbn [filter]. unfold nonempty_tok at 1. cbn [tb te]. destruct (Nat.ltb_spec b e) as [H|H]; [|exact A]. constructor; [exact A|].
          apply Forall_forall. intros x I. apply filter_In in I as [I _]. rewrite Forall_forall in B. destruct (B x I) as (H1 & _). simpl. lia.
        * constructor; [simpl; repeat split; auto; lia|exact B'].
        * intros i. cbn [filter]. unfold nonempty_tok at 1. cbn [tb te]. unfold covered in *. split.
          -- intros (x & I & Hi).
             assert (J : In x (filter nonempty_tok (nm_concat_loop eoj ws (tb w) (te w) sc)) \/ b <= i < e).
             { destruct (b <? e); [|left; exact I]. destruct I as [<-|I]; [right; simpl in Hi; exact Hi|left; exact I]. }
             destruct J as [J|J]; [|left; exact J].
             assert (K : tb w <= i < te w \/ (exists w0, In w0 ws /\ tb w0 <= i < te w0)) by (apply Cv; eauto).
             right. destruct K as [K|(y & Iy & K)]; [exists w; split; [left; reflexivity|exact K]|exists y; split; [right; exact Iy|exact K]].
          -- intros [Hi|(x & I & Hi)].
             ++ destruct (Nat.ltb_spec b e); [|lia]. eexists. split; [left; reflexivity|]. exact Hi.
             ++ assert (K : exists y, In y (filter nonempty_tok (nm_concat_loop eoj ws (tb w) (te w) sc)) /\ tb y <= i < te y).
                { apply Cv. destruct I as [<-|I]; [left; exact Hi|right; eauto]. }
                destruct K as (y & Iy & K). exists y. split; [|exact K]. destruct (b <? e); [right; exact Iy|exact Iy].
  Qed.

  (** composed nouns: the maximal intervals covered by nouns *)
  Lemma nm_compose e : e <> [] -> exists ws out, nm_eojeol scores false e = Ok ws /\ nm_eojeol scores true e = Ok out /\ nm_sound scores e ws /\
    nm_composed e ws (filter (fun w => negb (length (tw w) =? 0)) out).
  Proof.
    intros N. destruct (nm_eojeol_sound e N) as (ws & E & S). exists ws. pose proof E as E0. unfold nm_eojeol in E |- *.
    destruct (ms_recursive scores 0 10 e) as [o|]; [|discriminate]. cbn [bind] in *. injection E as E. rewrite E.
    eexists. split; [reflexivity|]. split; [reflexivity|]. split; [exact S|]. destruct S as [S1 S2].
    destruct (nm_concat_spec e ws 0 0 0%Q ltac:(lia) S1) as (A & B & Cv).
    { eapply Forall_impl; [|exact S2]. intros w H. split; [lia|]. apply H. }
    fold (nm_concatenate e ws) in A, B, Cv.
    assert (FE : filter (fun w => negb (length (tw w) =? 0)) (nm_concatenate e ws) = filter nonempty_tok (nm_concatenate e ws)).
    { apply filter_ext_in. intros w I. rewrite Forall_forall in B. destruct (B w I) as (_ & H & W). rewrite W, slice_length by lia. unfold nonempty_tok.
      destruct (Nat.eqb_spec (te w - tb w) 0), (Nat.ltb_spec (tb w) (te w)); try reflexivity; lia. }
    rewrite FE. split; [exact A|]. split.
    - apply Forall_forall. intros w I. apply filter_In in I as [I P]. rewrite Forall_forall in B. destruct (B w I) as (_ & H & W). unfold nonempty_tok in P. qb. split; [lia|exact W].
    - intros i. rewrite Cv. split; [intros [H|H]; [lia|exact H]|auto].
  Qed.

  Lemma nm_flat sent : exists outs, Forall2 (fun e out => exists ws, nm_eojeol scores false e = Ok ws /\ nm_sound scores e ws /\ nm_composed e ws out) (split sent) outs /\
    nm_tokenize_flat scores sent true = Ok (map tw (concat outs)).
  Proof.
    unfold nm_tokenize_flat, nm_tokenize. pose proof (split_words sent) as W. induction W as [|e es [N _] W (outs & F & E)]; simpl; [exists []; auto|].
    destruct (nm_compose e N) as (ws & out & E1 & E2 & S & Cm). exists (filter (fun w => negb (length (tw w) =? 0)) out :: outs). split.
    - constructor; [eauto|exact F].
    - rewrite E2. cbn [bind]. destruct (mapM (nm_eojeol scores true) es) as [os|]; cbn [bind] in *; [|discriminate]. injection E as E.
      simpl. rewrite map_app, filter_app, E, map_app. f_equal. f_equal. clear. induction out as [|w out IH]; simpl; [reflexivity|]. destruct (length (tw w) =? 0); simpl; rewrite IH; reflexivity.
  Qed.

  Lemma nm_short e cc : length e <= 2 -> nm_eojeol scores cc e = Ok [].
  Proof. intros L. unfold nm_eojeol. rewrite ms_short by exact L. cbn [bind filter tsc]. destruct cc; reflexivity. Qed.
End NounMatch.
