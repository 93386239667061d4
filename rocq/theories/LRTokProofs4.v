(** * Proofs about the output of MaxLRScoreTokenizer (C80) *)
From Coq Require Import QArith Lqa.
From Verif Require Import PyBase PyDict PySort SortLemmas PyText TokenizerModel TokenizerSpec QLemmas RegexTokProofs MaxScoreProofs MaxScoreProofs2 LRTokProofs LRTokSpec LRTokProofs2 LRTokProofs3.
Open Scope nat_scope.

Section Out.
  Variables Dl Dr Pl Pr : dict str Q.
  Variables mld mldr esl eslr : Q.
  Variable t : str.
  Let n := length t.
  Variable g : str -> list str.
  Hypothesis HG : forall s, ms_tokenize_flat Dr 0%Q 10 s = Ok (g s).
  Notation lrok := (lrok Dl Dr t).
  Definition mk (b : nat) (w : str) : lrw := LRW w [] b (b + length w) (b + length w) 0%Q 0%Q 0%Q.
  Definition bad (s : str) : bool := existsb (dmem Dr) (g s).
  Lemma g_nil : g [] = [].
  Proof. assert (E := HG []). unfold ms_tokenize_flat, ms_tokenize in E. change (split []) with (@nil str) in E. cbn in E. injection E as <-. reflexivity. Qed.
  Lemma g_nonempty s : Forall (fun w => w <> []) (g s).
  Proof. destruct (ms_flat_text Dr 0%Q 10 s) as (ws & E & _ & F); [lia|]. rewrite HG in E. injection E as ->. exact F. Qed.
  Lemma lr_base_eq s b : lr_base Dr s b = if bad s then Err AttributeError else Ok (map (mk b) (g s)).
  Proof.
    unfold lr_base, bad. rewrite HG. cbn [bind]. induction (g s) as [|w ws IH]; [reflexivity|]. cbn [mapM existsb map]. destruct (dmem Dr w); [reflexivity|]. cbn [bind orb]. rewrite IH. destruct (existsb (dmem Dr) ws); reflexivity.
  Qed.
  (** the gaps between the words *)
  Fixpoint gaps (x : lrw) (l : list lrw) : list (nat * str) := match l with [] => [] | y :: l' => (p2 x, slice (p2 x) (p0 y) t) :: gaps y l' end.
  Lemma bad_nil : bad [] = false. Proof. unfold bad. rewrite g_nil. reflexivity. Qed.
  Lemma slice_same a : slice a a t = []. Proof. unfold slice. rewrite Nat.sub_diag. reflexivity. Qed.
  Lemma inter_step x y : (if p2 x =? p0 y then Ok [] else lr_base Dr (slice (p2 x) (p0 y) t) (p2 x)) = if bad (slice (p2 x) (p0 y) t) then Err AttributeError else Ok (map (mk (p2 x)) (g (slice (p2 x) (p0 y) t))).
  Proof. destruct (Nat.eqb_spec (p2 x) (p0 y)) as [E|E]; [rewrite E, slice_same, bad_nil, g_nil; reflexivity|apply lr_base_eq]. Qed.
  Lemma lr_inter_eq l : forall x, lr_inter Dr t (x :: l) = if existsb (fun p => bad (snd p)) (gaps x l) then Err AttributeError else Ok (flat_map (fun p => map (mk (fst p)) (g (snd p))) (gaps x l)).
  Proof.
    induction l as [|y l IH]; intros x; [reflexivity|].
    change (lr_inter Dr t (x :: y :: l)) with (do a <- (if p2 x =? p0 y then Ok [] else lr_base Dr (slice (p2 x) (p0 y) t) (p2 x)); do b <- lr_inter Dr t (y :: l); Ok (a ++ b)).
    rewrite inter_step, IH. cbn [gaps existsb snd fst flat_map]. destruct (bad (slice (p2 x) (p0 y) t)); [reflexivity|]. cbn [bind orb]. destruct (existsb (fun p => bad (snd p)) (gaps y l)); reflexivity.
  Qed.
  (** the words with the tokens of the gaps *)
  Fixpoint weave (x : lrw) (l : list lrw) : list lrw := match l with [] => [x] | y :: l' => x :: map (mk (p2 x)) (g (slice (p2 x) (p0 y) t)) ++ weave y l' end.
  Definition blk (k : nat) (a : list lrw) : list (block (A := lrw)) := match a with [] => [] | _ => [(k, a)] end.
  Lemma flat_blk k a : flat (blk k a) = a. Proof. destruct a; [reflexivity|]. cbn [blk flat flat_map snd]. apply app_nil_r. Qed.
  Lemma blk_mk k ws : Forall bok (blk k (map (mk k) ws)).
  Proof. destruct ws as [|w ws]; [constructor|]. cbn [map blk]. constructor; [|constructor]. unfold bok, block_ok. cbn [snd fst]. apply Forall_forall. intros y [<-|I]; [reflexivity|]. apply in_map_iff in I as (z & <- & _). reflexivity. Qed.
  Lemma blk_In k a b : In b (blk k a) -> a <> [] /\ fst b = k. Proof. destruct a; [intros []|]. intros [<-|[]]. split; [discriminate|reflexivity]. Qed.
  Lemma blk_sorted k a : StronglySorted (fun b c : block (A := lrw) => fst b < fst c) (blk k a). Proof. destruct a; repeat constructor. Qed.
  Lemma sing_ok w : bok (sing w). Proof. unfold bok, block_ok, sing. cbn [snd fst]. auto. Qed.
  Lemma weave_blocks l : forall x, Forall lrok (x :: l) -> StronglySorted (fun x y => p2 x <= p0 y) (x :: l) ->
    exists B W, flat_map (fun p => map (mk (fst p)) (g (snd p))) (gaps x l) = flat B /\ Permutation (map sing (x :: l) ++ B) W /\ Forall bok W /\
      StronglySorted (fun b c : block (A := lrw) => fst b < fst c) W /\ (forall b, In b W -> p0 x <= fst b <= p0 (last (x :: l) x)) /\ flat W = weave x l.
  Proof.
    induction l as [|y l IH]; intros x F S.
    - exists [], [sing x]. cbn [gaps flat_map map app last weave]. split; [reflexivity|]. split; [reflexivity|]. split; [constructor; [apply sing_ok|constructor]|]. split; [repeat constructor|]. split; [intros b [<-|[]]; cbn [sing fst]; lia|reflexivity].
    - inversion F as [|? ? Ox F']; inversion S as [|? ? S' Fx]; subst. destruct (IH y F' S') as (B & W & EB & P & FW & SW & RW & TW).
      assert (El : last (x :: y :: l) x = last (y :: l) y) by (change (last (x :: y :: l) x) with (last (y :: l) x); apply last_default).
      rewrite El. inversion Fx as [|? ? Lxy Fl]; subst. pose proof Ox as (Ox1 & Ox2 & Ox3 & _). inversion F' as [|? ? Oy _]; subst. pose proof Oy as (Oy1 & Oy2 & Oy3 & _).
      assert (Lyl : p0 y <= p0 (last (y :: l) y)).
      { assert (I : In (last (y :: l) y) (y :: l)) by (apply last_In; discriminate). destruct I as [<-|I]; [lia|]. inversion S' as [|? ? _ Fy]; subst. rewrite Forall_forall in Fy. specialize (Fy _ I). lia. }
      set (a := map (mk (p2 x)) (g (slice (p2 x) (p0 y) t))).
      assert (NA : a <> [] -> p2 x < p0 y). { intros H. destruct (Nat.eq_dec (p2 x) (p0 y)) as [E|E]; [|lia]. exfalso. apply H. unfold a. rewrite E, slice_same, g_nil. reflexivity. }
      exists (blk (p2 x) a ++ B), (sing x :: blk (p2 x) a ++ W). split.
      { cbn [gaps flat_map fst snd]. rewrite flat_app, flat_blk. fold a. f_equal. exact EB. }
      split. { cbn [map app]. constructor. change (sing y :: map sing l ++ blk (p2 x) a ++ B) with (map sing (y :: l) ++ blk (p2 x) a ++ B). rewrite app_assoc, (Permutation_app_comm (map sing (y :: l))), <- app_assoc. apply Permutation_app_head. exact P. }
      split. { constructor; [apply sing_ok|]. apply Forall_app. split; [apply blk_mk|exact FW]. }
      split. { constructor.
        - apply SS_app; [apply blk_sorted|exact SW|]. intros b c Ib Ic. apply blk_In in Ib as [NB ->]. apply RW in Ic. specialize (NA NB). lia.
        - apply Forall_forall. intros b Ib. cbn [sing fst]. apply in_app_or in Ib as [Ib|Ib]; [apply blk_In in Ib as [_ ->]; lia|apply RW in Ib; lia]. }
      split. { intros b [<-|Ib]; [cbn [sing fst]; lia|]. apply in_app_or in Ib as [Ib|Ib]; [apply blk_In in Ib as [NB ->]; specialize (NA NB); lia|apply RW in Ib; lia]. }
      change (flat (sing x :: blk (p2 x) a ++ W)) with (x :: flat (blk (p2 x) a ++ W)). rewrite flat_app, flat_blk, TW. reflexivity.
  Qed.
  Lemma postprocessing_eq w0 ws : Forall lrok (w0 :: ws) -> StronglySorted (fun x y => p2 x <= p0 y) (w0 :: ws) -> let wn := last (w0 :: ws) w0 in
    lr_postprocessing Dr t (w0 :: ws) = if bad (firstn (p0 w0) t) || existsb (fun p => bad (snd p)) (gaps w0 ws) || bad (skipn (p1 wn) t) then Err AttributeError
      else Ok (map (mk 0) (g (firstn (p0 w0) t)) ++ weave w0 ws ++ map (mk (p1 wn)) (g (skipn (p1 wn) t))).
  Proof.
    intros F S wn. unfold lr_postprocessing. fold wn.
    assert (E1 : (if 0 <? p0 w0 then lr_base Dr (firstn (p0 w0) t) 0 else Ok []) = if bad (firstn (p0 w0) t) then Err AttributeError else Ok (map (mk 0) (g (firstn (p0 w0) t)))).
    { destruct (Nat.ltb_spec 0 (p0 w0)) as [H|H]; [apply lr_base_eq|]. replace (p0 w0) with 0 by lia. cbn [firstn]. rewrite bad_nil, g_nil. reflexivity. }
    assert (E2 : (if p1 wn <? length t then lr_base Dr (skipn (p1 wn) t) (p1 wn) else Ok []) = if bad (skipn (p1 wn) t) then Err AttributeError else Ok (map (mk (p1 wn)) (g (skipn (p1 wn) t)))).
    { destruct (Nat.ltb_spec (p1 wn) (length t)) as [H|H]; [apply lr_base_eq|]. rewrite skipn_all2 by exact H. rewrite bad_nil, g_nil. reflexivity. }
    rewrite E1, E2, lr_inter_eq. destruct (bad (firstn (p0 w0) t)); [reflexivity|]. cbn [bind orb]. destruct (bad (skipn (p1 wn) t)); [rewrite orb_true_r; reflexivity|]. rewrite orb_false_r. cbn [bind]. destruct (existsb (fun p => bad (snd p)) (gaps w0 ws)); [reflexivity|]. cbn [bind]. f_equal.
    assert (Iwn : In wn (w0 :: ws)) by (apply last_In; discriminate).
    pose proof F as F0. rewrite Forall_forall in F0. pose proof (F0 _ Iwn) as (Wn1 & Wn2 & Wn3 & _).
    assert (L0n : p0 w0 <= p0 wn). { destruct Iwn as [<-|I]; [lia|]. inversion S as [|? ? _ Fx]; subst. rewrite Forall_forall in Fx. specialize (Fx _ I). destruct (F0 w0 (or_introl eq_refl)) as (? & ? & _). lia. }
    destruct (weave_blocks ws w0 F S) as (B & W & EB & P & FW & SW & RW & TW). fold wn in RW.
    set (a1 := map (mk 0) (g (firstn (p0 w0) t))). set (a2 := map (mk (p1 wn)) (g (skipn (p1 wn) t))).
    assert (N1 : a1 <> [] -> 0 < p0 w0). { intros H. destruct (Nat.eq_dec (p0 w0) 0) as [E|E]; [|lia]. exfalso. apply H. unfold a1. rewrite E. cbn [firstn]. rewrite g_nil. reflexivity. }
    transitivity (flat (blk 0 a1 ++ W ++ blk (p1 wn) a2)); [|rewrite !flat_app, !flat_blk, TW; reflexivity].
    apply (sort_le_p0 (map sing (w0 :: ws) ++ blk 0 a1 ++ blk (p1 wn) a2 ++ B) (blk 0 a1 ++ W ++ blk (p1 wn) a2)).
    - rewrite !flat_app, flat_sing, !flat_blk. rewrite EB. reflexivity.
    - rewrite perm4. apply Permutation_app_head, Permutation_app_tail, P.
    - apply Forall_app. split; [|apply Forall_app; split; [apply blk_mk|apply Forall_app; split; [apply blk_mk|]]].
      + apply Forall_forall. intros b I. apply in_map_iff in I as (w & <- & _). apply sing_ok.
      + apply Forall_forall. intros b I. rewrite Forall_forall in FW. apply FW. eapply Permutation_in; [exact P|]. apply in_or_app. right. exact I.
    - apply SS_app; [apply blk_sorted| |].
      + apply SS_app; [exact SW|apply blk_sorted|]. intros b c Ib Ic. apply RW in Ib. apply blk_In in Ic as [_ ->]. lia.
      + intros b c Ib Ic. apply blk_In in Ib as [NB ->]. specialize (N1 NB). apply in_app_or in Ic as [Ic|Ic]; [apply RW in Ic; lia|]. apply blk_In in Ic as [_ ->]. lia.
  Qed.
  (** ** flattening *)
  Lemma lr_flatten_app a b : lr_flatten (a ++ b) = lr_flatten a ++ lr_flatten b.
  Proof. unfold lr_flatten. rewrite flat_map_app, filter_app. reflexivity. Qed.
  Lemma lr_flatten_mk k s : lr_flatten (map (mk k) (g s)) = piece_words g (inl s).
  Proof.
    cbn [piece_words]. pose proof (g_nonempty s) as F. induction F as [|w ws N F IH]; [reflexivity|]. cbn [map]. change (mk k w :: map (mk k) ws) with ([mk k w] ++ map (mk k) ws). rewrite lr_flatten_app, IH. destruct w as [|c w]; [congruence|]. reflexivity.
  Qed.
  Lemma lr_flatten_word x : lrok x -> lr_flatten [x] = piece_words g (inr x).
  Proof.
    intros (A & B & C & WL & _). assert (L : length (wl x) = p1 x - p0 x) by (rewrite WL, slice_length by lia; lia). cbn [piece_words]. unfold lr_flatten. cbn [flat_map app filter fst]. destruct (wl x) as [|c w]; [cbn [length] in L; lia|]. cbn [length Nat.eqb negb]. destruct (wr x); reflexivity.
  Qed.
  Lemma weave_pieces l : forall x, Forall lrok (x :: l) -> lr_flatten (weave x l) ++ piece_words g (inl (skipn (p1 (last (x :: l) x)) t)) = flat_map (piece_words g) (pieces_from t x l).
  Proof.
    induction l as [|y l IH]; intros x F; inversion F as [|? ? Ox F']; subst.
    - cbn [weave last pieces_from flat_map]. rewrite (lr_flatten_word x Ox), app_nil_r. reflexivity.
    - assert (El : last (x :: y :: l) x = last (y :: l) y) by (change (last (x :: y :: l) x) with (last (y :: l) x); apply last_default).
      rewrite El. cbn [weave pieces_from flat_map]. change (x :: map (mk (p2 x)) (g (slice (p2 x) (p0 y) t)) ++ weave y l) with ([x] ++ map (mk (p2 x)) (g (slice (p2 x) (p0 y) t)) ++ weave y l).
      rewrite !lr_flatten_app, (lr_flatten_word x Ox), lr_flatten_mk, <- !app_assoc, (IH y F'). reflexivity.
  Qed.
  Lemma bad_iff s : bad s = true <-> exists w, In w (g s) /\ dmem Dr w = true.
  Proof. unfold bad. apply existsb_exists. Qed.
  Lemma gaps_pieces l : forall x s, In (inl s) (pieces_from t x l) <-> (exists k, In (k, s) (gaps x l)) \/ s = skipn (p1 (last (x :: l) x)) t.
  Proof.
    induction l as [|y l IH]; intros x s.
    - cbn [pieces_from gaps last In]. split; [intros [H|[H|[]]]; [discriminate|injection H as <-; auto]|]. intros [[k []]| ->]; auto.
    - assert (El : last (x :: y :: l) x = last (y :: l) y) by (change (last (x :: y :: l) x) with (last (y :: l) x); apply last_default).
      rewrite El. cbn [pieces_from gaps]. cbn [In]. rewrite IH. split.
      + intros [H|[H|[[k H]|H]]]; [discriminate|injection H as <-; left; eauto|left; eauto|auto].
      + intros [[k [H|H]]|H]; [injection H as _ <-; auto|right; right; left; eauto|auto].
  Qed.
  Theorem lr_output best : lr_best Dl Dr Pl Pr mld mldr esl eslr t = Ok best ->
    ((exists s w, In (inl s) (pieces t best) /\ In w (g s) /\ dmem Dr w = true) -> lr_tokenize1 Dl Dr Pl Pr mld mldr esl eslr t = Err AttributeError) /\
    (~ (exists s w, In (inl s) (pieces t best) /\ In w (g s) /\ dmem Dr w = true) -> exists post, lr_tokenize1 Dl Dr Pl Pr mld mldr esl eslr t = Ok post /\ lr_flatten post = flat_map (piece_words g) (pieces t best)).
  Proof.
    intros Eb. destruct (lr_best_ok _ _ _ _ _ _ _ _ _ best Eb) as [F S]. unfold lr_tokenize1. rewrite Eb. cbn [bind]. destruct best as [|w0 ws].
    - cbn [pieces]. rewrite lr_base_eq. split.
      + intros (s & w & [H|[]] & I & D). injection H as <-. assert (B : bad t = true) by (apply bad_iff; eauto). rewrite B. reflexivity.
      + intros H. destruct (bad t) eqn:B; [exfalso; apply bad_iff in B as (w & I & D); apply H; exists t, w; split; [left; reflexivity|auto]|]. eexists. split; [reflexivity|]. cbn [flat_map]. rewrite app_nil_r. apply lr_flatten_mk.
    - cbn [pieces]. rewrite (postprocessing_eq w0 ws F S). set (wn := last (w0 :: ws) w0).
      assert (BB : (exists s w, In (inl s) (inl (firstn (p0 w0) t) :: pieces_from t w0 ws) /\ In w (g s) /\ dmem Dr w = true) <-> bad (firstn (p0 w0) t) || existsb (fun p => bad (snd p)) (gaps w0 ws) || bad (skipn (p1 wn) t) = true).
      { rewrite !orb_true_iff, existsb_exists. split.
        - intros (s & w & [H|H] & I & D); assert (B : bad s = true) by (apply bad_iff; eauto).
          + injection H as <-. auto.
          + apply gaps_pieces in H as [[k H]| ->]; [left; right; exists (k, s); auto|right; exact B].
        - intros [[B|([k s] & I & B)]|B]; apply bad_iff in B as (w & J & D).
          + exists (firstn (p0 w0) t), w. split; [left; reflexivity|auto].
          + exists s, w. split; [right; apply gaps_pieces; left; eauto|auto].
          + exists (skipn (p1 wn) t), w. split; [right; apply gaps_pieces; right; reflexivity|auto]. }
      rewrite BB. split; [intros ->; reflexivity|]. intros NB. apply not_true_is_false in NB. rewrite NB. eexists. split; [reflexivity|].
      rewrite !lr_flatten_app, !lr_flatten_mk. cbn [flat_map]. f_equal. apply weave_pieces, F.
  Qed.
End Out.
