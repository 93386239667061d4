(** * Matchers and postprocessor: proofs *)
From Coq Require Import QArith.
From Verif Require Import PyBase PyDict PySort PyText SortLemmas TaggerModel TaggerDictProofs TaggerSpec TaggerProofs.
Open Scope nat_scope.

(** ** flattening *)
Lemma flatten_text_app a b : text_of (flatten_lr (a ++ b)) = text_of (flatten_lr a) ++ text_of (flatten_lr b).
Proof. unfold text_of, flatten_lr. rewrite map_app, concat_app, map_app, concat_app. reflexivity. Qed.
Lemma flatten_text_one x : text_of (flatten_lr [x]) = l_of x ++ r_of x.
Proof. unfold text_of, flatten_lr. cbn [map concat]. rewrite app_nil_r, map_app, concat_app. destruct (l_of x), (r_of x); cbn; rewrite ?app_nil_r; reflexivity. Qed.
Lemma located_text t x : located t x -> l_of x ++ r_of x = slice (b_of x) (e_of x) t.
Proof. intros (A & B & C & D & -> & ->). apply slice_app; assumption. Qed.
Lemma covers_le t p ws : covers t p ws -> p <= length t.
Proof. intros C. inversion C as [|x ws' (A & B & D & E & _) C']; subst; lia. Qed.
Lemma covers_text t p ws : covers t p ws -> text_of (flatten_lr ws) = slice p (length t) t.
Proof.
  induction 1 as [|x ws L C IH]; [unfold slice; rewrite Nat.sub_diag; reflexivity|]. change (x :: ws) with ([x] ++ ws). rewrite flatten_text_app, flatten_text_one, (located_text t x L), IH.
  apply covers_le in C. destruct L as (A & B & D & E & _). apply slice_app; lia.
Qed.

(** ** the postprocessor fills the gaps *)
Fixpoint fill (t : str) (p : nat) (ws : list lr) : list lr :=
  match ws with
  | [] => if p <? length t then [unknown_word t p (length t)] else []
  | x :: ws' => (if p <? b_of x then [unknown_word t p (b_of x)] else []) ++ x :: fill t (e_of x) ws'
  end.
Lemma located_unknown t p e : p < e -> e <= length t -> located t (unknown_word t p e).
Proof. intros A B. unfold located, unknown_word. cbn [l_of r_of b_of m_of e_of]. rewrite slice_nil. repeat split; lia. Qed.
Lemma in_order_le t p ws : in_order t p ws -> p <= length t.
Proof. intros C. inversion C as [|? x ws' L (A & B & D & E & _) C']; subst; lia. Qed.
Lemma fill_covers t p ws : in_order t p ws -> covers t p (fill t p ws).
Proof.
  induction 1 as [p L|p x ws L LX O IH]; cbn [fill].
  - destruct (Nat.ltb_spec p (length t)); [|assert (p = length t) as -> by lia; constructor].
    apply (covers_word t (unknown_word t p (length t)) []); [apply located_unknown; lia|constructor].
  - pose proof (covers_word t x _ LX IH) as C. destruct (Nat.ltb_spec p (b_of x)) as [H|H]; cbn [app]; [|assert (p = b_of x) as -> by lia; exact C].
    apply (covers_word t (unknown_word t p (b_of x))); [apply located_unknown; [exact H|destruct LX as (A & B & D & E & _); lia]|exact C].
Qed.
Lemma covers_strict t p ws : covers t p ws -> StronglySorted (fun x y => b_of x < b_of y) ws /\ Forall (fun x => p <= b_of x) ws.
Proof.
  induction 1 as [|x ws L C [S F]]; [split; constructor|]. destruct L as (A & B & D & E & _). split; constructor; auto.
  - eapply Forall_impl; [|exact F]. cbv beta. intros; lia.
  - eapply Forall_impl; [|exact F]. cbv beta. intros; lia.
Qed.
(** what is added *)
Fixpoint tail_subword (t : str) (e : nat) (ws : list lr) : list lr :=
  match ws with [] => if e <? length t then [unknown_word t e (length t)] else [] | x :: ws' => tail_subword t (e_of x) ws' end.
Lemma tail_rev t e ws : ws <> [] -> (match rev ws with x :: _ => if e_of x <? length t then [unknown_word t (e_of x) (length t)] else [] | [] => [] end) = tail_subword t e ws.
Proof.
  intros NE. destruct ws as [|y ws] using rev_ind; [congruence|]. rewrite rev_unit. clear. revert e. induction ws as [|x ws IH]; intros e; [reflexivity|]. cbn [app tail_subword]. apply IH.
Qed.
Lemma fill_perm t x ws : in_order t (e_of x) ws -> Permutation ((x :: ws) ++ tail_subword t 0 (x :: ws) ++ inter_subwords t (x :: ws)) (x :: fill t (e_of x) ws).
Proof.
  revert x. induction ws as [|y ws IH]; intros x O.
  - cbn [tail_subword inter_subwords fill app]. rewrite app_nil_r. reflexivity.
  - inversion O as [|? ? ? L LY O']; subst. specialize (IH y O'). cbn [fill tail_subword inter_subwords] in *.
    replace (if e_of x =? b_of y then [] else [unknown_word t (e_of x) (b_of y)]) with (if e_of x <? b_of y then [unknown_word t (e_of x) (b_of y)] else [])
      by (destruct (Nat.ltb_spec (e_of x) (b_of y)), (Nat.eqb_spec (e_of x) (b_of y)); try lia; reflexivity).
    set (g := if _ <? _ then _ else _). rewrite <- IH. cbn [app]. constructor.
    assert (forall A (a b c d : list A), Permutation (a ++ b ++ c ++ d) (c ++ a ++ b ++ d)) as PP.
    { intros A a b c d. rewrite (app_assoc a b (c ++ d)), (app_assoc a b d). apply Permutation_app_swap_app. }
    apply (PP _ (y :: ws) (tail_subword t (e_of y) ws) g (inter_subwords t (y :: ws))).
Qed.
Lemma postprocess_fill t ws : ws <> [] -> in_order t 0 ws -> unknown_lr_postprocess t ws = fill t 0 ws.
Proof.
  intros NE O. unfold unknown_lr_postprocess. cbv zeta. rewrite (tail_rev t 0 ws NE). destruct ws as [|x ws]; [congruence|]. inversion O as [|? ? ? L LX O']; subst.
  apply (sort_key_strict b_of).
  - apply covers_strict with (t := t) (p := 0). apply fill_covers, O.
  - cbn [fill]. pose proof (fill_perm t x ws O') as P. set (F := if 0 <? b_of x then _ else _). rewrite <- P. set (T := tail_subword t 0 (x :: ws)). set (I := inter_subwords t (x :: ws)).
    rewrite (Permutation_app_swap_app (x :: ws) F (T ++ I)). reflexivity.
Qed.
Lemma covers_fill t p ws : covers t p ws -> fill t p ws = ws.
Proof.
  induction 1 as [|x ws L C IH]; cbn [fill]; [rewrite Nat.ltb_irrefl; reflexivity|]. rewrite Nat.ltb_irrefl, IH. reflexivity.
Qed.
Lemma covers_in_order t p ws : covers t p ws -> in_order t p ws.
Proof. induction 1 as [|x ws L C IH]; constructor; auto. Qed.
Lemma covers_postprocess t ws : t <> [] -> covers t 0 ws -> unknown_lr_postprocess t ws = ws.
Proof.
  intros NE C. assert (ws <> []) as NW. { intros ->. inversion C as [E|]. destruct t; [congruence|discriminate]. }
  rewrite postprocess_fill; [apply covers_fill, C|exact NW|apply covers_in_order, C].
Qed.

(** ** compounds *)
Lemma first_hit_spec d t tag b is : first_hit d t tag b is = match find (fun i => ((b =? 0) && (i =? length t)) || word_is_tag d (slice b i t) tag) is with
  | Some i => if (b =? 0) && (i =? length t) then None else Some i | None => None end.
Proof.
  induction is as [|i is IH]; [reflexivity|]. cbn [first_hit find]. destruct ((b =? 0) && (i =? length t)) eqn:E; cbn [orb]; [rewrite E; reflexivity|].
  destruct (word_is_tag d (slice b i t) tag); [rewrite E; reflexivity|exact IH].
Qed.
Lemma find_seq (f : nat -> bool) a k i : find f (seq a k) = Some i <-> a <= i < a + k /\ f i = true /\ forall j, a <= j < i -> f j = false.
Proof.
  revert a. induction k as [|k IH]; intros a; cbn [seq find]; [split; [discriminate|lia]|]. destruct (f a) eqn:F.
  - split; [intros E; injection E as ->; split; [lia|]; split; [exact F|]; intros; lia|]. intros (R & Fi & H). destruct (Nat.eq_dec a i) as [->|N]; [reflexivity|]. rewrite (H a) in F by lia. discriminate.
  - rewrite IH. split.
    + intros (R & Fi & H). split; [lia|]. split; [exact Fi|]. intros j Rj. destruct (Nat.eq_dec a j) as [->|N]; [exact F|apply H; lia].
    + intros (R & Fi & H). destruct (Nat.eq_dec a i) as [->|N]; [congruence|]. split; [lia|]. split; [exact Fi|]. intros j Rj. apply H. lia.
Qed.
Lemma first_hit_some d t tag b i : b < length t -> (first_hit d t tag b (seq (b + 1) (length t - b)) = Some i <->
  b < i <= length t /\ ~ (b = 0 /\ i = length t) /\ word_is_tag d (slice b i t) tag = true /\ forall j, b < j < i -> word_is_tag d (slice b j t) tag = false).
Proof.
  intros L. rewrite first_hit_spec. split.
  - destruct (find _ _) as [i'|] eqn:E; [|discriminate]. apply find_seq in E as (R & F & H). destruct ((b =? 0) && (i' =? length t)) eqn:G; [discriminate|]. intros E. injection E as <-.
    split; [lia|]. split; [intros [-> ->]; rewrite !Nat.eqb_refl in G; discriminate|]. cbn [orb] in F. split; [exact F|]. intros j Rj. specialize (H j ltac:(lia)). apply orb_false_iff in H as [_ H]. exact H.
  - intros (R & NB & W & H). assert ((b =? 0) && (i =? length t) = false) as G. { apply andb_false_iff. destruct (Nat.eqb_spec b 0); [right; apply Nat.eqb_neq; tauto|left; reflexivity]. }
    assert (find (fun i => ((b =? 0) && (i =? length t)) || word_is_tag d (slice b i t) tag) (seq (b + 1) (length t - b)) = Some i) as ->.
    { apply find_seq. split; [lia|]. split; [rewrite G; exact W|]. intros j Rj. rewrite H by lia. rewrite orb_false_r. apply andb_false_iff. right. apply Nat.eqb_neq. lia. }
    rewrite G. reflexivity.
Qed.
Lemma greedy_cut_le d tag t b ws : greedy_cut d tag t b ws -> b <= length t.
Proof. intros C. inversion C; subst; lia. Qed.
Lemma greedy_cut_inv d tag t b ws : greedy_cut d tag t b ws -> (ws = [] /\ b = length t) \/
  exists i ws', ws = mkLR (slice b i t) (Some tag) [] None b i i :: ws' /\ b < i <= length t /\ word_is_tag d (slice b i t) tag = true /\
    (forall j, b < j < i -> word_is_tag d (slice b j t) tag = false) /\ greedy_cut d tag t i ws'.
Proof. intros C. inversion C as [E1 E2|b' i' ws' R' W' H' C' E1 E2]; subst; [left; auto|]. right. exists i', ws'. auto. Qed.
Lemma greedy_cut_nil d tag t b : greedy_cut d tag t b [] -> b = length t.
Proof. intros C. inversion C. reflexivity. Qed.
Lemma greedy_cut_lt d tag t b x ws : greedy_cut d tag t b (x :: ws) -> b < length t.
Proof. intros C. inversion C; subst. lia. Qed.
Lemma decompose_cut d t tag fuel b acc ws : length t - b < fuel -> 0 < b <= length t -> (acc ++ ws <> [] ->
  (greedy_cut d tag t b ws <-> decompose_loop fuel d t tag b acc = acc ++ ws)) /\ (decompose_loop fuel d t tag b acc = [] \/ exists ws', decompose_loop fuel d t tag b acc = acc ++ ws' /\ greedy_cut d tag t b ws').
Proof.
  revert b acc ws. induction fuel as [|f IH]; intros b acc ws LF LB; [lia|]. cbn [decompose_loop]. destruct (Nat.ltb_spec b (length t)) as [Hb|Hb].
  - destruct (first_hit d t tag b _) as [i|] eqn:E.
    + apply first_hit_some in E as (R & _ & W & H); [|exact Hb]. set (x := mkLR _ _ _ _ _ _ _).
      assert (length t - i < f) as LF' by lia. assert (0 < i <= length t) as LB' by lia. split.
      * intros NE. split.
        -- intros C. inversion C as [E1 E2|b' i' ws' R' W' H' C' E1 E2]; subst; [lia|].
           assert (i' = i) as ->. { destruct (Nat.lt_trichotomy i i') as [T|[T|T]]; [rewrite H' in W by lia; discriminate|symmetry; exact T|rewrite H in W' by lia; discriminate]. }
           fold x. fold x in NE. destruct (IH i (acc ++ [x]) ws' LF' LB') as [K _]. rewrite <- app_assoc in K. cbn [app] in K. apply K; [exact NE|exact C'].
        -- intros EQ. destruct (IH i (acc ++ [x]) [] LF' LB') as [_ [K|(ws' & K & C')]].
           ++ rewrite K in EQ. symmetry in EQ. contradiction.
           ++ rewrite K, <- app_assoc in EQ. apply app_inv_head in EQ. subst ws. constructor; assumption.
      * destruct (IH i (acc ++ [x]) [] LF' LB') as [_ [K|(ws' & K & C')]]; [left; exact K|]. right. exists (x :: ws'). rewrite K, <- app_assoc. split; [reflexivity|constructor; assumption].
    + split; [|left; reflexivity]. intros NE. split; [|intros EQ; symmetry in EQ; contradiction]. intros C. exfalso. inversion C as [E1 E2|b' i' ws' R' W' H' C' E1 E2]; subst; [lia|].
      assert (first_hit d t tag b (seq (b + 1) (length t - b)) = Some i') as E' by (apply first_hit_some; [exact Hb|]; split; [lia|]; split; [lia|]; auto). congruence.
  - assert (b = length t) as -> by lia. split.
    + intros NE. split; [|intros EQ].
      * intros C. inversion C as [E1 E2|]; subst; [rewrite app_nil_r; reflexivity|lia].
      * rewrite <- (app_nil_r acc) in EQ at 1. apply app_inv_head in EQ. subst ws. constructor.
    + right. exists []. rewrite app_nil_r. split; [reflexivity|constructor].
Qed.
Lemma decompose_exact d t tag ws : ws <> [] -> (decompose_compound d t tag = ws <-> greedy_cut d tag t 0 ws /\ 2 <= length ws).
Proof.
  intros NE. unfold decompose_compound. set (n := length t). cbn [decompose_loop]. fold n. destruct (Nat.ltb_spec 0 n) as [Hn|Hn].
  - destruct (first_hit d t tag 0 _) as [i|] eqn:E.
    + apply first_hit_some in E as (R & NB & W & H); [|exact Hn]. fold n in R, NB. assert (i < n) by lia. set (x := mkLR _ _ _ _ _ _ _). cbn [app].
      split.
      * intros EQ. destruct (decompose_cut d t tag n i [x] [] ltac:(subst n; lia) ltac:(subst n; lia)) as [_ [K|(ws' & K & C')]]; [congruence|].
        rewrite K in EQ. cbn [app] in EQ. subst ws. split; [constructor; [fold n; lia|assumption..]|]. destruct ws' as [|y ws']; [|cbn; lia]. exfalso. apply greedy_cut_nil in C'. subst n. lia.
      * intros [C L2]. apply greedy_cut_inv in C as [[E1 E2]|(i' & ws' & -> & R' & W' & H' & C')]; [subst n; lia|]. fold n in R'.
        assert (i' = i) as ->. { destruct (Nat.lt_trichotomy i i') as [T|[T|T]]; [rewrite H' in W by lia; discriminate|symmetry; exact T|rewrite H in W' by lia; discriminate]. }
        fold x. destruct (decompose_cut d t tag n i [x] ws' ltac:(subst n; lia) ltac:(subst n; lia)) as [K _]. apply K; [discriminate|exact C'].
    + split; [intros <-; congruence|]. intros [C L2]. exfalso. apply greedy_cut_inv in C as [[E1 E2]|(i' & ws' & -> & R' & W' & H' & C')]; [subst n; lia|]. fold n in R'.
      assert (i' < n). { destruct (Nat.eq_dec i' n) as [->|]; [|lia]. destruct ws' as [|y ws']; [cbn in L2; lia|]. apply greedy_cut_lt in C'. subst n. lia. }
      assert (first_hit d t tag 0 (seq (0 + 1) (length t - 0)) = Some i') as E' by (apply first_hit_some; [exact Hn|]; fold n; split; [lia|]; split; [lia|]; auto). fold n in E'. congruence.
  - split; [intros <-; congruence|]. intros [C L2]. exfalso. apply greedy_cut_inv in C as [[E1 E2]|(i' & ws' & -> & R' & W' & H' & C')]; [congruence|subst n; lia].
Qed.
Lemma cut_covers d tag t b ws : greedy_cut d tag t b ws -> covers t b ws.
Proof.
  induction 1 as [|b i ws R W H C IH]; [constructor|]. apply (covers_word t (mkLR (slice b i t) (Some tag) [] None b i i)); [|exact IH].
  unfold located. cbn [l_of r_of b_of m_of e_of]. rewrite slice_nil. repeat split; lia.
Qed.

(** ** the eojeol template matcher *)
Lemma eojeol_In g t c : In c (eojeol_generate g t) <->
  let d := em_dict g in let n := length t in
  (exists tag, In tag (get_pos d t) /\ In tag (single_tags g) /\ c = [mkLR t (Some tag) [] None 0 n n]) \/
  ((forall tag, In tag (get_pos d t) -> ~ In tag (single_tags g)) /\ c = [mkLR t None [] None 0 n n]) \/
  (exists b lt rt, 0 < b < n /\ In (lt, rt) (lr_templates g) /\ word_is_tag d (firstn b t) lt = true /\ word_is_tag d (skipn b t) rt = true /\
     c = [mkLR (firstn b t) (Some lt) (skipn b t) (Some rt) 0 b n]) \/
  (exists tag, (tag = u "Noun" \/ tag = u "Adverb") /\ greedy_cut d tag t 0 c /\ 2 <= length c).
Proof.
  cbv zeta. unfold eojeol_generate. cbv zeta. set (d := em_dict g). set (n := length t). rewrite !in_app_iff.
  assert (forall tag, In c (match decompose_compound d t tag with [] => [] | c => [c] end) <-> greedy_cut d tag t 0 c /\ 2 <= length c) as COMP.
  { intros tag. destruct c as [|y c'].
    - split; [|cbn; lia]. destruct (decompose_compound d t tag); [intros []|intros [E|[]]; discriminate].
    - rewrite <- decompose_exact by discriminate. destruct (decompose_compound d t tag) as [|z ws]; [split; [intros []|discriminate]|]. split; [intros [E|[]]; exact E|intros E; left; exact E]. }
  rewrite (COMP (u "Noun")), (COMP (u "Adverb")).
  set (f := filter (fun tag => mem tag (single_tags g)) (get_pos d t)).
  assert (In c (match map (fun tag => [mkLR t (Some tag) [] None 0 n n]) f with [] => [[mkLR t None [] None 0 n n]] | _ => map (fun tag => [mkLR t (Some tag) [] None 0 n n]) f end) <->
    (exists tag, In tag (get_pos d t) /\ In tag (single_tags g) /\ c = [mkLR t (Some tag) [] None 0 n n]) \/ ((forall tag, In tag (get_pos d t) -> ~ In tag (single_tags g)) /\ c = [mkLR t None [] None 0 n n])) as SING.
  { assert (forall tag, In tag f <-> In tag (get_pos d t) /\ In tag (single_tags g)) as IF by (intros tag; unfold f; rewrite filter_In, mem_In; reflexivity).
    destruct f as [|t0 f'] eqn:EF.
    - cbn [map]. split.
      + intros [<-|[]]. right. split; [|reflexivity]. intros tag I1 I2. apply (IF tag). auto.
      + intros [(tag & I1 & I2 & _)|[_ ->]]; [destruct (proj2 (IF tag)); auto|left; reflexivity].
    - rewrite <- EF in *. assert (map (fun tag => [mkLR t (Some tag) [] None 0 n n]) f <> []) as NM by (rewrite EF; discriminate).
      replace (match map (fun tag => [mkLR t (Some tag) [] None 0 n n]) f with [] => [[mkLR t None [] None 0 n n]] | _ => map (fun tag => [mkLR t (Some tag) [] None 0 n n]) f end) with (map (fun tag => [mkLR t (Some tag) [] None 0 n n]) f) by (destruct (map _ f); [congruence|reflexivity]).
      rewrite in_map_iff. split.
      + intros (tag & <- & I). apply IF in I as [I1 I2]. left. exists tag. auto.
      + intros [(tag & I1 & I2 & ->)|[H _]]; [exists tag; split; [reflexivity|apply IF; auto]|]. exfalso. destruct (proj1 (IF t0)) as [I1 I2]; [rewrite EF; left; reflexivity|]. eapply H; eauto. }
  rewrite SING. clear SING COMP.
  assert (In c (concat (map (fun b => map (fun lt => [mkLR (firstn b t) (Some (fst lt)) (skipn b t) (Some (snd lt)) 0 b n])
        (filter (fun lt => word_is_tag d (firstn b t) (fst lt) && word_is_tag d (skipn b t) (snd lt)) (lr_templates g))) (seq 1 (n - 1)))) <->
    exists b lt rt, 0 < b < n /\ In (lt, rt) (lr_templates g) /\ word_is_tag d (firstn b t) lt = true /\ word_is_tag d (skipn b t) rt = true /\ c = [mkLR (firstn b t) (Some lt) (skipn b t) (Some rt) 0 b n]) as LR.
  { rewrite in_concat. split.
    - intros (l & I & J). apply in_map_iff in I as (b & <- & I). apply in_seq in I. apply in_map_iff in J as ([lt rt] & <- & J). apply filter_In in J as [J W]. cbn [fst snd] in *. apply andb_true_iff in W as [W1 W2].
      exists b, lt, rt. split; [lia|]. auto.
    - intros (b & lt & rt & R & I & W1 & W2 & ->). eexists. split; [apply in_map_iff; exists b; split; [reflexivity|apply in_seq; lia]|]. apply in_map_iff. exists (lt, rt). split; [reflexivity|]. apply filter_In. cbn [fst snd]. rewrite W1, W2. auto. }
  rewrite LR. clear LR. split.
  - intros [[H|H]|[H|[H|H]]]; [left; exact H|right; left; exact H|right; right; left; exact H|right; right; right; exists (u "Noun"); auto|right; right; right; exists (u "Adverb"); auto].
  - intros [H|[H|[H|(tag & [-> | ->] & H)]]]; auto 6.
Qed.
Lemma eojeol_covers g t c : t <> [] -> In c (eojeol_generate g t) -> covers t 0 c.
Proof.
  intros NE I. apply eojeol_In in I. cbv zeta in I. assert (0 < length t) by (destruct t; [congruence|cbn; lia]).
  assert (forall b l r lt rt, l = slice 0 b t -> r = slice b (length t) t -> b <= length t -> covers t 0 [mkLR l lt r rt 0 b (length t)]) as K.
  { intros b l r lt rt -> -> Hb. apply (covers_word t (mkLR _ lt _ rt 0 b (length t)) []); [unfold located; cbn [l_of r_of b_of m_of e_of]; repeat split; lia|constructor]. }
  destruct I as [(tag & _ & _ & ->)|[(_ & ->)|[(b & lt & rt & R & _ & _ & _ & ->)|(tag & _ & C & _)]]].
  - apply K; [rewrite slice_all; reflexivity|rewrite slice_nil; reflexivity|lia].
  - apply K; [rewrite slice_all; reflexivity|rewrite slice_nil; reflexivity|lia].
  - apply K; [unfold slice; rewrite Nat.sub_0_r; reflexivity|unfold slice; rewrite firstn_all2; [reflexivity|rewrite skipn_length; lia]|lia].
  - eapply cut_covers, C.
Qed.
Lemma eojeol_nonempty g t : eojeol_generate g t <> [].
Proof.
  unfold eojeol_generate. cbv zeta. destruct (map (fun tag => [mkLR t (Some tag) [] None 0 (length t) (length t)]) _); discriminate.
Qed.
