(** * MaxScoreTokenizer: results stated with the specification vocabulary *)
From Coq Require Import QArith Lqa.
From Verif Require Import PyBase PyDict PySort SortLemmas PyText TokenizerModel TokenizerSpec QLemmas MaxScoreProofs RegexTokProofs.
Open Scope nat_scope.

Lemma tiles_concat s p ts : p <= length s -> tiles s p ts -> concat (map tw ts) = skipn p s.
Proof.
  intros L T. induction T as [|p t ts E B W TL T IH]; simpl; [rewrite skipn_all; reflexivity|]. rewrite IH by lia. rewrite W.
  unfold slice. rewrite <- (firstn_skipn (te t - p) (skipn p s)) at 2. rewrite skipn_skipn. f_equal. f_equal. lia.
Qed.
Lemma tiles_In s p ts t : tiles s p ts -> In t ts -> p <= tb t /\ tb t < te t <= length s /\ tw t = slice (tb t) (te t) s /\ tl t = te t - tb t.
Proof.
  induction 1 as [|p x ts E B W TL T IH]; [intros []|]. intros [<-|I]; [subst; auto|]. specialize (IH I). intuition lia.
Qed.

Lemma ms_short scores ds ml t : length t <= 2 -> ms_recursive scores ds ml t = Ok [Tok t 0 (length t) ds (length t)].
Proof. intros L. unfold ms_recursive. apply Nat.leb_le in L. rewrite L. reflexivity. Qed.
Lemma short_tiles t ds : t <> [] -> tiles t 0 [Tok t 0 (length t) ds (length t)].
Proof.
  intros N. constructor; cbn [tb te tw tl].
  - reflexivity.
  - destruct t; [congruence|]. simpl. lia.
  - symmetry. apply slice_all.
  - lia.
  - constructor.
Qed.

Lemma ms_recursive_tiles scores ds ml t : t <> [] -> (2 <= ml)%Z -> exists out, ms_recursive scores ds ml t = Ok out /\ tiles t 0 out.
Proof.
  intros N M. destruct (Nat.le_gt_cases (length t) 2) as [L|L].
  - rewrite ms_short by exact L. eexists. split; [reflexivity|]. apply short_tiles, N.
  - destruct (ms_recursive_spec scores ds ml t M L) as (out & E & T & _). eauto.
Qed.
Lemma ms_recursive_err scores ds ml t : (ml < 2)%Z -> 3 <= length t -> ms_recursive scores ds ml t = Err IndexError.
Proof.
  intros M L. unfold ms_recursive. destruct (Nat.leb_spec (length t) 2); [lia|].
  replace (ms_initialize scores ds t (Z.to_nat (Z.min ml (Z.of_nat (length t)))) (length t)) with (@nil tok); [reflexivity|].
  unfold ms_initialize, ms_candidates. replace (Z.to_nat (Z.min ml (Z.of_nat (length t))) - 1) with 0 by lia. simpl.
  induction (seq 0 (length t - 1)); [reflexivity|assumption].
Qed.

Lemma ms_tokenize_tiles scores ds ml s : (2 <= ml)%Z -> exists tss, ms_tokenize scores ds ml s = Ok tss /\ Forall2 (fun e ts => tiles e 0 ts) (split s) tss.
Proof.
  intros M. unfold ms_tokenize. pose proof (split_words s) as W. induction W as [|e es [N _] W (tss & E & F)]; simpl; [exists []; auto|].
  destruct (ms_recursive_tiles scores ds ml e N M) as (out & Eo & T). rewrite Eo. cbn [bind]. rewrite E. cbn [bind]. eauto.
Qed.
Lemma ms_flat_text scores ds ml s : (2 <= ml)%Z -> exists ws, ms_tokenize_flat scores ds ml s = Ok ws /\ concat ws = filter nonspace s /\ Forall (fun w => w <> []) ws.
Proof.
  intros M. destruct (ms_tokenize_tiles scores ds ml s M) as (tss & E & F). unfold ms_tokenize_flat. rewrite E. cbn [bind]. eexists. split; [reflexivity|].
  rewrite <- concat_split. clear E. induction F as [|e ts es tss T F [IH1 IH2]]; simpl; [auto|]. rewrite map_app, concat_app. split.
  - rewrite IH1. rewrite (tiles_concat e 0) by (auto; lia). reflexivity.
  - apply Forall_app. split; [|exact IH2]. apply Forall_forall. intros w I. apply in_map_iff in I as (t & <- & I).
    destruct (tiles_In _ _ _ _ T I) as (_ & B & W & _). rewrite W. intros Z. apply (f_equal (fun l => length l)) in Z. rewrite slice_length in Z by lia. simpl in Z. lia.
Qed.
Lemma ms_tokenize_err scores ds ml s : (ml < 2)%Z ->
  (ms_tokenize scores ds ml s = Err IndexError <-> Exists (fun e => 3 <= length e) (split s)) /\
  (Forall (fun e => length e <= 2) (split s) -> ms_tokenize scores ds ml s = Ok (map (fun e => [Tok e 0 (length e) ds (length e)]) (split s))).
Proof.
  intros M. unfold ms_tokenize. induction (split s) as [|e es [IH1 IH2]]; simpl.
  - split; [|reflexivity]. split; [discriminate|]. intros H; inversion H.
  - destruct (Nat.le_gt_cases (length e) 2) as [L|L].
    + rewrite ms_short by exact L. cbn [bind]. split.
      * rewrite Exists_cons, <- IH1. destruct (mapM (ms_recursive scores ds ml) es) as [ts|x]; simpl; split; intros H; [discriminate|destruct H; [lia|discriminate]|right; congruence|destruct H; [lia|congruence]].
      * intros F. inversion F; subst. rewrite IH2 by assumption. reflexivity.
    + rewrite ms_recursive_err by assumption. cbn [bind]. split.
      * split; [intros _; left; exact L|reflexivity].
      * intros F. inversion F; subst. lia.
Qed.

(** C21 *)
Lemma SS_tb_NoDup l : StronglySorted (fun x y => tb x < tb y) l -> NoDup (map pos l).
Proof.
  induction 1 as [|x l S IH F]; simpl; constructor; [|exact IH]. intros I. apply in_map_iff in I as (y & E & I).
  rewrite Forall_forall in F. specialize (F _ I). unfold pos in E. injection E. lia.
Qed.
Lemma overlap_iff x y : overlap (pos x) (pos y) <-> overlaps x y = true.
Proof. rewrite overlaps_true. unfold overlap, pos. simpl. lia. Qed.

Lemma ms_greedy scores ds ml t out : (2 <= ml)%Z -> length t < 204 -> ms_recursive scores ds ml t = Ok out ->
  greedy scores ds ml t (map pos (filter multi out)).
Proof.
  intros M Ln E. destruct (Nat.le_gt_cases (length t) 2) as [L|L].
  - rewrite ms_short in E by exact L. injection E as <-. simpl. unfold multi, greedy, cand. simpl te. simpl tb. rewrite Nat.sub_0_r.
    destruct (Nat.leb_spec 2 (length t)) as [H|H]; simpl.
    + split; [repeat constructor; simpl; tauto|]. split; [intros x [<-|[]]; simpl; lia|]. split; [intros x y [<-|[]] [<-|[]]; congruence|].
      intros [b e] C. simpl in C. left. left. unfold pos. simpl. f_equal; lia.
    + split; [constructor|]. split; [intros x []|]. split; [intros x y []|]. intros [b e] C. simpl in C. lia.
  - destruct (ms_recursive_spec scores ds ml t M L) as (out' & E' & T & SS & PI & GI). rewrite E in E'. injection E' as <-.
    assert (MU : forall x, In x (filter multi out) <-> In x (ms_pick (length (ms_initialize scores ds t (Z.to_nat (Z.min ml (Z.of_nat (length t)))) (length t))) 0 (ms_initialize scores ds t (Z.to_nat (Z.min ml (Z.of_nat (length t)))) (length t)))).
    { intros x. rewrite filter_In. split.
      - intros [I Mx]. destruct (GI x I) as [J|(Lt & D & _)]; [exact J|]. exfalso. unfold multi in Mx. qb.
        pose proof (tiles_In _ _ _ _ T I) as (_ & B & _).
        pose proof (gap_single scores ds ml t M L (tb x) (te x) Ln ltac:(lia) D). lia.
      - intros I. split; [apply PI, I|]. apply picks_w in I. unfold multi. qb. lia. }
    split; [apply SS_tb_NoDup, SS_filter, SS|]. split; [|split].
    + intros x I. apply in_map_iff in I as (y & <- & I). apply MU in I. apply picks_cand in I as (b & e & C & ->). exact C.
    + intros x y Ix Iy N. apply in_map_iff in Ix as (u & <- & Iu). apply in_map_iff in Iy as (v & <- & Iv). apply MU in Iu, Iv.
      rewrite overlap_iff. destruct (picks_disj scores ds ml t) as [_ D]. rewrite D; [discriminate|exact Iu|exact Iv|]. congruence.
    + intros [b e] C. simpl in C. destruct (picks_complete scores ds ml t Ln b e C) as [I|(x & I & O & LE)].
      * left. apply in_map_iff. exists (ctok scores ds t b e). split; [reflexivity|]. apply MU, I.
      * destruct (picks_cand _ _ _ _ _ I) as (b' & e' & C' & ->).
        destruct (Nat.eq_dec b' b) as [->|Nb]; [destruct (Nat.eq_dec e' e) as [->|Ne]|].
        -- left. apply in_map_iff. eexists. split; [|apply MU, I]. reflexivity.
        -- right. exists (pos (ctok scores ds t b e')). split; [apply in_map, MU, I|]. split; [change (b, e) with (pos (ctok scores ds t b e)); apply overlap_iff, O|].
           unfold better. unfold ms_le in LE. simpl in *. qb. destruct LE as [H|[H1 H2]]; [left; exact H|right; split; [exact H1|]].
           destruct C as (? & _), C' as (? & _). lia.
        -- right. exists (pos (ctok scores ds t b' e')). split; [apply in_map, MU, I|]. split; [change (b, e) with (pos (ctok scores ds t b e)); apply overlap_iff, O|].
           unfold better. unfold ms_le in LE. simpl in *. qb. destruct LE as [H|[H1 H2]]; [left; exact H|right; split; [exact H1|]]. lia.
Qed.

(** the specification determines the selection *)
Lemma better_irrefl scores ds t x : ~ better scores ds t x x.
Proof. unfold better. intros [H|[H1 H2]]; [lra|lia]. Qed.
Lemma better_trans scores ds t x y z : better scores ds t x y -> better scores ds t y z -> better scores ds t x z.
Proof. unfold better. cbv zeta. intros [A|[A A']] [B|[B B']]; [left; lra|left; lra|left; lra|right; split; [lra|lia]]. Qed.
Definition betterb (scores : dict str Q) (ds : Q) (s : str) (x y : nat * nat) : bool :=
  let f := score_of scores ds s in
  qltb (f (fst y) (snd y)) (f (fst x) (snd x)) ||
  Qeq_bool (f (fst x) (snd x)) (f (fst y) (snd y)) && ((snd y - fst y <? snd x - fst x) || (snd x - fst x =? snd y - fst y) && (fst x <? fst y)).
Lemma betterb_iff scores ds s x y : betterb scores ds s x y = true <-> better scores ds s x y.
Proof. unfold betterb, better. cbv zeta. qb. tauto. Qed.
Lemma filter_le_length {A} (f g : A -> bool) l : (forall x, In x l -> f x = true -> g x = true) -> length (filter f l) <= length (filter g l).
Proof.
  induction l as [|x l IH]; intros H; simpl; [lia|]. specialize (IH (fun y I => H y (or_intror I))). specialize (H x (or_introl eq_refl)).
  destruct (f x); [rewrite H by reflexivity; simpl; lia|]. destruct (g x); simpl; lia.
Qed.
Lemma filter_lt_length {A} (f g : A -> bool) l a : In a l -> f a = false -> g a = true -> (forall x, In x l -> f x = true -> g x = true) -> length (filter f l) < length (filter g l).
Proof.
  induction l as [|x l IH]; intros I Fa Ga H; [destruct I|]. simpl. destruct I as [->|I].
  - rewrite Fa, Ga. simpl. pose proof (filter_le_length f g l (fun y J => H y (or_intror J))). lia.
  - specialize (IH I Fa Ga (fun y J => H y (or_intror J))). pose proof (H x (or_introl eq_refl)) as Hx.
    destruct (f x); [rewrite Hx by reflexivity; simpl; lia|]. destruct (g x); simpl; lia.
Qed.

Lemma greedy_unique scores ds ml t R1 R2 : greedy scores ds ml t R1 -> greedy scores ds ml t R2 -> forall x, In x R1 <-> In x R2.
Proof.
  intros G1 G2. set (L := list_prod (seq 0 (S (length t))) (seq 0 (S (length t)))).
  set (m := fun x => length (filter (fun y => betterb scores ds t y x) L)).
  assert (IL : forall x, cand ml t (fst x) (snd x) -> In x L).
  { intros [b e] (A & _ & C). simpl in A, C. apply in_prod; apply in_seq; lia. }
  assert (K : forall k x, m x <= k -> In x R1 <-> In x R2).
  { induction k as [k IH] using lt_wf_ind. intros x Lk.
    assert (H : forall Ra Rb, greedy scores ds ml t Ra -> greedy scores ds ml t Rb -> (forall y, m y < m x -> (In y Rb -> In y Ra)) -> In x Ra -> In x Rb).
    { intros Ra Rb (_ & Ca & Da & _) (_ & Cb & _ & Gb) S I. destruct (Gb x (Ca x I)) as [J|(y & J & O & B)]; [exact J|]. exfalso.
      assert (Iy : In y Ra).
      { apply S; [|exact J]. unfold m. apply (filter_lt_length _ _ _ y); [apply IL, Cb, J| | |].
        - apply not_true_is_false. rewrite betterb_iff. apply better_irrefl.
        - apply betterb_iff, B.
        - intros z _ Z. apply betterb_iff in Z. apply betterb_iff. eapply better_trans; eassumption. }
      apply (Da y x Iy I); [|exact O]. intros ->. eapply better_irrefl, B. }
    split; intros I; [apply (H R1 R2)|apply (H R2 R1)]; auto; intros y Ly J; apply (IH (m y)) with (x := y) in J; auto; lia. }
  intros x. apply (K (m x)). lia.
Qed.

(** C22 *)
Lemma ms_scores scores ds ml t out : (2 <= ml)%Z -> 3 <= length t < 204 -> ms_recursive scores ds ml t = Ok out -> forall k, In k out ->
  (tsc k = if (2 <=? te k - tb k) || (tb k =? 0) || (te k =? length t) then score_of scores ds t (tb k) (te k) else ds).
Proof.
  intros M [L Ln] E k I. destruct (ms_recursive_spec scores ds ml t M L) as (out' & E' & T & SS & PI & GI). rewrite E in E'. injection E' as <-.
  destruct (GI k I) as [J|(Lt & D & Sc)].
  - destruct (picks_cand _ _ _ _ _ J) as (b & e & (A & _) & ->). cbn [ctok tb te tsc]. destruct (Nat.leb_spec 2 (e - b)); [reflexivity|lia].
  - pose proof (tiles_In _ _ _ _ T I) as (_ & B & _). pose proof (gap_single scores ds ml t M L (tb k) (te k) Ln ltac:(lia) D).
    destruct (Nat.leb_spec 2 (te k - tb k)); [lia|]. exact Sc.
Qed.
