From Coq Require Import List ZArith NArith QArith Lia Permutation Sorted.
Import ListNotations.
From Verif Require Import PyBase PyDict PySort PyText PyFile SortLemmas UtilsModel UtilsSpec UtilsProofs UtilsProofs2 UtilsProofs3 UtilsProofs4 UtilsProofs5 CrashModel CrashSpec CrashProofs CrashProofs2 CrashProofs3.
Open Scope Z_scope.

Definition loads (g1 : lrg) (s : str) (T : list pair3) : Prop := exists g2, lrg_load g1 s = Ok g2 /\ Inv g2 /\ origin g2 = Some (lr g2) /\
  l_max g2 = l_max g1 /\ r_max g2 = r_max g1 /\ forall l r c, holds_pair (lr g2) l r c <-> In (l, r, c) T.

Lemma load_end (T : list pair3) o l rd g1 s : is_graph o -> NoDup (map fst rd) -> ~ In l (map fst o) -> (forall a r c, In (a, r, c) T <-> holds_pair o a r c \/ (a = l /\ In (r, c) rd)) ->
  (rd = [] -> o = []) -> load_loop (file_lines s) [] [] [] = load_loop [] o l rd -> (T = [] -> lrg_load g1 s = Err IndexError) /\ (T <> [] -> loads g1 s T).
Proof.
  intros G ND NI M RO E.
  assert (P : exists d, load_loop (file_lines s) [] [] [] = Ok d /\ is_graph d /\ (forall a r c, holds_pair d a r c <-> In (a, r, c) T) /\ (d = [] <-> rd = [])).
  { rewrite E. cbn [load_loop]. destruct rd as [|x rd].
    - rewrite (RO eq_refl) in *. eexists. split; [reflexivity|]. split; [exact G|]. split; [|tauto]. intros a r c. rewrite M. cbn [In]. tauto.
    - rewrite dset_items_new by (apply dget_None; exact NI). eexists. split; [reflexivity|]. split; [|split].
      + destruct G as [G1 G2]. split; [rewrite map_app; apply CountLemmas.NoDup_app_intro; [exact G1|constructor; [intros []|constructor]|intros k I [<-|[]]; exact (NI I)]|apply Forall_app; split; [exact G2|constructor; [exact ND|constructor]]].
      + intros a r c. rewrite holds_pair_app, holds_pair_one, M. tauto.
      + split; [destruct o; discriminate|discriminate]. }
  destruct P as (d & L & Gd & Md & Ed). unfold loads, lrg_load. rewrite L. cbn [bind].
  assert (TE : T = [] <-> d = []).
  { split.
    - intros ->. apply Ed. destruct rd as [|[r c] rd]; [reflexivity|]. exfalso. apply (proj2 (M l r c)). right. split; [reflexivity|left; reflexivity].
    - intros ->. destruct T as [|[[a r] c] T]; [reflexivity|]. exfalso. destruct (proj2 (Md a r c) (or_introl eq_refl)) as (? & [] & _). }
  split.
  - intros T0. apply TE in T0. rewrite T0. reflexivity.
  - intros TN. assert (DN : d <> []) by (intros X; apply TN, TE, X). assert (C : check_lrgraph d = Ok (d, make_rl d)) by (destruct d; [congruence|reflexivity]).
    rewrite C. cbn [bind fst snd]. eexists. split; [reflexivity|]. split; [|cbn [lr origin l_max r_max]; repeat split; try reflexivity; apply Md].
    constructor; cbn [lr rl origin]; [exact Gd|apply make_rl_wf|intros; apply make_rl_spec; exact Gd|apply make_rl_full|exact Gd].
Qed.

Lemma graph_line_no_nl t : word (t_l t) -> nospace (t_r t) -> no_nl (graph_line t).
Proof.
  intros [_ A] B. assert (SPn : no_nl [32%N]) by (constructor; [split; discriminate|constructor]). unfold graph_line.
  apply Forall_app; split; [apply nospace_no_nl; exact A|]. apply Forall_app; split; [exact SPn|].
  apply Forall_app; split; [apply nospace_no_nl; exact B|]. apply Forall_app; split; [exact SPn|].
  apply nospace_no_nl, format_int_word.
Qed.
Lemma piece_nospace r0 r : piece r0 r -> nospace r -> nospace r0.
Proof. intros [t ->] H. apply Forall_app in H. tauto. Qed.
Lemma piece_cons x q y s : piece (x :: q) (y :: s) -> x = y /\ piece q s.
Proof. intros [t E]. cbn [app] in E. injection E as -> E. split; [reflexivity|exists t; exact E]. Qed.
Lemma cut_graph_line l r c q : word l -> nospace r -> 0 < c -> piece q (graph_line (l, r, c)) ->
  q = [] \/ ((1 <= length q <= S (length l))%nat /\ exists x, split q = [x]) \/
  (r = [] /\ q = l ++ [32%N; 32%N] /\ split q = [l]) \/
  (exists r0, r0 <> [] /\ piece r0 r /\ (q = l ++ [32%N] ++ r0 \/ r0 = r /\ q = l ++ [32%N] ++ r ++ [32%N]) /\ split q = [l; r0]) \/
  exists d, d <> [] /\ piece d (format_int c) /\ q = l ++ [32%N] ++ r ++ [32%N] ++ d /\ split q = match r with [] => [l; d] | _ => [l; r; d] end.
Proof.
  intros W R P Q. unfold graph_line, t_l, t_r, t_c in Q. cbn [fst snd] in Q. apply piece_app in Q as [(t & E)|(q' & -> & Q)].
  - destruct q as [|x q]; [left; reflexivity|right; left]. assert (L : length l = (length (x :: q) + length t)%nat) by (rewrite E, app_length; reflexivity).
    split; [cbn [length] in *; lia|]. exists (x :: q). apply split_word. split; [discriminate|]. destruct W as [_ W]. rewrite E in W. apply Forall_app in W. tauto.
  - right. destruct q' as [|x d].
    { left. rewrite app_nil_r. split; [destruct W as [NE _]; destruct l; [congruence|cbn [length]; lia]|]. exists l. apply split_word, W. }
    cbn [app] in Q. apply piece_cons in Q as [-> Q]. change 32%N with SP. rewrite split_word_sp by (assumption || reflexivity).
    apply piece_app in Q as [(t & E)|(d' & -> & Q)].
    + destruct d as [|y d]; [left; rewrite app_length; cbn [length]; split; [lia|exists l; reflexivity]|]. right. right. left. exists (y :: d). split; [discriminate|]. split; [exists t; exact E|].
      split; [left; reflexivity|]. f_equal. apply split_word. split; [discriminate|]. apply (piece_nospace _ r); [exists t; exact E|exact R].
    + destruct d' as [|y d'].
      * rewrite app_nil_r. destruct r as [|x r]; [left; rewrite app_length; cbn [length]; split; [lia|exists l; reflexivity]|]. right. right. left. exists (x :: r). split; [discriminate|].
        split; [exists []; rewrite app_nil_r; reflexivity|]. split; [left; reflexivity|]. f_equal. apply split_word. split; [discriminate|exact R].
      * cbn [app] in Q. apply piece_cons in Q as [-> Q]. change 32%N with SP. right. destruct d' as [|z d'].
        -- destruct r as [|x r]; [left; split; [reflexivity|]; split; reflexivity|]. right. left. exists (x :: r). split; [discriminate|]. split; [exists []; rewrite app_nil_r; reflexivity|]. split; [right; split; reflexivity|].
           f_equal. rewrite split_word_sp by (reflexivity || (split; [discriminate|exact R])). reflexivity.
        -- right. right. exists (z :: d'). split; [discriminate|]. split; [exact Q|]. split; [reflexivity|]. pose proof (piece_number_word c (z :: d') Q ltac:(discriminate)) as Wd. destruct r as [|x r].
           ++ cbn [app]. rewrite split_sp by reflexivity. f_equal. apply split_word, Wd.
           ++ rewrite split_word_sp by (reflexivity || (split; [discriminate|exact R])). do 2 f_equal. apply split_word, Wd.
Qed.
Lemma dset_items (d : dict str Z) k v : NoDup (map fst d) -> forall a b, In (a, b) (dset d k v) <-> (a, b) = (k, v) \/ a <> k /\ In (a, b) d.
Proof.
  intros ND a b. assert (ND' : NoDup (map fst (dset d k v))) by (apply dwf_dset; exact ND).
  assert (X : In (a, b) (dset d k v) <-> dget (dset d k v) a = Some b) by (split; [apply In_dget, ND'|apply dget_In]).
  assert (Y : In (a, b) d <-> dget d a = Some b) by (split; [apply In_dget, ND|apply dget_In]).
  rewrite X, Y, dget_dset. destruct (eqb_spec k a) as [->|NE]; split.
  - intros E. left. congruence.
  - intros [E|[N _]]; congruence.
  - intros E. right. split; [congruence|exact E].
  - intros [E|[_ E]]; [congruence|exact E].
Qed.
Lemma dset_nodup (d : dict str Z) k v : NoDup (map fst d) -> NoDup (map fst (dset d k v)).
Proof. intros ND. apply dwf_dset, ND. Qed.
Lemma graph_cut T k l r c q g1 : grouped T -> Forall (fun t => word (t_l t) /\ nospace (t_r t)) T -> Forall (fun t => 0 < t_c t) T ->
  nth_error T k = Some (l, r, c) -> piece q (graph_line (l, r, c)) -> forall s, s = written (map graph_line (firstn k T)) ++ q ->
  (q = [] /\ k = 0%nat /\ lrg_load g1 s = Err IndexError) \/ (q = [] /\ (0 < k)%nat /\ loads g1 s (firstn k T)) \/
  ((1 <= length q <= S (length l))%nat /\ lrg_load g1 s = Err ValueError) \/
  (r = [] /\ q = l ++ [32%N; 32%N] /\ lrg_load g1 s = Err ValueError) \/
  (exists r0, r0 <> [] /\ piece r0 r /\ (q = l ++ [32%N] ++ r0 \/ r0 = r /\ q = l ++ [32%N] ++ r ++ [32%N]) /\
     match parse_int r0 with
     | Err _ => lrg_load g1 s = Err ValueError
     | Ok z => loads g1 s ((l, [], z) :: filter (fun t => negb (eqb (t_l t) l && eqb (t_r t) [])) (firstn k T))
     end) \/
  exists d, d <> [] /\ piece d (format_int c) /\ q = l ++ [32%N] ++ r ++ [32%N] ++ d /\ loads g1 s (firstn k T ++ [(l, r, first_digits c d)]).
Proof.
  intros G F PS NT Q s ->. assert (IN : In (l, r, c) T) by (eapply nth_error_In; exact NT).
  assert (WR : word l /\ nospace r) by (rewrite Forall_forall in F; apply (F _ IN)). destruct WR as [W R]. assert (P : 0 < c) by (rewrite Forall_forall in PS; apply (PS _ IN)).
  assert (SPL : T = firstn k T ++ (l, r, c) :: skipn (S k) T) by (rewrite <- (firstn_skipn k T) at 1; f_equal; clear -NT; revert k NT; induction T as [|x t IH]; intros [|k] N; try discriminate N; [injection N as ->; reflexivity|apply IH, N]).
  destruct (G _ _ _ SPL) as [G1 G2]. unfold t_l, t_r in G1, G2. cbn [fst snd] in G1, G2.
  destruct (load_complete T G F k) as (o & l1 & rd & L & E). 
  assert (Fk : Forall (fun t => word (t_l t) /\ nospace (t_r t)) (firstn k T)) by (rewrite SPL in F; apply Forall_app in F; tauto).
  assert (NL : Forall no_nl (map graph_line (firstn k T))) by (apply Forall_map; eapply Forall_impl; [|exact Fk]; intros t [A B]; apply graph_line_no_nl; assumption).
  assert (FL : load_loop (file_lines (written (map graph_line (firstn k T)) ++ q)) [] [] [] = load_loop match q with [] => [] | _ => [q] end o l1 rd).
  { rewrite cut_lines; [apply E|exact NL|]. apply (piece_no_nl q _ Q), (graph_line_no_nl (l, r, c)); assumption. }
  set (s := written _ ++ q) in *. clearbody s. clear E.
  assert (BAD : q <> [] -> (exists x, split q = [x]) -> lrg_load g1 s = Err ValueError).
  { intros NE (x & X). unfold lrg_load. rewrite FL. destruct q as [|y q]; [congruence|]. cbn [load_loop]. rewrite X. reflexivity. }
  pose proof L as (H1 & H2 & H3 & H4 & H5 & H6 & H7).
  destruct (cut_graph_line l r c q W R P Q) as [->|[[LQ SQ]|[(-> & QE & SQ)|[(r0 & RN & RP & QE & SQ)|(d & DN & DP & DQ & SQ)]]]].
  - destruct (load_end (firstn k T) o l1 rd g1 s H3 H2 H4 H7 ltac:(intros X; apply H1, X) FL) as [Z1 Z2]. destruct k as [|k]; [left; split; [reflexivity|]; split; [reflexivity|apply Z1; reflexivity]|].
    right. left. split; [reflexivity|]. split; [lia|]. apply Z2. destruct T; [discriminate NT|discriminate].
  - right. right. left. split; [exact LQ|]. apply BAD; [intros ->; cbn [length] in LQ; lia|exact SQ].
  - right. right. right. left. split; [reflexivity|]. split; [exact QE|]. apply BAD; [rewrite QE; destruct l; discriminate|exists l; exact SQ].
  - right. right. right. right. left. exists r0. split; [exact RN|]. split; [exact RP|]. split; [exact QE|].
    assert (QN : q <> []) by (destruct QE as [->|[_ ->]]; destruct l; discriminate). destruct (parse_int r0) as [z|e] eqn:PI.
    + assert (FL' : load_loop (file_lines s) [] [] [] = load_loop [] (fst (closed o l1 rd l)) l (dset (snd (closed o l1 rd l)) [] z)).
      { rewrite FL. destruct q as [|y q]; [congruence|]. apply (load_line (y :: q) [] o l1 rd l [] z). exists r0. auto. }
      destruct (closed_loaded _ _ _ _ l L G1) as (C1 & C2 & C3 & C4 & C5). cbv zeta in *.
      apply (load_end _ (fst (closed o l1 rd l)) l (dset (snd (closed o l1 rd l)) [] z) g1 s C2); [apply dset_nodup, C1|exact C3| | |exact FL'|discriminate].
      * intros a r' c'. rewrite dset_items by exact C1. cbn [In]. rewrite filter_In, C5. unfold t_l, t_r. cbn [fst snd].
        rewrite negb_true_iff, andb_false_iff, !eqb_neq.
        assert (X : holds_pair (fst (closed o l1 rd l)) a r' c' -> a <> l). { intros (rd' & A & _) ->. apply C3, in_map_iff. exists (l, rd'). auto. }
        split.
        -- intros [EQ|[[B|[-> B]] N]]; [right; split; [congruence|left; congruence]|left; exact B|]. right. split; [reflexivity|]. right. split; [|exact B]. intros ->. destruct N; congruence.
        -- intros [B|[-> [EQ|[N B]]]]; [right; split; [left; exact B|left; apply X, B]|left; congruence|]. right. split; [right; auto|right; exact N].
      * intros X. exfalso. pose proof (dset_items (snd (closed o l1 rd l)) [] z C1 [] z) as Y. rewrite X in Y. apply (proj2 Y). left. reflexivity.
    + unfold lrg_load. rewrite FL. destruct q as [|y q]; [congruence|]. cbn [load_loop]. rewrite SQ, PI. cbn [bind]. f_equal.
      apply (parse_int_error _ _ PI).
  - right. right. right. right. right. exists d. split; [exact DN|]. split; [exact DP|]. split; [exact DQ|].
    assert (QN : q <> []) by (rewrite DQ; destruct l; discriminate).
    assert (FL' : load_loop (file_lines s) [] [] [] = load_loop [] (fst (closed o l1 rd l)) l (dset (snd (closed o l1 rd l)) r (first_digits c d))).
    { rewrite FL. destruct q as [|y q]; [congruence|]. apply (load_line (y :: q) [] o l1 rd l r). exists d. split; [exact SQ|]. apply cut_number; [lia|exact DP|exact DN]. }
    destruct (load_step _ _ _ _ l r (first_digits c d) L G1 G2) as (S1 & S2 & S3 & S4 & S5 & S6 & S7).
    apply (load_end _ _ _ _ g1 s S3 S2 S4 S7); [intros X; apply (S1 X)|exact FL'|destruct (firstn k T); discriminate].
Qed.
