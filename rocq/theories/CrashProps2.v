(** * C86: an interrupted LRGraph.save, and the graph a failed load leaves *)
From Coq Require Import List ZArith NArith QArith Lia Permutation Sorted.
Import ListNotations.
From Verif Require Import PyBase PyDict PySort PyText PyFile SortLemmas UtilsModel UtilsSpec UtilsProofs UtilsProofs2 UtilsProofs3 UtilsProofs4 UtilsProofs5 UtilsProps CrashModel CrashSpec CrashProofs CrashProofs2 CrashProofs3 CrashProofs4.
Open Scope Z_scope.

Lemma loads_ok g1 s T : loads g1 s T -> loads_pairs g1 s T.
Proof.
  intros (g2 & L & I & O & A & B & P). exists g2. split; [exact L|]. split; [apply I|]. split; [apply I|]. split; [exact O|]. split; [exact A|]. split; [exact B|]. split; [exact P|].
  intros l r c. rewrite <- (pget_holds (rl g2)) by apply I. rewrite (inv_eq _ I), <- P, <- (pget_holds (lr g2)) by apply I.
  destruct r; [intuition congruence|]. intuition congruence.
Qed.

Theorem C86_interrupted_save : forall g o, origin g = Some o -> is_graph o -> storable o -> (forall l r c, holds_pair o l r c -> 0 < c) ->
  exists T, (forall l r c, In (l, r, c) T <-> holds_pair o l r c) /\ NoDup (map (fun t => (t_l t, t_r t)) T) /\ alphabetical T /\
  lrg_save g = Ok (written (map graph_line T)) /\
  forall s, piece s (written (map graph_line T)) -> s = written (map graph_line T) \/
  exists k l r c q, nth_error T k = Some (l, r, c) /\ s = written (map graph_line (firstn k T)) ++ q /\ forall g1,
    (q = [] /\ k = 0%nat /\ lrg_load g1 s = Err IndexError) \/ (q = [] /\ (0 < k)%nat /\ loads_pairs g1 s (firstn k T)) \/
    ((1 <= length q <= S (length l))%nat /\ lrg_load g1 s = Err ValueError) \/
    (r = [] /\ q = l ++ [32%N; 32%N] /\ lrg_load g1 s = Err ValueError) \/
    (exists r0, r0 <> [] /\ piece r0 r /\ (q = l ++ [32%N] ++ r0 \/ r0 = r /\ q = l ++ [32%N] ++ r ++ [32%N]) /\
       match parse_int r0 with
       | Err _ => lrg_load g1 s = Err ValueError
       | Ok z => loads_pairs g1 s ((l, [], z) :: filter (fun t => negb (eqb (t_l t) l && eqb (t_r t) [])) (firstn k T))
       end) \/
    exists d, d <> [] /\ piece d (format_int c) /\ q = l ++ [32%N] ++ r ++ [32%N] ++ d /\ loads_pairs g1 s (firstn k T ++ [(l, r, first_digits c d)]).
Proof.
  intros g o OR G W PS. pose proof (sorted_graph_wf o G) as G'. exists (flat (sorted_graph o)).
  assert (M : forall l r c, In (l, r, c) (flat (sorted_graph o)) <-> holds_pair o l r c) by (intros l r c; rewrite flat_In; apply sorted_graph_holds).
  assert (ND : NoDup (map (fun t => (t_l t, t_r t)) (flat (sorted_graph o)))) by (apply flat_NoDup, G').
  assert (AL : alphabetical (flat (sorted_graph o))) by (apply flat_sorted, G).
  split; [exact M|]. split; [exact ND|]. split; [exact AL|].
  split; [rewrite (save_rows g o OR), rows_flat; unfold written; rewrite map_map; reflexivity|].
  assert (F : Forall (fun t => word (t_l t) /\ nospace (t_r t)) (flat (sorted_graph o))).
  { apply Forall_forall. intros [[l r] c] I. apply M, W in I. unfold t_l, t_r. cbn [fst snd]. destruct I as (A & B & C). split; [split; [exact A|exact B]|exact C]. }
  assert (P : Forall (fun t => 0 < t_c t) (flat (sorted_graph o))).
  { apply Forall_forall. intros [[l r] c] I. apply M, PS in I. exact I. }
  intros s S0. apply piece_written in S0 as [->|(k & b & q & K & Q & ->)]; [left; reflexivity|right|apply Forall_map; eapply Forall_impl; [|exact F]; intros t [A B]; apply graph_line_no_nl; assumption].
  rewrite nth_error_map in K. destruct (nth_error (flat (sorted_graph o)) k) as [[[l r] c]|] eqn:N; [|discriminate K]. cbn [option_map] in K. assert (b = graph_line (l, r, c)) as -> by congruence. rewrite firstn_map.
  exists k, l, r, c, q. split; [exact N|]. split; [reflexivity|]. intros g1.
  destruct (graph_cut _ k l r c q g1 (alphabetical_grouped _ AL ND) F P N Q _ eq_refl) as [H|[(H1 & H2 & H3)|[H|[H|[(r0 & H1 & H2 & H3 & H4)|(d & H1 & H2 & H3 & H4)]]]]].
  - left. exact H.
  - right. left. split; [exact H1|]. split; [exact H2|]. apply loads_ok, H3.
  - right. right. left. exact H.
  - right. right. right. left. exact H.
  - right. right. right. right. left. exists r0. split; [exact H1|]. split; [exact H2|]. split; [exact H3|]. destruct (parse_int r0); [apply loads_ok, H4|exact H4].
  - right. right. right. right. right. exists d. split; [exact H1|]. split; [exact H2|]. split; [exact H3|]. apply loads_ok, H4.
Qed.
Print Assumptions C86_interrupted_save.

(** when no right part begins like a number, what can be loaded after an interruption is part of what was saved:
    no new pair, no count above the true one, at most one below it *)
Theorem C86_no_invention : forall g o text s g1 g2, origin g = Some o -> is_graph o -> storable o -> (forall l r c, holds_pair o l r c -> 0 < c) ->
  (forall l r c r0, holds_pair o l r c -> r0 <> [] -> piece r0 r -> exists e, parse_int r0 = Err e) ->
  lrg_save g = Ok text -> piece s text -> lrg_load g1 s = Ok g2 ->
  (forall l r c, holds_pair (lr g2) l r c -> exists c', holds_pair o l r c' /\ 0 < c <= c') /\
  (forall l1 r1 c1 l2 r2 c2, holds_pair (lr g2) l1 r1 c1 -> ~ holds_pair o l1 r1 c1 -> holds_pair (lr g2) l2 r2 c2 -> ~ holds_pair o l2 r2 c2 -> (l1, r1) = (l2, r2)).
Proof.
  intros g o text s g1 g2 OR G W PS NN SV P L. destruct (C86_interrupted_save g o OR G W PS) as (T & M & ND & AL & SV' & CUT). rewrite SV in SV'.
  assert (text = written (map graph_line T)) as -> by congruence. clear SV'.
  assert (FI : forall k x, In x (firstn k T) -> In x T) by (intros k x I; rewrite <- (firstn_skipn k T); apply in_or_app; auto).
  assert (GOOD : forall k last, loads_pairs g1 s (firstn k T ++ last) -> (last = [] \/ exists l r c d, In (l, r, c) T /\ 0 < d <= c /\ last = [(l, r, d)]) ->
     (forall l r c, holds_pair (lr g2) l r c -> exists c', holds_pair o l r c' /\ 0 < c <= c') /\
     (forall l1 r1 c1 l2 r2 c2, holds_pair (lr g2) l1 r1 c1 -> ~ holds_pair o l1 r1 c1 -> holds_pair (lr g2) l2 r2 c2 -> ~ holds_pair o l2 r2 c2 -> (l1, r1) = (l2, r2))).
  { intros k last (g2' & L' & _ & _ & _ & _ & _ & H & _) LA. assert (g2' = g2) as -> by congruence. split.
    - intros l r c I. apply H, in_app_or in I as [I|I]; [apply FI, M in I; exists c; split; [exact I|]; specialize (PS _ _ _ I); lia|].
      destruct LA as [->|(l0 & r0 & c0 & d & I0 & D & ->)]; [destruct I|]. destruct I as [E|[]]. assert (l0 = l /\ r0 = r /\ d = c) as (-> & -> & ->) by (repeat split; congruence). exists c0. split; [apply M, I0|exact D].
    - intros l1 r1 c1 l2 r2 c2 I1 N1 I2 N2. apply H, in_app_or in I1 as [I1|I1]; [exfalso; apply N1, M, (FI k), I1|]. apply H, in_app_or in I2 as [I2|I2]; [exfalso; apply N2, M, (FI k), I2|].
      destruct LA as [->|(l0 & r0 & c0 & d & I0 & D & ->)]; [destruct I1|]. destruct I1 as [E1|[]], I2 as [E2|[]]. congruence. }
  destruct (CUT s P) as [->|(k & l & r & c & q & K & -> & C)].
  - destruct (C32_save_load g o OR G W) as (t & S1 & S2). assert (t = written (map graph_line T)) as -> by congruence. destruct (S2 g1) as [S3 S4].
    assert (X : (exists l r c, holds_pair o l r c) \/ (forall l r c, ~ holds_pair o l r c)).
    { destruct T as [|[[a b] c] T]; [right; intros l r c I; apply M in I; destruct I|left; exists a, b, c; apply M; left; reflexivity]. }
    destruct X as [X|X]; [|rewrite (S3 X) in L; discriminate L]. destruct (S4 X) as (g2' & L' & _ & H & _). assert (g2' = g2) as -> by congruence. split.
    + intros l r c I. apply H in I. exists c. split; [exact I|]. specialize (PS _ _ _ I). lia.
    + intros l1 r1 c1 l2 r2 c2 I1 N1. exfalso. apply N1, H, I1.
  - assert (IN : In (l, r, c) T) by (eapply nth_error_In; exact K). pose proof (proj1 (M l r c) IN) as HO.
    destruct (C g1) as [(_ & _ & H)|[(_ & _ & H)|[(_ & H)|[(_ & _ & H)|[(r0 & H1 & H2 & H3 & H4)|(d & H1 & H2 & H3 & H4)]]]]]; try (rewrite H in L; discriminate L).
    + apply (GOOD k []); [rewrite app_nil_r; exact H|left; reflexivity].
    + destruct (NN l r c r0 HO H1 H2) as (e & E). rewrite E in H4. rewrite H4 in L. discriminate L.
    + apply (GOOD k _ H4). right. specialize (PS _ _ _ HO). exists l, r, c, (first_digits c d). split; [exact IN|]. split; [|reflexivity]. split; [apply first_digits_pos; assumption|apply first_digits_le; lia].
Qed.
Print Assumptions C86_no_invention.

(** without that condition a truncated file can load as a graph with a pair nobody ever stored *)
Theorem C86_no_new_pair_refuted : exists g o text s g1 g2, origin g = Some o /\ is_graph o /\ storable o /\ (forall l r c, holds_pair o l r c -> 0 < c) /\
  lrg_save g = Ok text /\ piece s text /\ lrg_load g1 s = Ok g2 /\ holds_pair (lr g2) (u "a") [] 19 /\ forall c, ~ holds_pair o (u "a") [] c.
Proof.
  exists (mkLrg [] [] (Some [(u "a", [(u "19th", 3)])]) 10 9), [(u "a", [(u "19th", 3)])], (u "a 19th 3
"), (u "a 19"), (mkLrg [] [] None 10 9).
  eexists. split; [reflexivity|]. split; [split; repeat constructor; cbn; tauto|].
  assert (X : forall l r c, holds_pair [(u "a", [(u "19th", 3)])] l r c -> l = u "a" /\ r = u "19th" /\ c = 3).
  { intros l r c (rd & I0 & J). destruct I0 as [E|[]]. assert (l = u "a" /\ rd = [(u "19th", 3)]) as [-> ->] by (split; congruence). destruct J as [E'|E']; [split; [reflexivity|]; split; congruence|destruct E']. }
  split; [intros l r c I; destruct (X _ _ _ I) as (-> & -> & ->); split; [discriminate|split; repeat constructor]|].
  split; [intros l r c I; destruct (X _ _ _ I) as (-> & -> & ->); reflexivity|].
  split; [vm_compute; reflexivity|]. split; [exists (u "th 3
"); reflexivity|]. split; [vm_compute; reflexivity|]. split; [exists [([], 19)]; split; left; reflexivity|]. intros c I. destruct (X _ _ _ I) as (_ & E & _). discriminate E.
Qed.
Print Assumptions C86_no_new_pair_refuted.

Example C86_case : let o := [(u "a", [(u "bc", 12); ([], 345)]); (u "d", [(u "e", 6)])] in let g := mkLrg [] [] (Some o) 10 9 in
  is_graph o /\ lrg_save g = Ok (u "a  345
a bc 12
d e 6
") /\ lrg_load g (u "a  345
a b") = Err ValueError /\ (match lrg_load g (u "a  345
a bc 1") with Ok g2 => lr g2 = [(u "a", [([], 345); (u "bc", 1)])] | Err _ => False end) /\ lrg_load g [] = Err IndexError.
Proof.
  split; [split; repeat constructor; cbn; intuition discriminate|]. vm_compute. auto.
Qed.

Lemma dset_cases {V} (d : dict str V) k v a b : In (a, b) (dset d k v) -> (a, b) = (k, v) \/ In (a, b) d.
Proof.
  induction d as [|[k' v'] d IH]; cbn [dset In]; [intros [E|[]]; left; congruence|]. destruct (eqb_spec k' k) as [->|NE]; cbn [In].
  - intros [E|I]; [left; congruence|right; right; exact I].
  - intros [E|I]; [right; left; exact E|]. destruct (IH I) as [E|I']; [left; exact E|right; right; exact I'].
Qed.
(** ** the graph a failed load leaves: the graph in use is untouched, but what reset_lrgraph will restore is replaced by the
    left parts that had been read completely *)
Definition graph_row (line : str) (t : pair3) : Prop := exists n, parse_int n = Ok (t_c t) /\ (split line = [t_l t; t_r t; n] \/ split line = [t_l t; n] /\ t_r t = []).
Theorem C86_failed_load : forall g content,
  match lrg_load g content with
  | Ok g2 => lrg_load_into g content = (g2, None)
  | Err e => exists o, lrg_load_into g content = (mkLrg (lr g) (rl g) (Some o) (l_max g) (r_max g), Some e) /\
      forall l r c, holds_pair o l r c -> exists line, In line (file_lines content) /\ graph_row line (l, r, c)
  end.
Proof.
  intros g content. unfold lrg_load, lrg_load_into.
  set (all := file_lines content).
  set (Q := fun (o : graph) => forall l r c, holds_pair o l r c -> exists line, In line all /\ graph_row line (l, r, c)).
  set (R := fun (l : str) (rd : dict str Z) => forall r c, In (r, c) rd -> exists line, In line all /\ graph_row line (l, r, c)).
  assert (QS : forall o l rd, Q o -> R l rd -> Q (dset o l rd)).
  { intros o l rd HQ HR a r c (rd' & A & B). apply dset_cases in A as [E|A]; [assert (a = l /\ rd' = rd) as [-> ->] by (split; congruence); apply HR, B|apply HQ; exists rd'; auto]. }
  assert (RS : forall line l rd r c, In line all -> graph_row line (l, r, c) -> R l rd -> R l (dset rd r c)).
  { intros line l rd r c I G HR r' c' J. apply dset_cases in J as [E|J]; [assert (r' = r /\ c' = c) as [-> ->] by (split; congruence); exists line; auto|apply HR, J]. }
  assert (X : forall ls o l rd, (forall x, In x ls -> In x all) -> Q o -> R l rd ->
     match load_loop ls o l rd with
     | Ok o' => lrg_load_rows ls o l rd = (o', None) /\ Q o'
     | Err e => exists o', lrg_load_rows ls o l rd = (o', Some e) /\ Q o'
     end).
  { induction ls as [|line ls IH]; intros o l rd SUB HQ HR; cbn [load_loop lrg_load_rows].
    - split; [reflexivity|]. destruct rd as [|x rd]; [exact HQ|apply QS; assumption].
    - assert (SUB' : forall x, In x ls -> In x all) by (intros x I; apply SUB; right; exact I). assert (IL : In line all) by (apply SUB; left; reflexivity).
      destruct (split line) as [|s0 ss] eqn:SL; [exists o; auto|].
      set (ch := negb (eqb s0 l) && negb (length rd =? 0)%nat).
      assert (HQ' : Q (if ch then dset o l rd else o)) by (destruct ch; [apply QS; assumption|exact HQ]).
      assert (HR' : R s0 (if ch then [] else rd)).
      { unfold ch. destruct (eqb_spec s0 l) as [->|NE]; cbn [negb andb]; [exact HR|]. destruct rd as [|x rd]; cbn [length Nat.eqb negb]; intros r c []. }
      destruct ss as [|s1 [|s2 [|s3 ss]]].
      + eexists. split; [reflexivity|exact HQ'].
      + destruct (parse_int s1) as [c|e] eqn:PI; cbn [bind]; [|eexists; split; [reflexivity|exact HQ']]. apply IH; [exact SUB'|exact HQ'|]. apply (RS line); [exact IL| |exact HR']. exists s1. split; [exact PI|]. right. auto.
      + destruct (parse_int s2) as [c|e] eqn:PI; cbn [bind]; [|eexists; split; [reflexivity|exact HQ']]. apply IH; [exact SUB'|exact HQ'|]. apply (RS line); [exact IL| |exact HR']. exists s2. split; [exact PI|]. left. exact SL.
      + eexists. split; [reflexivity|exact HQ']. }
  specialize (X all [] [] [] ltac:(auto) ltac:(intros l r c (rd & [] & _)) ltac:(intros r c [])).
  destruct (load_loop all [] [] []) as [o|e]; cbn [bind].
  - destruct X as [-> HQ]. destruct o as [|p o]; cbn [check_lrgraph bind fst snd]; [|reflexivity]. exists []. split; [reflexivity|exact HQ].
  - destruct X as (o' & -> & HQ). exists o'. split; [reflexivity|exact HQ].
Qed.
Print Assumptions C86_failed_load.
(** so after a failed load, reset_lrgraph no longer restores the graph the object was built with *)
Theorem C86_reset_after_failed_load_refuted : exists g content g' e, lrg_new [(u "a", [(u "b", 1)])] [] 10 9 = Ok g /\ lrg_load_into g content = (g', Some e) /\
  lr g' = lr g /\ lr (reset_lrgraph g) = lr g /\ lr (reset_lrgraph g') = [(u "x", [(u "y", 2)])].
Proof.
  eexists _, (u "x y 2
broken
"), _, _. split; [vm_compute; reflexivity|]. split; [vm_compute; reflexivity|]. split; [reflexivity|]. split; vm_compute; reflexivity.
Qed.
Print Assumptions C86_reset_after_failed_load_refuted.
