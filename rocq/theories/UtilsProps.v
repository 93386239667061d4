(** * Property theorems for soynlp.utils (C26 - C37, C60, C61) *)
From Coq Require Import QArith.
From Verif Require Import PyBase PyDict PySort PyText PyFile SortLemmas UtilsModel UtilsSpec UtilsProofs UtilsProofs2 UtilsProofs3 UtilsProofs4 UtilsProofs5 UtilsProofs6.
Open Scope Z_scope.

Definition ex_graph : dict str (dict str Z) := [(u "이것", [(u "은", 3); (u "도", 5); ([], 2)]); (u "이것은", [([], 3)]); (u "책", [(u "은", 3)]); (u "책은", [([], 3)])].
Example ex_is_graph : is_graph ex_graph.
Proof. split; [repeat (constructor; [intros H; cbn in H; intuition discriminate|]); constructor|]. repeat (constructor; [repeat (constructor; [intros H; cbn in H; intuition discriminate|]); constructor|]). constructor. Qed.
Definition ex_g : lrg := match lrg_new ex_graph [] 10 6 with Ok g => g | Err _ => mkLrg [] [] None 0 0 end.
Example ex_new : lrg_new ex_graph [] 10 6 = Ok ex_g. Proof. reflexivity. Qed.
Example ex_reachable : reachable (history ex_g [OpAdd (u "책") (u "은") 1; OpRemoveEojeol (u "이것은") 3]).
Proof. exists ex_graph, [], 10, 6, [OpAdd (u "책") (u "은") 1; OpRemoveEojeol (u "이것은") 3], ex_g. repeat split; apply ex_is_graph. Qed.

(** ** C26 *)
Theorem C26_indexes_agree : forall g l r, reachable g ->
  seen_from_r g l r = (if eqb r [] then None else seen_from_l g l r).
Proof.
  intros g l r R. apply reachable_Inv in R. rewrite seen_r, seen_l, (inv_eq g R) by exact R. destruct r; reflexivity.
Qed.
Print Assumptions C26_indexes_agree.
Theorem C26_counts_positive : forall d sents lm rm g ops l r c, is_graph d -> lrg_new d sents lm rm = Ok g ->
  (forall l r c, holds_pair d l r c -> 0 < c) -> Forall adds_nonneg ops ->
  In (r, c) (get_r (history g ops) l 0) \/ In (l, c) (get_l (history g ops) r 0) -> 0 < c.
Proof.
  intros d sents lm rm g ops l r c G N P A H. destruct (new_Inv _ _ _ _ _ G N) as (I & _ & O & _).
  assert (PL : positive (lr g)).
  { intros a b v E. unfold lrg_new in N. destruct (negb (lm >? 1)); [discriminate|]. destruct (negb (rm >? 0)); [discriminate|].
    destruct sents as [|s ss]; cbn [bind] in N.
    - assert (lr g = d) as X by (destruct d; cbn [check_lrgraph bind fst snd] in N; injection N as <-; reflexivity).
      rewrite X in E. apply pget_holds in E; [|exact G]. exact (P _ _ _ E).
    - destruct d; [|discriminate]. cbn [bind] in N.
      assert (lr g = construct_graph lm rm (s :: ss)) as X.
      { destruct (construct_graph lm rm (s :: ss)); cbn [check_lrgraph bind fst snd] in N; injection N as <-; reflexivity. }
      rewrite X, construct_pget in E. destruct (in_window lm rm a b) eqn:W; [|discriminate].
      unfold in_window in W. rewrite !andb_true_iff, !Nat.leb_le in W.
      destruct (Z.ltb_spec 0 (occurrences (a ++ b) (s :: ss))); [|discriminate]. cbn [andb] in E. injection E as <-. apply Z.mul_pos_pos; lia. }
  assert (PG : Pos g) by (split; [exact PL|rewrite O; exact PL]).
  pose proof (history_Inv ops g I) as I'. destruct (history_pos ops A g I PG) as [P' _].
  destruct H as [H|H]; unfold get_r, get_l in H; apply top_all_In in H; try apply I'; [exact (P' _ _ _ H)|].
  rewrite (inv_eq _ I') in H. destruct r; [discriminate|]. exact (P' _ _ _ H).
Qed.
Print Assumptions C26_counts_positive.
Theorem C26_no_empty_tables : forall d sents lm rm g ops w tbl, is_graph d -> lrg_new d sents lm rm = Ok g ->
  Forall (fun p => snd p <> []) d -> In (w, tbl) (lr (history g ops)) \/ In (w, tbl) (rl (history g ops)) -> tbl <> [].
Proof.
  intros d sents lm rm g ops w tbl G N F H. destruct (new_Inv _ _ _ _ _ G N) as (I & FL & O & _). destruct H as [H|H].
  - assert (X : full (lr (history g ops))) by (apply history_full; [exact I|rewrite O; split; apply FL; exact F]).
    unfold full in X. rewrite Forall_forall in X. exact (X _ H).
  - pose proof (inv_rl_full _ (history_Inv ops g I)) as X. unfold full in X. rewrite Forall_forall in X. exact (X _ H).
Qed.
Print Assumptions C26_no_empty_tables.
Example C26_ex : let g := history ex_g [OpAdd (u "책") (u "은") 1; OpRemoveEojeol (u "이것은") 3] in
  get_r g (u "책") 0 = [(u "은", 4)] /\ get_l g (u "은") 0 = [(u "책", 4)] /\ get_r g (u "이것") 0 = [(u "도", 5); ([], 2)] /\ get_l g [] 0 = [].
Proof. vm_compute. repeat split. Qed.

(** ** C27 *)
Theorem C27_remove_pair : forall g l r c l' r', reachable g ->
  (l' = l /\ r' = r -> seen_from_l (remove_lr_pair g l r c) l' r' = less (seen_from_l g l' r') c) /\
  (~ (l' = l /\ r' = r) -> seen_from_l (remove_lr_pair g l r c) l' r' = seen_from_l g l' r') /\
  (r' <> [] -> seen_from_r (remove_lr_pair g l r c) l' r' = seen_from_l (remove_lr_pair g l r c) l' r').
Proof.
  intros g l r c l' r' R. apply reachable_Inv in R. destruct (remove_pair_spec g l r c R) as (I & _ & _ & P).
  rewrite seen_r, !seen_l, P by first [exact R|exact I]. split; [intros [-> ->]; rewrite !eqb_refl; apply dec_less|]. split.
  - intros n. destruct (eqb_pair_dec l l' r r'); [contradiction|reflexivity].
  - intros n. rewrite (inv_eq _ I), <- P. destruct r'; [congruence|reflexivity].
Qed.
Print Assumptions C27_remove_pair.
Theorem C27_remove_eojeol : forall g e c l r, reachable g ->
  (split_of e l r -> seen_from_l (remove_eojeol g e c) l r = less (seen_from_l g l r) c) /\
  (~ split_of e l r -> seen_from_l (remove_eojeol g e c) l r = seen_from_l g l r).
Proof.
  intros g e c l r R. apply reachable_Inv in R.
  destruct (remove_splits_spec e c (seq 1 (length e)) (seq_NoDup _ _) (seq_le _) g R) as (I & _ & P).
  fold (remove_eojeol g e c) in I, P. rewrite !seen_l, P by first [exact R|exact I]. destruct (is_split_of e l r); (split; [intros H|intros H]); try contradiction; [apply dec_less|reflexivity].
Qed.
Print Assumptions C27_remove_eojeol.
(** adding an eojeol and removing it again changes no count, on a graph with positive counts *)
Theorem C27_add_then_remove : forall g e c g1 l r, reachable g -> (forall l r v, seen_from_l g l r = Some v -> 0 < v) ->
  add_eojeol g e c = (g1, None) -> seen_from_l (remove_eojeol g1 e c) l r = seen_from_l g l r.
Proof.
  intros g e c g1 l r R P A. apply reachable_Inv in R. destruct (add_then_remove g e c g1 R) as [I E]; [|exact A|].
  - intros a b v H. apply (P a b). rewrite seen_l by exact R. exact H.
  - rewrite !seen_l by first [exact R|exact I]. apply E.
Qed.
Print Assumptions C27_add_then_remove.
Example C27_ex : let g := remove_eojeol ex_g (u "이것은") 3 in
  seen_from_l g (u "이것") (u "은") = None /\ seen_from_l g (u "이것") (u "도") = Some 5 /\ seen_from_l g (u "이것은") [] = None /\
  seen_from_l (remove_lr_pair ex_g (u "이것") (u "은") 1) (u "이것") (u "은") = Some 2 /\
  snd (add_eojeol ex_g (u "책은") 4) = None.
Proof. vm_compute. repeat split. Qed.

(** ** C28 *)
Theorem C28_add_pair : forall g l r c, reachable g ->
  (seen_from_l g l r = None -> add_lr_pair g l r c = (g, Some KeyError)) /\
  (forall v, seen_from_l g l r = Some v -> exists g', add_lr_pair g l r c = (g', None) /\ seen_from_l g' l r = Some (v + c) /\
     (r <> [] -> seen_from_r g' l r = Some (v + c)) /\
     forall l' r', ~ (l' = l /\ r' = r) -> seen_from_l g' l' r' = seen_from_l g l' r').
Proof.
  intros g l r c R. apply reachable_Inv in R. pose proof (add_pair_spec g l r c R) as A. rewrite seen_l by exact R. split.
  - intros E. rewrite E in A. exact A.
  - intros v E. rewrite E in A. destruct A as (g' & A1 & I & _ & _ & _ & P & _). exists g'. split; [exact A1|].
    rewrite seen_r, !seen_l, (inv_eq _ I), !P, !eqb_refl by first [exact R|exact I]. split; [reflexivity|]. split; [destruct r; [congruence|reflexivity]|].
    intros l' r' n. rewrite !seen_l, P by first [exact R|exact I]. destruct (eqb_pair_dec l l' r r'); [contradiction|reflexivity].
Qed.
Print Assumptions C28_add_pair.
(** add_eojeol succeeds iff every split is stored; otherwise the splits shorter than the first absent one have been incremented *)
Theorem C28_add_eojeol : forall g e c, reachable g ->
  ((forall l r, split_of e l r -> seen_from_l g l r <> None) ->
     exists g', add_eojeol g e c = (g', None) /\ forall l r,
       (split_of e l r -> seen_from_l g' l r = more (seen_from_l g l r) c) /\ (~ split_of e l r -> seen_from_l g' l r = seen_from_l g l r)) /\
  (forall l0 r0, split_of e l0 r0 -> seen_from_l g l0 r0 = None ->
     (forall l r, split_of e l r -> (length l < length l0)%nat -> seen_from_l g l r <> None) ->
     exists g', add_eojeol g e c = (g', Some KeyError) /\ forall l r,
       (split_of e l r /\ (length l < length l0)%nat -> seen_from_l g' l r = more (seen_from_l g l r) c) /\
       (~ (split_of e l r /\ (length l < length l0)%nat) -> seen_from_l g' l r = seen_from_l g l r)).
Proof.
  intros g e c R. apply reachable_Inv in R.
  destruct (add_splits_spec e c (seq 1 (length e)) (seq_NoDup _ _) (seq_le _) g R) as (g' & is1 & E & I & _ & P & Pr & C).
  fold (add_eojeol g e c) in E, C. destruct (add_eojeol g e c) as [g'' x]. cbn [fst snd] in *. subst g''. split.
  - intros A. exists g'. destruct C as [[-> ->]|[_ (j & is2 & Q & B)]].
    + split; [reflexivity|]. intros l r. rewrite !seen_l, P by first [exact R|exact I].
      destruct (is_split_of e l r); (split; intros H; try contradiction); [apply inco_more|reflexivity].
    + exfalso. assert (J : In j (seq 1 (length e))) by (rewrite Q; apply in_or_app; right; left; reflexivity). apply in_seq in J.
      apply (A (firstn j e) (skipn j e)).
      * split; [|symmetry; apply firstn_skipn]. intros Z. apply (f_equal (@length N)) in Z. rewrite firstn_length in Z. cbn in Z. lia.
      * rewrite seen_l by exact R. exact B.
  - intros l0 r0 [N0 S0] A B. exists g'. rewrite seen_l in A by exact R. destruct C as [[-> ->]|[-> (j & is2 & Q & D)]].
    + exfalso. apply (Pr (length l0)); [apply in_seq; rewrite S0, app_length; destruct l0; [congruence|cbn; lia]|].
      rewrite S0, firstn_app, skipn_app, Nat.sub_diag, firstn_all, skipn_all. cbn [firstn skipn app]. rewrite app_nil_r. exact A.
    + split; [reflexivity|].
      assert (L0 : (1 <= length l0)%nat) by (destruct l0; [congruence|cbn; lia]).
      assert (SE : forall is n j is2 s, seq s n = is ++ j :: is2 -> is = seq s (length is) /\ j = (s + length is)%nat /\ (j < s + n)%nat).
      { clear. intros is. induction is as [|y is IH]; intros n j is2 s H; (destruct n as [|n]; [cbn in H; try discriminate; destruct is; discriminate|]); cbn [seq app] in H; injection H as H1 H2.
        - subst. cbn. repeat split; lia.
        - destruct (IH n j is2 (S s) H2) as (A & B & C). cbn [length seq]. subst y. rewrite A at 1. repeat split; lia. }
      destruct (SE _ _ _ _ _ Q) as (S1 & S2 & S3).
      assert (SP : forall i, (i <= length e)%nat -> (1 <= i)%nat -> split_of e (firstn i e) (skipn i e)).
      { intros i Hi1 Hi2. split; [|symmetry; apply firstn_skipn]. intros Z. apply (f_equal (@length N)) in Z. rewrite firstn_length in Z. cbn in Z. lia. }
      assert (JL : j = length l0).
      { destruct (Nat.lt_trichotomy j (length l0)) as [H|[H|H]]; [|exact H|]; exfalso.
        - apply (B (firstn j e) (skipn j e)); [apply SP; lia|rewrite firstn_length; lia|rewrite seen_l by exact R; exact D].
        - apply (Pr (length l0)); [rewrite S1; apply in_seq; lia|].
          rewrite S0, firstn_app, skipn_app, Nat.sub_diag, firstn_all, skipn_all. cbn [firstn skipn app]. rewrite app_nil_r. exact A. }
      intros l r. rewrite !seen_l, P by first [exact R|exact I].
      assert (T : is_split e is1 l r = true <-> split_of e l r /\ (length l < length l0)%nat).
      { unfold is_split. rewrite andb_true_iff, eqb_eq, mem_In, S1, in_seq. unfold split_of. split.
        - intros [H1 H2]. split; [|lia]. split; [destruct l; [cbn in H2; lia|discriminate]|congruence].
        - intros [[H1 H2] H3]. split; [congruence|]. destruct l; [congruence|cbn in *; lia]. }
      destruct (is_split e is1 l r) eqn:Z; (split; intros H).
      * apply inco_more.
      * exfalso. apply H, T. reflexivity.
      * apply T in H. discriminate.
      * reflexivity.
Qed.
Print Assumptions C28_add_eojeol.
Example C28_ex : snd (add_eojeol ex_g (u "책은") 2) = None /\ snd (add_eojeol ex_g (u "책도") 2) = Some KeyError /\ snd (add_lr_pair ex_g (u "이") (u "것") 1) = Some KeyError /\
  (* not atomic *)
  let d := [(u "가", [(u "나", 1)])] in
  match lrg_new d [] 10 6 with Ok g => snd (add_eojeol g (u "가나") 1) = Some KeyError /\ seen_from_l (fst (add_eojeol g (u "가나") 1)) (u "가") (u "나") = Some 2 | Err _ => False end.
Proof. vm_compute. repeat split. Qed.

(** ** C29 *)
Theorem C29_reset_restores : forall d sents lm rm g ops, is_graph d -> lrg_new d sents lm rm = Ok g ->
  Forall (fun o => o <> OpFreeze) ops -> reset_lrgraph (history g ops) = g.
Proof. exact reset_history. Qed.
Print Assumptions C29_reset_restores.
Theorem C29_frozen_not_reset : forall g ops, reset_lrgraph (history (freeze g) ops) = history (freeze g) ops.
Proof. exact frozen_reset. Qed.
Print Assumptions C29_frozen_not_reset.
(** the copy of a graph never frozen holds the counts of construction time; a frozen graph cannot be copied *)
Theorem C29_copy_original : forall d sents lm rm g ops, is_graph d -> lrg_new d sents lm rm = Ok g ->
  (lr g <> [] -> Forall (fun o => o <> OpFreeze) ops ->
     exists g', copy_compatified (history g ops) = Ok g' /\ lr g' = lr g /\ rl g' = rl g) /\
  (lr g = [] -> Forall (fun o => o <> OpFreeze) ops -> copy_compatified (history g ops) = Err IndexError) /\
  copy_compatified (history (freeze g) ops) = Err AttributeError.
Proof.
  intros d sents lm rm g ops G N. destruct (new_Inv _ _ _ _ _ G N) as (I & _ & O & RR). split; [|split].
  - intros NE F. destruct (history_origin ops F g I) as (A & B & C). unfold copy_compatified. rewrite A, O. destruct (lr g) as [|p x] eqn:E; [congruence|].
    cbn [check_lrgraph bind fst snd]. eexists. split; [reflexivity|]. cbn [lr rl]. rewrite RR. split; reflexivity.
  - intros E F. destruct (history_origin ops F g I) as (A & B & C). unfold copy_compatified. rewrite A, O, E. reflexivity.
  - unfold copy_compatified. assert (H : forall g, origin g = None -> origin (history g ops) = None).
    { induction ops as [|o ops IH]; intros g0 E; [exact E|]. apply (IH (step g0 o)), step_None, E. }
    rewrite H by reflexivity. reflexivity.
Qed.
Print Assumptions C29_copy_original.
Example C29_ex : Forall (fun o => o <> OpFreeze) [OpAdd (u "책") (u "은") 1; OpRemoveEojeol (u "이것은") 3; OpReset; OpRemove (u "책") (u "은") 9] /\
  history ex_g [OpAdd (u "책") (u "은") 1; OpRemoveEojeol (u "이것은") 3] <> ex_g.
Proof. split; [repeat constructor; discriminate|vm_compute; discriminate]. Qed.

(** ** C30 *)
Theorem C30_ranking : forall g w topk (left : bool), let look := fun k => if left then get_r g w k else get_l g w k in
  StronglySorted (fun x y => snd y <= snd x) (look topk) /\
  (topk <= 0 -> look topk = look 0) /\
  (0 < topk -> exists rest, look 0 = look topk ++ rest /\ length (look topk) = Nat.min (Z.to_nat topk) (length (look 0)) /\
     forall x y, In x (look topk) -> In y rest -> snd y <= snd x).
Proof.
  intros g w topk left look. assert (E : exists d, forall k, look k = top_items d w k) by (unfold look; destruct left; eexists; reflexivity).
  destruct E as [d E]. clearbody look.
  assert (E0 : look 0 = sort (fun x y : str * Z => - snd x <=? - snd y) (match dget d w with Some x => x | None => [] end)) by (rewrite E; reflexivity).
  assert (S0 : StronglySorted (fun x y => snd y <= snd x) (look 0)) by (rewrite E0; apply sort_desc_sorted).
  assert (E1 : look topk = if topk >? 0 then firstn (Z.to_nat topk) (look 0) else look 0) by (rewrite E0, E; reflexivity).
  rewrite E1. destruct (Z.gtb_spec topk 0) as [L|L].
  - rewrite <- (firstn_skipn (Z.to_nat topk) (look 0)) in S0. apply SS_app_inv in S0 as (A & _ & C). split; [exact A|]. split; [lia|]. intros _.
    exists (skipn (Z.to_nat topk) (look 0)). split; [symmetry; apply firstn_skipn|]. split; [apply firstn_length|exact C].
  - split; [exact S0|]. split; [reflexivity|lia].
Qed.
Print Assumptions C30_ranking.
(** equal counts keep the order of the stored table; nothing is lost or invented *)
Theorem C30_stable : forall g w c,
  let tbl := fun d => match dget d w with Some x => x | None => [] end in
  filter (fun p => snd p =? c) (get_r g w 0) = filter (fun p => snd p =? c) (tbl (lr g)) /\ Permutation (get_r g w 0) (tbl (lr g)) /\
  filter (fun p => snd p =? c) (get_l g w 0) = filter (fun p => snd p =? c) (tbl (rl g)) /\ Permutation (get_l g w 0) (tbl (rl g)).
Proof. intros g w c tbl. repeat split; first [apply sort_desc_stable|apply sort_perm]. Qed.
Print Assumptions C30_stable.
Example C30_ex : get_r ex_g (u "이것") 2 = [(u "도", 5); (u "은", 3)] /\ get_l ex_g (u "은") 10 = [(u "이것", 3); (u "책", 3)].
Proof. vm_compute. split; reflexivity. Qed.

(** ** C31 *)
Theorem C31_to_lrgraph_exact : forall c lm rm ign, NoDup (map fst (ec_counter c)) -> 1 < lm -> 0 < rm ->
  exists g, to_lrgraph c lm rm ign = Ok g /\ forall l r,
  (l <> [] /\ Z.of_nat (length l) <= lm /\ Z.of_nat (length r) <= rm -> seen_from_l g l r = dget (ec_counter c) (l ++ r)) /\
  (~ (l <> [] /\ Z.of_nat (length l) <= lm /\ Z.of_nat (length r) <= rm) -> seen_from_l g l r = None).
Proof.
  intros c lm rm ign D A B. destruct (to_lrgraph_ok c lm rm ign A B) as (g & E & L & O & R & _). exists g. split; [exact E|]. intros l r.
  unfold seen_from_l, get_r. rewrite dget_top by (rewrite L; apply to_lrgraph_wf). rewrite L, to_lrgraph_pget by exact D.
  assert (W : in_window lm rm l r = true <-> l <> [] /\ Z.of_nat (length l) <= lm /\ Z.of_nat (length r) <= rm).
  { unfold in_window. rewrite !andb_true_iff, !Nat.leb_le, Z.leb_le. destruct l; cbn [length]; [|intuition (lia || congruence)]. intuition (lia || congruence). }
  destruct (in_window lm rm l r); (split; intros H); [reflexivity|exfalso; apply H, W; reflexivity|apply W in H; discriminate|reflexivity].
Qed.
Print Assumptions C31_to_lrgraph_exact.
Theorem C31_back_to_counter : forall c lm rm ign reset, NoDup (map fst (ec_counter c)) -> 1 < lm -> 0 < rm ->
  exists g c', to_lrgraph c lm rm ign = Ok g /\ to_EojeolCounter g reset = Ok c' /\ forall w,
  dget (ec_counter c') w = if negb (length w =? 0)%nat && (Z.of_nat (length w) <=? lm + rm) then dget (ec_counter c) w else None.
Proof.
  intros c lm rm ign reset D A B. destruct (to_lrgraph_ok c lm rm ign A B) as (g & E & L & O & _).
  exists g, (mkCounter (flat_counter (lr g))). split; [exact E|]. split; [unfold to_EojeolCounter; rewrite O; destruct reset; reflexivity|].
  intros w. cbn [mkCounter ec_counter]. rewrite L. apply roundtrip_counter; assumption.
Qed.
Print Assumptions C31_back_to_counter.
Theorem C31_ignore_one_syllable_ignored : forall c lm rm, to_lrgraph c lm rm true = to_lrgraph c lm rm false.
Proof. reflexivity. Qed.
Print Assumptions C31_ignore_one_syllable_ignored.
Example C31_ex : let c := mkCounter [(u "이것은", 3); (u "아주길고긴어절이다", 2)] in
  match to_lrgraph c 3 2 false with
  | Ok g => get_r g (u "이것") 0 = [(u "은", 3)] /\ get_l g (u "은") 0 = [(u "이것", 3)] /\ get_r g (u "아주길") 0 = [] /\
            match to_EojeolCounter g true with Ok c' => ec_counter c' = [(u "이것은", 3)] | Err _ => False end
  | Err _ => False end.
Proof. vm_compute. repeat split. Qed.

(** ** C32 *)
Theorem C32_save_load : forall g o, origin g = Some o -> is_graph o -> storable o ->
  exists text, lrg_save g = Ok text /\ forall g1,
  ((forall l r c, ~ holds_pair o l r c) -> lrg_load g1 text = Err IndexError) /\
  ((exists l r c, holds_pair o l r c) -> exists g2, lrg_load g1 text = Ok g2 /\ origin g2 = Some (lr g2) /\
     (forall l r c, holds_pair (lr g2) l r c <-> holds_pair o l r c) /\
     (forall l r c, holds_pair (rl g2) r l c <-> r <> [] /\ holds_pair o l r c)).
Proof.
  intros g o E G W. destruct (save_load_roundtrip g o E G (storable_writable o G W)) as (t & S & H). exists t. split; [exact S|]. intros g1. destruct (H g1) as [A B].
  split; [exact A|]. intros X. destruct (B X) as (g2 & L & I & O & _ & _ & P). exists g2. split; [exact L|]. split; [exact O|]. split; [exact P|].
  intros l r c. rewrite <- (pget_holds (rl g2)) by apply I. rewrite (inv_eq _ I), <- P, <- (pget_holds (lr g2)) by apply I.
  destruct r; [intuition congruence|]. intuition congruence.
Qed.
Print Assumptions C32_save_load.
Example C32_ex : storable ex_graph /\ origin ex_g = Some ex_graph /\
  match lrg_save ex_g with Ok t => match lrg_load ex_g t with Ok g2 => get_r g2 (u "이것") 0 = [(u "도", 5); (u "은", 3); ([], 2)] | Err _ => False end | Err _ => False end.
Proof.
  split; [|split; [reflexivity|vm_compute; reflexivity]].
  intros l r c (rd & A & B). cbn in A. repeat (destruct A as [A|A]; [injection A as <- <-; cbn in B; repeat (destruct B as [B|B]; [injection B as <- <-; split; [discriminate|split; repeat constructor]|]); destruct B|]). destruct A.
Qed.

(** ** C33 *)
(** without periodic filtering the count is exact *)
Theorem C33_exact_without_filtering : forall pre mc ml cp sents e, sents <> [] -> mc <= 1 \/ cp <= 0 ->
  exists c, ec_new pre mc ml cp (Some sents) = Ok c /\ let n := occurrences e (map pre sents) in
  ec_get c e = (if (Z.of_nat (length e) <=? ml) && (mc <=? n) then n else 0) /\ ec_sum c = total (ec_counter c) /\ NoDup (map fst (ec_counter c)) /\
  Forall (fun kv => 0 < snd kv /\ mc <= snd kv) (ec_counter c).
Proof.
  intros pre mc ml cp sents e NE H. unfold ec_new, counting_from_sents. destruct sents as [|s ss]; [congruence|]. cbn [bind]. eexists. split; [reflexivity|].
  assert (C0 : cnt_ok []) by (split; constructor). destruct (loop_plain pre mc ml cp H (s :: ss) 0 [] C0) as [A B].
  unfold ec_get, mkCounter. cbn [ec_counter ec_sum]. split; [|split; [reflexivity|split]].
  - rewrite dgetd_dfilter_ge, B by exact A. unfold occ_in. cbn [dgetd dget find]. change (dgetd [] e 0) with 0. rewrite Z.add_0_l.
    destruct (Z.of_nat (length e) <=? ml); cbn [andb].
    + destruct (Z.geb_spec (occurrences e (map pre (s :: ss))) mc), (Z.leb_spec mc (occurrences e (map pre (s :: ss)))); (reflexivity || lia).
    + destruct (0 >=? mc); reflexivity.
  - apply (cnt_ok_filter _ _ A).
  - apply Forall_forall. intros kv I. pose proof (cnt_ok_filter (fun _ v => v >=? mc) _ A) as [_ F]. rewrite Forall_forall in F. split; [exact (F _ I)|].
    apply filter_In in I as [_ I]. lia.
Qed.
Print Assumptions C33_exact_without_filtering.
(** with periodic filtering: 0, or the number of occurrences from some checkpoint on (or from the start), at least min_count *)
Theorem C33_filtered_counts_a_suffix : forall pre mc ml cp sents e, sents <> [] -> 0 < cp ->
  exists c, ec_new pre mc ml cp (Some sents) = Ok c /\
  (ec_get c e = 0 \/ mc <= ec_get c e /\ Z.of_nat (length e) <= ml /\
    exists j, (j < length sents)%nat /\ Z.of_nat j mod cp = 0 /\ ec_get c e = occurrences e (map pre (skipn j sents))) /\
  ec_get c e <= occurrences e (map pre sents).
Proof.
  intros pre mc ml cp sents e NE H. unfold ec_new, counting_from_sents. destruct sents as [|s ss]; [congruence|]. cbn [bind]. eexists. split; [reflexivity|].
  assert (C0 : cnt_ok []) by (split; constructor). pose proof (loop_ok pre mc ml cp (s :: ss) 0 [] C0) as A.
  unfold ec_get, mkCounter. cbn [ec_counter]. rewrite dgetd_dfilter_ge by exact A.
  assert (K : exists j, (j < length (s :: ss))%nat /\ Z.of_nat j mod cp = 0 /\ dgetd (counting_loop pre mc ml cp 0 (s :: ss) []) e 0 = occ_in ml e (map pre (skipn j (s :: ss)))).
  { destruct (loop_filtered pre mc ml cp e H (s :: ss) 0 [] C0 ltac:(lia)) as [B|(j & J1 & J2 & J3 & J4)].
    - exists 0%nat. split; [cbn; lia|]. split; [apply Z.mod_0_l; lia|]. rewrite B. change (dgetd [] e 0) with 0. reflexivity.
    - exists j. rewrite Z.add_0_l in J3. auto. }
  destruct K as (j & J1 & J2 & J3). rewrite J3.
  assert (LE : occ_in ml e (map pre (skipn j (s :: ss))) <= occurrences e (map pre (s :: ss))).
  { rewrite <- (firstn_skipn j (s :: ss)) at 2. rewrite map_app, occurrences_app. pose proof (occurrences_nonneg e (map pre (firstn j (s :: ss)))).
    pose proof (occurrences_nonneg e (map pre (skipn j (s :: ss)))). unfold occ_in. destruct (_ <=? ml); lia. }
  pose proof (occurrences_nonneg e (map pre (s :: ss))) as NN. pose proof (occ_in_nonneg ml e (map pre (skipn j (s :: ss)))) as NN'.
  set (x := occ_in ml e (map pre (skipn j (s :: ss)))) in *. split; [|destruct (x >=? mc); lia].
  destruct (Z.geb_spec x mc); [|left; reflexivity]. destruct (Z.eq_dec x 0) as [|nz]; [left; assumption|]. right. split; [lia|].
  unfold x, occ_in in *. destruct (Z.leb_spec (Z.of_nat (length e)) ml); [|lia]. split; [assumption|]. exists j. auto.
Qed.
Print Assumptions C33_filtered_counts_a_suffix.
(** an eojeol that at every checkpoint has been seen at least min_count times or not at all keeps its exact count *)
Theorem C33_filtered_exact_when_frequent : forall pre mc ml cp sents e, sents <> [] -> 0 < cp -> 1 < mc -> Z.of_nat (length e) <= ml ->
  mc <= occurrences e (map pre sents) ->
  (forall m, (0 < m < length sents)%nat -> Z.of_nat m mod cp = 0 ->
     occurrences e (map pre (firstn m sents)) = 0 \/ mc <= occurrences e (map pre (firstn m sents))) ->
  exists c, ec_new pre mc ml cp (Some sents) = Ok c /\ ec_get c e = occurrences e (map pre sents).
Proof.
  intros pre mc ml cp sents e NE H M L F P. unfold ec_new, counting_from_sents. destruct sents as [|s ss] eqn:E0; [congruence|]. rewrite <- E0 in *. cbn [bind]. eexists. split; [reflexivity|].
  assert (C0 : cnt_ok []) by (split; constructor). pose proof (loop_ok pre mc ml cp sents 0 [] C0) as A.
  assert (O : forall ss, occ_in ml e ss = occurrences e ss) by (intros q; unfold occ_in; replace (_ <=? ml) with true by lia; reflexivity).
  unfold ec_get, mkCounter. cbn [ec_counter]. rewrite dgetd_dfilter_ge by exact A.
  pose proof (loop_survives pre mc ml cp e H M sents [] [] C0) as S. cbn [app length map] in S. rewrite occ_in_nil in S. specialize (S eq_refl). change (Z.of_nat 0) with 0 in S. rewrite S.
  - rewrite O. replace (_ >=? mc) with true by lia. reflexivity.
  - intros m Lm P1 P2. rewrite O. apply P; [lia|exact P2].
Qed.
Print Assumptions C33_filtered_exact_when_frequent.
Theorem C33_empty_corpus : forall pre mc ml cp, ec_new pre mc ml cp (Some []) = Err ValueError /\ ec_new pre mc ml cp None = Ok (mkCounter []).
Proof. split; reflexivity. Qed.
Print Assumptions C33_empty_corpus.
(** "the count is the number of occurrences" is false with periodic filtering *)
Theorem C33_filtered_exactness_refuted : exists mc ml cp sents e c, ec_new (fun s => s) mc ml cp (Some sents) = Ok c /\
  mc <= occurrences e sents /\ ec_get c e = 0.
Proof. exists 2, 10, 1, [u "가"; u "나"; u "가"], (u "가"). eexists. split; [reflexivity|]. vm_compute. split; [discriminate|reflexivity]. Qed.
Print Assumptions C33_filtered_exactness_refuted.
Example C33_ex : match ec_new (fun s => s) 2 3 2 (Some [u "가나 다 가나"; u "다라마바"; u "다 가나"; u "다"]) with
  | Ok c => ec_counter c = [(u "가나", 3); (u "다", 2)] | Err _ => False end.
Proof. vm_compute. reflexivity. Qed.

(** ** C34 *)
Theorem C34_coverage : forall d ess es, is_counter d -> 0 < total d ->
  let c := removed_all (mkCounter d) ess in
  ec_counter c = filter (fun kv => negb (mem (fst kv) (concat ess))) d /\
  (ec_coverage c == 1 - inject_Z (total (ec_counter c)) / inject_Z (total d))%Q /\ (0 <= ec_coverage c <= 1)%Q /\
  snd (remove_covered c es) = None /\ (ec_coverage c <= ec_coverage (fst (remove_covered c es)))%Q.
Proof.
  intros d ess es C T c. pose proof (ECI_removals d ess C T) as I. fold (removed_all (mkCounter d) ess) in I. change (removals (mkCounter d) ess) with c in I.
  destruct (ECI_step _ _ _ es C T I) as (c' & R & _ & M). destruct I as (A & B & D & F). rewrite R. cbn [fst snd].
  split; [exact A|]. split; [exact D|]. split; [exact F|]. split; [reflexivity|exact M].
Qed.
Print Assumptions C34_coverage.
Theorem C34_zero_total : forall d es, total d = 0 -> remove_covered (mkCounter d) es =
  (mkEc (filter (fun kv => negb (mem (fst kv) es)) d) 0 0, Some ZeroDivisionError).
Proof. intros d es T. unfold remove_covered, mkCounter. cbn [ec_sum ec_counter ec_coverage]. change (zsum (dvals d)) with (total d). rewrite T. reflexivity. Qed.
Print Assumptions C34_zero_total.
Example C34_ex : let d := [(u "가", 3); (u "나", 1); (u "다", 4)] in is_counter d /\ 0 < total d /\
  (ec_coverage (removed_all (mkCounter d) [[u "가"]; [u "나"; u "가"; u "하"]]) == 1 # 2)%Q.
Proof. split; [split; [repeat (constructor; [intros H; cbn in H; intuition discriminate|]); constructor|repeat constructor]|]. split; [reflexivity|vm_compute; reflexivity]. Qed.

(** ** C35 *)
Theorem C35_save_load : forall c, NoDup (map fst (ec_counter c)) -> Forall (fun kv => fst kv <> [] /\ no_whitespace (fst kv)) (ec_counter c) ->
  exists c', ec_load (ec_save c) = Ok c' /\ Permutation (ec_counter c') (ec_counter c) /\ (forall e, ec_get c' e = ec_get c e) /\ ec_sum c' = total (ec_counter c) /\ ec_coverage c' = 0%Q.
Proof.
  intros c D F. exists (mkCounter (sort ec_le (ec_counter c))). split; [apply ec_roundtrip; assumption|]. cbn [mkCounter ec_counter ec_sum ec_coverage].
  split; [apply sort_perm|]. split; [|split; [|reflexivity]].
  - intros e. unfold ec_get, dgetd. cbn [mkCounter ec_counter]. rewrite (dget_perm (K:=str) _ (ec_counter c)); [reflexivity| |apply sort_perm].
    eapply Permutation_NoDup; [apply Permutation_sym, Permutation_map, sort_perm|exact D].
  - apply zsum_perm. apply Permutation_map, sort_perm.
Qed.
Print Assumptions C35_save_load.
Theorem C35_file_order : forall c, exists rows,
  ec_save c = concat (map (fun kv => fst kv ++ [SP] ++ format_int (snd kv) ++ [10%N]) rows) /\ Permutation rows (ec_counter c) /\
  StronglySorted (fun x y => snd y < snd x \/ (snd x = snd y /\ str_leb (fst x) (fst y) = true)) rows.
Proof. intros c. exists (sort ec_le (ec_counter c)). split; [reflexivity|]. split; [apply sort_perm|apply sort_ec_sorted]. Qed.
Print Assumptions C35_file_order.
Example C35_ex : ec_save (mkCounter [(u "나", 3); (u "다", 12); (u "가", 3)]) = u "다 12" ++ [10%N] ++ u "가 3" ++ [10%N] ++ u "나 3" ++ [10%N].
Proof. vm_compute. reflexivity. Qed.

(** ** C36 *)
Theorem C36_unlimited : forall content nd ns it skip c, nd <= 0 -> ns <= 0 -> dc_new content nd ns it skip = Ok c ->
  let ls := body_lines content skip in
  dc_iter c = (if it then sentences ls else map strip ls) /\
  (ls <> [] -> fst (dc_len c) = Z.of_nat (length (dc_iter c)) /\ dc_iter (snd (dc_len c)) = dc_iter c /\ fst (dc_len (snd (dc_len c))) = fst (dc_len c)).
Proof.
  intros content nd ns it skip c A B. unfold dc_new. replace ((nd >? 0) || (ns >? 0)) with false by lia. intros E. injection E as <-. set (ls := body_lines content skip).
  assert (SK : match skip_lines skip (file_lines content) with Some x => x | None => [] end = ls).
  { unfold skip_lines, ls, body_lines. destruct (Nat.leb_spec (Z.to_nat skip) (length (file_lines content))); [reflexivity|]. symmetry. apply skipn_all2. lia. }
  unfold dc_iter, dc_len. cbn [dc_lines dc_skip dc_iter_sent dc_num_doc dc_num_sent]. rewrite SK. rewrite iter_docs_spec, iter_sents_spec by lia. cbn [Z.gtb Z.compare].
  split; [destruct it; [symmetry; apply sentences_all|reflexivity]|]. intros NE. cbn [Z.eqb].
  assert (CL : check_length (file_lines content) skip (-1) (-1) = Ok (Z.of_nat (length ls), nsents ls)).
  { unfold check_length. destruct (skip_lines skip (file_lines content)) as [x|]; [|congruence]. rewrite SK. destruct ls as [|d ls0] eqn:E; [congruence|]. rewrite check_loop_free by lia. reflexivity. }
  rewrite CL. cbn [fst snd dc_lines dc_skip dc_iter_sent dc_num_doc dc_num_sent]. rewrite SK. rewrite iter_docs_spec, iter_sents_spec by (pose proof (nsents_nonneg ls); lia).
  assert (L0 : (0 < length ls)%nat) by (destruct ls; [congruence|cbn; lia]).
  replace (Z.of_nat (length ls) =? 0) with false by lia. cbn [fst]. split; [|split; [|reflexivity]].
  - destruct it; [symmetry; apply all_sents_length|rewrite map_length; reflexivity].
  - destruct it.
    + destruct (nsents ls >? 0); [|reflexivity]. rewrite <- all_sents_length, Z.sub_0_r, Nat2Z.id. apply firstn_all.
    + replace (Z.of_nat (length ls) >? 0) with true by lia. rewrite firstn_all2 by lia. reflexivity.
Qed.
Print Assumptions C36_unlimited.
(** with limits: reading stops after [n] documents and [m] sentences are reported; iteration by document gives the first n
    documents, iteration by sentence the first m sentences -- but all sentences of the file when m = 0 *)
Theorem C36_limited : forall content nd ns it skip c, 0 < nd \/ 0 < ns -> dc_new content nd ns it skip = Ok c ->
  let ls := body_lines content skip in ls <> [] ->
  exists n, (0 < n <= length ls)%nat /\ reading_stops nd ns ls n /\ (forall j, (0 < j < n)%nat -> ~ reading_stops nd ns ls j) /\
  let m := let k := length (sentences (firstn n ls)) in if 0 <? ns then Nat.min (Z.to_nat ns) k else k in
  fst (dc_len c) = Z.of_nat (if it then m else n) /\ snd (dc_len c) = c /\
  dc_iter c = if it then (if (m =? 0)%nat then sentences ls else firstn m (sentences ls)) else map strip (firstn n ls).
Proof.
  intros content nd ns it skip c LM E ls NE. unfold dc_new in E. replace ((nd >? 0) || (ns >? 0)) with true in E by lia.
  assert (SK : skip_lines skip (file_lines content) = Some ls).
  { apply body_lines_eq. destruct (Nat.leb_spec (Z.to_nat skip) (length (file_lines content))) as [|G]; [assumption|]. exfalso. apply NE. unfold ls, body_lines. apply skipn_all2. lia. }
  unfold check_length in E. rewrite SK in E. destruct (check_loop_start nd ns ls NE) as (n & CL & N1 & N2 & N3).
  destruct ls as [|d ls0] eqn:EL; [congruence|]. rewrite <- EL in *. rewrite CL in E. cbn [bind fst snd] in E. injection E as <-.
  exists n. split; [lia|]. split; [apply reading_stop_at; exact N2|]. split; [intros j J; rewrite reading_stop_at; apply N3; exact J|].
  rewrite !sentences_all. assert (LS := all_sents_length (firstn n ls)). assert (LT := all_sents_length ls). assert (LE := nsents_firstn_le ls n).
  unfold dc_iter, dc_len. cbn [dc_lines dc_skip dc_iter_sent dc_num_doc dc_num_sent fst snd]. rewrite SK. replace (Z.of_nat n =? 0) with false by lia. cbn [fst snd].
  set (k := length (all_sents (firstn n ls))) in *. 
  set (m := if 0 <? ns then Nat.min (Z.to_nat ns) k else k).
  assert (ME : (if 0 <? ns then Z.min ns (nsents (firstn n ls)) else nsents (firstn n ls)) = Z.of_nat m).
  { rewrite <- LS. unfold m. destruct (Z.ltb_spec 0 ns); [|reflexivity]. lia. }
  rewrite ME. rewrite iter_docs_spec, iter_sents_spec by lia. split; [destruct it; reflexivity|]. split; [reflexivity|]. rewrite !Z.sub_0_r, !Nat2Z.id. destruct it.
  - destruct (Nat.eqb_spec m 0) as [->|G]; [reflexivity|]. replace (Z.of_nat m >? 0) with true by lia. reflexivity.
  - replace (Z.of_nat n >? 0) with true by lia. replace (Nat.max 1 n) with n by lia. reflexivity.
Qed.
Print Assumptions C36_limited.
Theorem C36_sentences_clean : forall ls, Forall (fun s => s <> [] /\ trimmed s) (sentences ls).
Proof. intros ls. rewrite sentences_all. eapply Forall_impl; [|apply all_sents_ok]. intros s [A B]. split; [exact A|apply stripped_trimmed, B]. Qed.
Print Assumptions C36_sentences_clean.
(** the reported length and the iteration agree, except by sentence when the documents read hold no sentence *)
Theorem C36_length_agrees : forall content nd ns it skip c, 0 < nd \/ 0 < ns -> dc_new content nd ns it skip = Ok c -> body_lines content skip <> [] ->
  it = false \/ fst (dc_len c) <> 0 -> fst (dc_len c) = Z.of_nat (length (dc_iter c)).
Proof.
  intros content nd ns it skip c LM E NE H. destruct (C36_limited content nd ns it skip c LM E NE) as (n & N1 & _ & _ & L & _ & IT). cbv zeta in L, IT. rewrite L in *. rewrite IT.
  destruct it; [|rewrite map_length, firstn_length; lia].
  set (ls := body_lines content skip) in *. set (m := if 0 <? ns then _ else _) in *. destruct H as [|H]; [discriminate|]. destruct (Nat.eqb_spec m 0); [lia|]. rewrite firstn_length.
  assert (m <= length (sentences ls))%nat; [|lia]. assert (length (sentences (firstn n ls)) <= length (sentences ls))%nat.
  { rewrite !sentences_all. pose proof (all_sents_length (firstn n ls)). pose proof (all_sents_length ls). pose proof (nsents_firstn_le ls n). lia. }
  unfold m. destruct (0 <? ns); lia.
Qed.
Print Assumptions C36_length_agrees.
Theorem C36_length_agrees_refuted : exists content nd ns skip c, dc_new content nd ns true skip = Ok c /\ fst (dc_len c) = 0 /\ length (dc_iter c) = 2%nat.
Proof. exists ([10%N] ++ u "가 나  다" ++ [10%N]), 1, (-1), 0. eexists. split; [reflexivity|]. vm_compute. split; reflexivity. Qed.
Print Assumptions C36_length_agrees_refuted.
(** a file with exactly the header: len() raises (the method returns -1), and limiting raises UnboundLocalError *)
Theorem C36_header_only : forall content nd ns it skip, length (file_lines content) = Z.to_nat skip ->
  (0 < nd \/ 0 < ns -> dc_new content nd ns it skip = Err UnboundLocalError) /\
  (nd <= 0 -> ns <= 0 -> exists c, dc_new content nd ns it skip = Ok c /\ fst (dc_len c) = -1 /\ dc_iter c = []).
Proof.
  intros content nd ns it skip E. assert (SK : skip_lines skip (file_lines content) = Some []).
  { rewrite body_lines_eq by lia. f_equal. unfold body_lines. apply skipn_all2. lia. }
  unfold dc_new. split; intros H; [|intros H2].
  - replace ((nd >? 0) || (ns >? 0)) with true by lia. unfold check_length. rewrite SK. reflexivity.
  - replace ((nd >? 0) || (ns >? 0)) with false by lia. eexists. split; [reflexivity|]. unfold dc_len, dc_iter, check_length. cbn [dc_lines dc_skip dc_num_doc Z.eqb]. rewrite SK. split; [reflexivity|]. cbn. destruct it; reflexivity.
Qed.
Print Assumptions C36_header_only.
Example C36_ex : let f := u "header" ++ [10%N] ++ u "가 나  다 라 " ++ [10%N] ++ u "  마" ++ [13%N; 10%N] ++ u "바" in
  body_lines f 1 <> [] /\
  match dc_new f 2 (-1) true 1 with Ok c => dc_iter c = [u "가 나"; u "다 라"; u "마"] /\ fst (dc_len c) = 3 | Err _ => False end /\
  match dc_new f (-1) 2 true 1 with Ok c => dc_iter c = [u "가 나"; u "다 라"] /\ dc_num_doc c = 2 | Err _ => False end.
Proof. vm_compute. repeat split. discriminate. Qed.

(** ** C37 *)
(** [argsort] returns the indices in order of increasing value; numpy leaves the order of equal values open *)
Definition sorts_indices (argsort : list Q -> list nat) : Prop := forall d,
  Permutation (argsort d) (seq 0 (length d)) /\ StronglySorted (fun i j => (nth i d 0 <= nth j d 0)%Q) (argsort d).
Theorem C37_unknown_query : forall {Item} `{EqB Item} dist argsort (item_to_idx : dict Item nat) idx_to_item query topk,
  dget item_to_idx query = None -> most_similar dist argsort item_to_idx idx_to_item query topk = Ok [].
Proof. intros Item H dist argsort i2 idx query topk E. unfold most_similar. rewrite E. reflexivity. Qed.
Print Assumptions C37_unknown_query.
(** [shown] are the indices of the items returned *)
Theorem C37_most_similar : forall {Item} `{EqB Item} dist argsort (item_to_idx : dict Item nat) idx_to_item query topk q (x0 : Item), sorts_indices argsort ->
  dget item_to_idx query = Some q -> nth_error idx_to_item q = Some query -> NoDup idx_to_item -> length (dist q) = length idx_to_item ->
  exists shown, let sim i := (1 - nth i (dist q) 0)%Q in
  most_similar dist argsort item_to_idx idx_to_item query topk = Ok (map (fun i => (nth i idx_to_item x0, sim i)) shown) /\
  NoDup shown /\ Forall (fun i => i < length idx_to_item /\ i <> q /\ nth i idx_to_item x0 <> query)%nat shown /\
  StronglySorted (fun i j => sim j <= sim i)%Q shown /\
  (forall i j, (i < length idx_to_item)%nat -> i <> q -> ~ In i shown -> In j shown -> (sim i <= sim j)%Q) /\
  (topk <= 0 -> length shown = (length idx_to_item - 1)%nat) /\
  ((0 < topk)%Z -> Nat.min (Z.to_nat topk) (length idx_to_item - 1) <= length shown <= Z.to_nat topk + 1)%nat /\
  (0 < topk -> (forall j, j <> q -> (sim j < sim q)%Q) -> length shown = Nat.min (Z.to_nat topk) (length idx_to_item - 1)).
Proof.
  intros Item H dist argsort i2 idx query topk q x0 AS E Q ND L.
  pose proof (most_similar_eq dist argsort i2 idx query topk q x0 AS E L) as M. cbv zeta in M. destruct (AS (dist q)) as [P SS]. set (D := dist q) in *. set (full := argsort D) in *.
  set (kept := if topk >? 0 then firstn (Z.to_nat (topk + 1)) full else full) in *.
  assert (QL : (q < length idx)%nat) by (apply nth_error_Some; rewrite Q; discriminate).
  assert (KF : exists rest, full = kept ++ rest).
  { unfold kept. destruct (topk >? 0); [exists (skipn (Z.to_nat (topk + 1)) full); symmetry; apply firstn_skipn|exists []; rewrite app_nil_r; reflexivity]. }
  destruct KF as [rest KF].
  assert (NF : NoDup full) by (eapply Permutation_NoDup; [apply Permutation_sym; exact P|apply seq_NoDup]).
  assert (LF : length full = length idx) by (rewrite (Permutation_length P), seq_length; exact L).
  assert (IF : forall i, In i full <-> (i < length idx)%nat).
  { intros i. split; intros X; [apply (Permutation_in _ P) in X; apply in_seq in X; lia|]. apply (Permutation_in _ (Permutation_sym P)). apply in_seq. lia. }
  assert (LK : length kept = if topk >? 0 then Nat.min (Z.to_nat (topk + 1)) (length idx) else length idx).
  { unfold kept. destruct (topk >? 0); [rewrite firstn_length|]; rewrite LF; reflexivity. }
  rewrite KF in SS, NF, IF. apply SS_app_inv in SS as (S1 & _ & S3).
  assert (NK : NoDup kept) by (clear - NF; induction kept as [|k ks IH]; [constructor|]; inversion NF; subst; constructor; [intros X; apply H1, in_or_app; auto|auto]).
  assert (QF : In q (kept ++ rest)) by (apply IF; exact QL).
  exists (filter (fun i => negb (i =? q)%nat) kept). cbv zeta. split; [exact M|]. split; [apply NoDup_filter; exact NK|]. split.
  { apply Forall_forall. intros i I. apply filter_In in I as [I N]. assert (Nq : i <> q) by (intros ->; rewrite Nat.eqb_refl in N; discriminate).
    assert (IL : (i < length idx)%nat) by (apply IF, in_or_app; auto). split; [exact IL|]. split; [exact Nq|]. intros C. apply Nq.
    apply (proj1 (NoDup_nth_error idx) ND); [exact IL|]. rewrite (nth_error_nth' idx x0 IL), C, Q. reflexivity. }
  split. { apply SS_filter. eapply StronglySorted_impl; [|exact S1]. intros i j X. cbv beta in X. unfold Qminus. apply Qplus_le_compat; [apply Qle_refl|apply Qopp_le_compat; exact X]. }
  split. { intros i j I N NI J. apply filter_In in J as [J _]. assert (R : In i rest).
    { assert (X : In i (kept ++ rest)) by (apply IF; exact I). apply in_app_or in X as [X|X]; [|exact X]. exfalso. apply NI, filter_In. split; [exact X|]. destruct (Nat.eqb_spec i q); [contradiction|reflexivity]. }
    unfold Qminus. apply Qplus_le_compat; [apply Qle_refl|apply Qopp_le_compat, S3; assumption]. }
  rewrite count_other by exact NK. rewrite LK. split; [|split].
  - intros T. replace (topk >? 0) with false by lia. replace (mem q kept) with true; [reflexivity|]. symmetry. apply mem_In. unfold kept. replace (topk >? 0) with false by lia. unfold full. apply (Permutation_in _ (Permutation_sym P)), in_seq. lia.
  - intros T. replace (topk >? 0) with true by lia. destruct (mem q kept); lia.
  - intros T SQ. replace (topk >? 0) with true by lia. replace (mem q kept) with true; [lia|]. symmetry. apply mem_In.
    apply in_app_or in QF as [X|X]; [exact X|]. exfalso. destruct kept as [|k kept0]; [clear - LK T QL; destruct (Z.gtb_spec topk 0); cbn [length] in LK; lia|].
    assert (KQ : k <> q). { intros ->. apply NoDup_remove_2 in NF || idtac. inversion NF as [|? ? Z1 Z2]; subst. apply Z1, in_or_app. auto. }
    specialize (SQ k KQ). specialize (S3 k q (or_introl eq_refl) X). apply (Qlt_not_le _ _ SQ). unfold Qminus. apply Qplus_le_compat; [apply Qle_refl|apply Qopp_le_compat; exact S3].
Qed.
Print Assumptions C37_most_similar.
(** non-vacuity: an argsort exists *)
Definition ex_argsort (d : list Q) : list nat := sort (fun i j => Qle_bool (nth i d 0%Q) (nth j d 0%Q)) (seq 0 (length d)).
Example ex_argsort_sorts : sorts_indices ex_argsort.
Proof.
  intros d. split; [apply sort_perm|]. eapply StronglySorted_impl; [|apply sort_sorted].
  - intros i j X. apply Qle_bool_iff, X.
  - intros i j. rewrite !Qle_bool_iff. destruct (Qlt_le_dec (nth i d 0%Q) (nth j d 0%Q)); [left; apply Qlt_le_weak; assumption|right; assumption].
  - intros i j k. rewrite !Qle_bool_iff. apply Qle_trans.
Qed.
Example C37_ex : let dist := fun _ => [3#4; 0; 1#2; 1#4]%Q in let names := [u "가"; u "나"; u "다"; u "라"] in
  most_similar dist ex_argsort [(u "가", 0%nat); (u "나", 1%nat); (u "다", 2%nat); (u "라", 3%nat)] names (u "나") 2 = Ok [(u "라", 1 - (1#4))%Q; (u "다", 1 - (1#2))%Q].
Proof. vm_compute. reflexivity. Qed.

(** ** C60 sort_by_alphabet *)
Theorem C60_sorted_lines : forall content, exists docs, sort_by_alphabet content = concat (map (fun d => d ++ [10%N]) docs) /\
  Permutation docs (filter (fun d => negb (length d =? 0)%nat) (map strip (file_lines content))) /\
  StronglySorted (fun x y => str_leb x y = true) docs /\ Forall (fun d => d <> [] /\ trimmed d) docs.
Proof.
  intros content. exists (sort str_leb (clean_lines content)). split; [reflexivity|]. split; [apply sort_perm|]. split; [apply sort_str_sorted|].
  apply Forall_sort. eapply Forall_impl; [|apply clean_lines_ok]. intros d (A & B & _). split; [exact A|apply stripped_trimmed, B].
Qed.
Print Assumptions C60_sorted_lines.
Theorem C60_idempotent : forall content, sort_by_alphabet (sort_by_alphabet content) = sort_by_alphabet content.
Proof. exact sort_by_alphabet_idem. Qed.
Print Assumptions C60_idempotent.
(** the order is a total order on strings, so the result is unique *)
Theorem C60_order : (forall a b, str_leb a b = true \/ str_leb b a = true) /\ (forall a b c, str_leb a b = true -> str_leb b c = true -> str_leb a c = true) /\
  (forall a b, str_leb a b = true -> str_leb b a = true -> a = b).
Proof. split; [exact str_leb_total|]. split; [exact str_leb_trans|exact str_leb_antisym]. Qed.
Print Assumptions C60_order.
Example C60_ex : sort_by_alphabet (u "나다 " ++ [13%N; 10%N] ++ [32%N; 10%N] ++ u " 가" ++ [10%N] ++ u "나") = u "가" ++ [10%N] ++ u "나" ++ [10%N] ++ u "나다" ++ [10%N].
Proof. vm_compute. reflexivity. Qed.

(** ** C61 LRGraph from sentences *)
Theorem C61_from_sentences : forall sents lm rm, sents <> [] -> 1 < lm -> 0 < rm ->
  exists g, lrg_new [] sents lm rm = Ok g /\ forall l r,
  seen_from_l g l r = if in_window lm rm l r && (0 <? occurrences (l ++ r) sents) then Some (Z.of_nat (length l) * occurrences (l ++ r) sents) else None.
Proof.
  intros sents lm rm NE A B. destruct (lrg_new [] sents lm rm) as [g|e] eqn:E.
  - exists g. split; [reflexivity|]. intros l r. destruct (new_Inv [] sents lm rm g gwf_nil E) as (I & _). rewrite seen_l by exact I. rewrite <- construct_pget. f_equal.
    unfold lrg_new in E. replace (negb (lm >? 1)) with false in E by lia. replace (negb (rm >? 0)) with false in E by lia. destruct sents as [|s ss]; [congruence|]. cbn [bind] in E.
    destruct (construct_graph lm rm (s :: ss)) as [|p d]; cbn [check_lrgraph bind fst snd] in E; injection E as <-; reflexivity.
  - exfalso. unfold lrg_new in E. replace (negb (lm >? 1)) with false in E by lia. replace (negb (rm >? 0)) with false in E by lia. destruct sents as [|s ss]; [congruence|]. cbn [bind] in E.
    destruct (construct_graph lm rm (s :: ss)) as [|p d]; cbn [check_lrgraph bind fst snd] in E; discriminate.
Qed.
Print Assumptions C61_from_sentences.
Theorem C61_constructor_errors : forall d sents lm rm,
  lrg_new d sents lm rm = Err AssertionError <-> lm <= 1 \/ rm <= 0.
Proof.
  intros d sents lm rm. unfold lrg_new. destruct (Z.gtb_spec lm 1); cbn [negb]; [|split; [lia|reflexivity]]. destruct (Z.gtb_spec rm 0); cbn [negb]; [|split; [lia|reflexivity]].
  split; [|lia]. intros E. exfalso. destruct sents; cbn [bind] in E.
  - destruct d; cbn in E; discriminate.
  - destruct d; cbn [bind] in E; [|discriminate]. match goal with H : context [match ?x with _ => _ end] |- _ => destruct x end; cbn in E; discriminate.
Qed.
Print Assumptions C61_constructor_errors.
(** the counts are weighted by the length of l; they are not the pair frequencies that to_lrgraph gives *)
Theorem C61_plain_counts_refuted : exists sents g l r, lrg_new [] sents 10 6 = Ok g /\ occurrences (l ++ r) sents = 1 /\ seen_from_l g l r = Some 2.
Proof. exists [u "이것은 책"]. eexists. exists (u "이것"), (u "은"). split; [reflexivity|]. vm_compute. split; reflexivity. Qed.
Print Assumptions C61_plain_counts_refuted.
