(** * LRGraph: construction from sentences, save and load *)
From Verif Require Import PyBase PyDict PySort PyText PyFile SortLemmas UtilsModel UtilsSpec UtilsProofs UtilsProofs2.
Open Scope Z_scope.

(** ** construction from sentences *)
Lemma construct_incs lm rm sents :
  construct_graph lm rm sents = incs (concat (map (word_trips lm rm Z.of_nat) (concat (map split sents)))) [].
Proof.
  unfold construct_graph. generalize (@nil (str * dict str Z)) as g. induction sents as [|s ss IH]; intros g; [reflexivity|].
  cbn [fold_left map concat]. rewrite IH, map_app, concat_app, incs_app. f_equal. clear IH. revert g.
  induction (split s) as [|w ws IH]; intros g; [reflexivity|]. cbn [fold_left map concat]. rewrite incs_app, IH. f_equal.
  unfold construct_word, word_trips. rewrite (Nat.min_comm (length w)). apply (fold_word_incs rm Z.of_nat w).
Qed.
Lemma construct_pget lm rm sents l r :
  pget (construct_graph lm rm sents) l r =
  if in_window lm rm l r && (0 <? occurrences (l ++ r) sents) then Some (Z.of_nat (length l) * occurrences (l ++ r) sents) else None.
Proof.
  rewrite construct_incs, pget_incs, pget_nil, filter_concat, map_map.
  assert (E : concat (map (fun w => filter (at_pair l r) (word_trips lm rm Z.of_nat w)) (concat (map split sents))) =
    if in_window lm rm l r then repeat (l, r, Z.of_nat (length l)) (length (filter (eqb (l ++ r)) (concat (map split sents)))) else []).
  { induction (concat (map split sents)) as [|w ws IH]; [destruct (in_window lm rm l r); reflexivity|].
    cbn [map concat filter]. rewrite IH, word_trips_at. unfold in_window.
    destruct (eqb (l ++ r) w); cbn [andb]; [|reflexivity].
    destruct ((1 <=? length l)%nat && (length l <=? Z.to_nat lm)%nat && (Z.of_nat (length r) <=? rm)); reflexivity. }
  rewrite E. unfold occurrences. destruct (in_window lm rm l r); cbn [andb]; [|reflexivity].
  generalize (length (filter (eqb (l ++ r)) (concat (map split sents)))) as n. intros n.
  assert (T : forall k v n, tsum (repeat (k, v) n) = v * Z.of_nat n).
  { intros k v m. induction m as [|m IH]; [cbn; lia|]. cbn [repeat]. change (tsum ((k, v) :: repeat (k, v) m)) with (v + tsum (repeat (k, v) m)). rewrite IH. lia. }
  destruct n as [|n]; [reflexivity|]. replace (0 <? Z.of_nat (S n)) with true by (symmetry; apply Z.ltb_lt; lia).
  cbn [repeat]. change ((l, r, Z.of_nat (length l)) :: repeat (l, r, Z.of_nat (length l)) n) with (repeat (l, r, Z.of_nat (length l)) (S n)).
  cbn [oget]. rewrite T. f_equal; lia.
Qed.

(** ** save and load *)
Definition row_body (l : str) (rc : str * Z) : str := l ++ [SP] ++ fst rc ++ [SP] ++ format_int (snd rc).
Definition rows (d : dict str (dict str Z)) : list str :=
  concat (map (fun p => map (fun rc => row_body (fst p) rc ++ [10%N]) (snd p)) d).
(** words that can be written: every [l] with a non-empty table is a word, no [r] contains whitespace *)
Definition writable (d : dict str (dict str Z)) : Prop :=
  Forall (fun p => snd p <> [] -> word (fst p) /\ Forall (fun rc => nospace (fst rc)) (snd p)) d.

Lemma split_row l rc : word l -> nospace (fst rc) ->
  split (row_body l rc ++ [10%N]) = match fst rc with [] => [l; format_int (snd rc)] | r => [l; r; format_int (snd rc)] end.
Proof.
  intros W R. unfold row_body. rewrite <- !app_assoc. cbn [app]. rewrite split_word_sp by (auto; reflexivity).
  destruct rc as [r c]. cbn [fst snd] in *. destruct r as [|x r].
  - cbn [app]. rewrite split_sp by reflexivity. rewrite split_word_sp by first [reflexivity|apply format_int_word]. reflexivity.
  - rewrite split_word_sp by first [reflexivity|split; [discriminate|exact R]].
    rewrite split_word_sp by first [reflexivity|apply format_int_word]. reflexivity.
Qed.

(** what has been read so far *)
Definition pending (o : dict str (dict str Z)) (l : str) (rd : dict str Z) : dict str (dict str Z) :=
  match rd with [] => o | _ => dset o l rd end.
Lemma load_group l items : word l -> Forall (fun rc => nospace (fst rc)) items ->
  forall rest o rd, rd <> [] -> NoDup (map fst rd ++ map fst items) ->
  load_loop (map (fun rc => row_body l rc ++ [10%N]) items ++ rest) o l rd = load_loop rest o l (rd ++ items).
Proof.
  intros W F. induction F as [|rc items R F IH]; intros rest o rd NE ND; cbn [map app].
  - rewrite app_nil_r. reflexivity.
  - cbn [load_loop]. rewrite split_row by assumption.
    assert (Nd : dget rd (fst rc) = None).
    { apply dget_None. intros I. cbn [map] in ND. apply NoDup_remove_2 in ND. apply ND, in_or_app. left. exact I. }
    assert (ND' : NoDup (map fst (rd ++ [rc]) ++ map fst items)) by (rewrite map_app, <- app_assoc; exact ND).
    assert (X : rd ++ rc :: items = (rd ++ [rc]) ++ items) by (rewrite <- app_assoc; reflexivity).
    rewrite X. rewrite <- (IH rest o (rd ++ [rc])); [|destruct rd; discriminate|exact ND'].
    destruct rc as [[|x r] c]; cbn [fst snd] in *; rewrite eqb_refl; cbn [negb andb]; rewrite parse_format_int; cbn [bind];
      rewrite dset_items_new by exact Nd; reflexivity.
Qed.
Lemma load_rows d : NoDup (map fst d) -> writable d -> Forall (fun p => NoDup (map fst (snd p))) d ->
  forall o l rd, (forall k, In k (map fst d) -> ~ In k (map fst o) /\ (rd <> [] -> k <> l)) -> (rd <> [] -> ~ In l (map fst o)) ->
  load_loop (rows d) o l rd = Ok (pending o l rd ++ filter (fun p => negb (length (snd p) =? 0)%nat) d).
Proof.
  intros ND Wr G. induction Wr as [|[k items] d Wk Wr IH]; intros o l rd Fr Fl.
  - cbn [rows map concat load_loop filter]. rewrite app_nil_r. reflexivity.
  - cbn [rows map concat fst snd] in *. inversion ND as [|? ? NI ND']; subst. inversion G as [|? ? Gk G']; subst. cbn [fst snd] in *.
    change (concat (map (fun p => map (fun rc => row_body (fst p) rc ++ [10%N]) (snd p)) d)) with (rows d).
    destruct items as [|rc items].
    + cbn [map app filter length Nat.eqb negb]. apply IH; auto. intros k' I. apply Fr. right. exact I.
    + destruct (Wk ltac:(discriminate)) as [Wl Fi]. inversion Fi as [|? ? R Fi']; subst. cbn [map app].
      destruct (Fr k (or_introl eq_refl)) as [Fk Fkl].
      assert (P : exists o', o' = pending o l rd /\
         load_loop ((row_body k rc ++ [10%N]) :: map (fun rc => row_body k rc ++ [10%N]) items ++ rows d) o l rd =
         load_loop (map (fun rc => row_body k rc ++ [10%N]) items ++ rows d) o' k [rc]).
      { eexists. split; [reflexivity|]. cbn [load_loop]. rewrite split_row by assumption.
        assert (C : negb (eqb k l) && negb (length rd =? 0)%nat = negb (length rd =? 0)%nat).
        { destruct rd as [|p rd]; [apply andb_false_r|]. rewrite andb_true_r. cbn [length Nat.eqb negb].
          apply negb_true_iff, eqb_neq, Fkl. discriminate. }
        destruct rc as [r c]. cbn [fst snd] in *.
        destruct rd as [|p rd]; destruct r as [|x r]; rewrite C; cbn [length Nat.eqb negb pending]; rewrite parse_format_int; reflexivity. }
      destruct P as (o' & -> & ->). rewrite load_group; [|exact Wl|exact Fi'|discriminate|exact Gk].
      assert (Pk : ~ In k (map fst (pending o l rd))).
      { unfold pending. destruct rd as [|p rd]; [exact Fk|].
        change (map fst (dset o l (p :: rd))) with (dkeys (dset o l (p :: rd))). rewrite dset_keys. 
        destruct (dmem o l); [exact Fk|]. intros I. apply in_app_or in I as [I|[I|[]]]; [exact (Fk I)|]. apply (Fkl ltac:(discriminate)). congruence. }
      cbn [app]. rewrite IH; [|exact ND'|exact G'| |intros _; exact Pk].
      * cbn [pending filter length Nat.eqb negb snd]. f_equal. cbn [app].
        rewrite dset_items_new by (apply dget_None; exact Pk). rewrite <- app_assoc. reflexivity.
      * intros k' I. destruct (Fr k' (or_intror I)) as [Fk' Fkl']. split.
        -- unfold pending. destruct rd as [|p rd]; [exact Fk'|].
           change (map fst (dset o l (p :: rd))) with (dkeys (dset o l (p :: rd))). rewrite dset_keys. 
           destruct (dmem o l); [exact Fk'|]. intros J. apply in_app_or in J as [J|[J|[]]]; [exact (Fk' J)|]. apply (Fkl' ltac:(discriminate)). congruence.
        -- intros _ ->. exact (NI I).
Qed.
Definition sorted_graph (o : dict str (dict str Z)) : dict str (dict str Z) := sort_items (map (fun p => (fst p, sort_items (snd p))) o).
Lemma insert_map {A B} (le : A -> A -> bool) (le' : B -> B -> bool) (f : A -> B) x l :
  (forall a b, le' (f a) (f b) = le a b) -> map f (insert le x l) = insert le' (f x) (map f l).
Proof. intros H. induction l as [|y l IH]; [reflexivity|]. cbn [insert map]. rewrite H. destruct (le x y); [reflexivity|]. cbn [map]. rewrite IH. reflexivity. Qed.
Lemma sort_map {A B} (le : A -> A -> bool) (le' : B -> B -> bool) (f : A -> B) l :
  (forall a b, le' (f a) (f b) = le a b) -> map f (sort le l) = sort le' (map f l).
Proof. intros H. induction l as [|x l IH]; [reflexivity|]. cbn [sort map]. rewrite (insert_map le le' f) by exact H. rewrite IH. reflexivity. Qed.
Lemma save_rows g o : origin g = Some o -> lrg_save g = Ok (concat (rows (sorted_graph o))).
Proof.
  intros E. unfold lrg_save. rewrite E. f_equal. unfold rows, sorted_graph.
  assert (S : sort_items (map (fun p : str * dict str Z => (fst p, sort_items (snd p))) o) = map (fun p : str * dict str Z => (fst p, sort_items (snd p))) (sort_items o)).
  { symmetry. apply sort_map. reflexivity. }
  rewrite S, map_map. clear S E. cbn [fst snd]. induction (sort_items o) as [|p d IH]; [reflexivity|]. cbn [map concat]. rewrite concat_app, <- IH. f_equal.
  f_equal. apply map_ext. intros rc. unfold row_body. rewrite <- !app_assoc. reflexivity.
Qed.
Lemma Forall_sort {A} (P : A -> Prop) le l : Forall P l -> Forall P (sort le l).
Proof. intros F. apply (Permutation_Forall (Permutation_sym (sort_perm le l)) F). Qed.
Lemma sorted_graph_wf o : is_graph o -> is_graph (sorted_graph o).
Proof.
  intros [W F]. unfold sorted_graph. split.
  - unfold sort_items. eapply Permutation_NoDup; [apply Permutation_map, Permutation_sym, sort_perm|]. rewrite map_map. exact W.
  - apply Forall_sort. apply Forall_map. eapply Forall_impl; [|exact F]. intros p Hp. cbn [snd]. unfold sort_items.
    eapply Permutation_NoDup; [apply Permutation_map, Permutation_sym, sort_perm|]. exact Hp.
Qed.
Lemma sorted_graph_writable o : writable o -> writable (sorted_graph o).
Proof.
  intros F. unfold sorted_graph, writable. apply Forall_sort. apply Forall_map. eapply Forall_impl; [|exact F].
  intros p Hp NE. cbn [fst snd] in *. 
  assert (NE' : snd p <> []) by (intros E; apply NE; rewrite E; reflexivity). destruct (Hp NE') as [A B]. split; [exact A|]. apply Forall_sort. exact B.
Qed.
Lemma sorted_graph_holds o l r c : holds_pair (sorted_graph o) l r c <-> holds_pair o l r c.
Proof.
  unfold holds_pair, sorted_graph, sort_items. split.
  - intros (rd & I & J). apply sort_In in I. apply in_map_iff in I as (p & E & I). injection E as <- <-. apply sort_In in J. exists (snd p). split; [destruct p; exact I|exact J].
  - intros (rd & I & J). exists (sort_items rd). split; [|apply sort_In; exact J]. apply sort_In. apply in_map_iff. exists (l, rd). auto.
Qed.
Lemma rows_lines d : writable d -> file_lines (concat (rows d)) = rows d.
Proof.
  intros W. assert (E : rows d = map (fun b => b ++ [10%N]) (concat (map (fun p => map (row_body (fst p)) (snd p)) d))).
  { unfold rows. rewrite concat_map, map_map. f_equal. apply map_ext. intros p. rewrite map_map. reflexivity. }
  rewrite E. apply file_lines_concat. apply Forall_forall. intros b I. apply in_concat in I as (x & Ix & I).
  apply in_map_iff in Ix as (p & <- & Ip). apply in_map_iff in I as (rc & <- & Ir).
  unfold writable in W. rewrite Forall_forall in W. destruct (W p Ip ltac:(intros Z; rewrite Z in Ir; destruct Ir)) as [[_ A] B].
  rewrite Forall_forall in B. specialize (B rc Ir). unfold row_body.
  assert (SPn : no_nl [SP]) by (constructor; [split; discriminate|constructor]).
  apply Forall_app; split; [apply nospace_no_nl; exact A|]. apply Forall_app; split; [exact SPn|].
  apply Forall_app; split; [apply nospace_no_nl; exact B|]. apply Forall_app; split; [exact SPn|].
  apply nospace_no_nl, format_int_word.
Qed.
Lemma save_load_roundtrip g o : origin g = Some o -> is_graph o -> writable o ->
  exists text, lrg_save g = Ok text /\ forall g1,
  ((forall l r c, ~ holds_pair o l r c) -> lrg_load g1 text = Err IndexError) /\
  ((exists l r c, holds_pair o l r c) -> exists g2, lrg_load g1 text = Ok g2 /\ Inv g2 /\ origin g2 = Some (lr g2) /\
     l_max g2 = l_max g1 /\ r_max g2 = r_max g1 /\
     forall l r c, holds_pair (lr g2) l r c <-> holds_pair o l r c).
Proof.
  intros E G W. eexists. split; [apply save_rows; exact E|]. intros g1. unfold lrg_load.
  pose proof (sorted_graph_wf o G) as [SW SF]. pose proof (sorted_graph_writable o W) as SWr.
  rewrite rows_lines by exact SWr.
  rewrite load_rows; [|exact SW|exact SWr|exact SF|intros k _; split; [intros []|congruence]|congruence].
  cbn [bind pending app]. pose (d := filter (fun p : str * dict str Z => negb (length (snd p) =? 0)%nat) (sorted_graph o)).
  change (filter _ (sorted_graph o)) with d.
  assert (H : forall l r c, holds_pair d l r c <-> holds_pair o l r c).
  { intros l r c. rewrite <- (sorted_graph_holds o). unfold holds_pair, d. split; intros (rd & A & B); exists rd; (split; [|exact B]).
    - apply filter_In in A. tauto.
    - apply filter_In. split; [exact A|]. cbn [snd]. destruct rd; [destruct B|reflexivity]. }
  assert (Gd : is_graph d).
  { split; [apply (NoDup_filter_map (K:=str)); exact SW|]. apply Forall_forall. intros p I. apply filter_In in I as [I _]. rewrite Forall_forall in SF. auto. }
  assert (L0 : forall p, In p d -> snd p <> []).
  { intros p I Z. apply filter_In in I as [_ L]. rewrite Z in L. discriminate. }
  clearbody d. split.
  - intros No. destruct d as [|[l rd] d']; [reflexivity|]. exfalso.
    destruct rd as [|[r c] rd]; [apply (L0 (l, [])); [left|]; reflexivity|]. apply (No l r c). apply H. exists ((r, c) :: rd). split; left; reflexivity.
  - intros (l & r & c & P). apply H in P. assert (C : check_lrgraph d = Ok (d, make_rl d)) by (destruct d; [destruct P as (? & [] & _)|reflexivity]).
    rewrite C. cbn [bind fst snd]. eexists. split; [reflexivity|].
    split; [|cbn [lr origin l_max r_max]; repeat split; try reflexivity; apply H].
    constructor; cbn [lr rl origin]; [exact Gd|apply make_rl_wf|intros; apply make_rl_spec; exact Gd|apply make_rl_full|exact Gd].
Qed.
