(** * C82: the file an EojeolPatternTrainer writes *)
From Coq Require Import List ZArith NArith Lia Permutation Sorted.
Import ListNotations.
From Verif Require Import PyBase PyDict PySort PyText PyFile SortLemmas UtilsModel UtilsSpec BuilderModel.
Open Scope Z_scope.

(** [row'] is [row] with the most frequent first and equally frequent ones in the former order *)
Definition by_frequency (row row' : dict str Z) : Prop :=
  Permutation row' row /\ StronglySorted (fun x y => snd y <= snd x) row' /\ forall n, filter (fun kv => snd kv =? n) row' = filter (fun kv => snd kv =? n) row.
Definition entry (kv : str * dict str Z) : list str :=
  (u "> " ++ fst kv ++ u " (" ++ format_int (total (snd kv)) ++ u ")") :: map (fun x => u "  - " ++ fst x ++ u ": " ++ format_int (snd x)) (snd kv).
Definition numbers (l : list Z) : str := join [32%N] (map format_int l).

Lemma b_le_total x y : b_le x y = true \/ b_le y x = true.
Proof. unfold b_le. rewrite !Z.leb_le. lia. Qed.
Lemma b_le_trans x y z : b_le x y = true -> b_le y z = true -> b_le x z = true.
Proof. unfold b_le. rewrite !Z.leb_le. lia. Qed.
Lemma sort_by_frequency row : by_frequency row (sort b_le row).
Proof.
  split; [apply sort_perm|]. split.
  - eapply StronglySorted_impl; [|apply (sort_sorted b_le b_le_total b_le_trans)]. intros x y H. apply Z.leb_le, H.
  - intros n. pose proof (sort_stable b_le b_le_total b_le_trans ([], n) row) as E. 
    rewrite (filter_ext (fun kv : str * Z => snd kv =? n) (equivb b_le ([], n))); [|intros kv; unfold equivb, b_le; cbn [snd]; destruct (Z.eqb_spec (snd kv) n), (Z.leb_spec (snd kv) n), (Z.leb_spec n (snd kv)); cbn; congruence || lia]. 
    rewrite (filter_ext (fun kv : str * Z => snd kv =? n) (equivb b_le ([], n))) by (intros kv; unfold equivb, b_le; cbn [snd]; destruct (Z.eqb_spec (snd kv) n), (Z.leb_spec (snd kv) n), (Z.leb_spec n (snd kv)); cbn; congruence || lia). exact E.
Qed.
Lemma fold_total (row : dict str Z) : fold_left Z.add (map snd row) 0 = total row.
Proof.
  unfold total. assert (X : forall l a, fold_left Z.add l a = a + fold_right Z.add 0 l) by (induction l as [|x l IH]; intros a; cbn [fold_left fold_right]; [lia|rewrite IH; lia]). rewrite X. lia.
Qed.
Lemma total_perm (a b : dict str Z) : Permutation a b -> total a = total b.
Proof. unfold total. induction 1 as [|x a b P IH|x y a|a b c P1 I1 P2 I2]; cbn [map fold_right]; lia. Qed.
Theorem C82_file : forall c st, exists lrows rrows,
  Forall2 (fun x y => fst y = fst x /\ by_frequency (snd x) (snd y)) (s_lr st) lrows /\ Forall2 (fun x y => fst y = fst x /\ by_frequency (snd x) (snd y)) (s_rl st) rrows /\
  b_save c st = concat (map (fun l => l ++ [10%N])
    ([numbers [b_lm c; b_rm c; b_mf c; if b_verbose c then 1 else 0]; u "# lrgraph"] ++ concat (map entry lrows) ++ [[]; u "# rlgraph"] ++ concat (map entry rrows))).
Proof.
  intros c st. pose (f := fun kv : str * dict str Z => (fst kv, sort b_le (snd kv))). exists (map f (s_lr st)), (map f (s_rl st)).
  assert (F : forall g : list (str * dict str Z), Forall2 (fun x y => fst y = fst x /\ by_frequency (snd x) (snd y)) g (map f g)).
  { intros g. induction g as [|x g IH]; [constructor|]. cbn [map]. constructor; [split; [reflexivity|apply sort_by_frequency]|exact IH]. }
  assert (E : forall g : list (str * dict str Z), graph_lines g = concat (map entry (map f g))).
  { intros g. unfold graph_lines. rewrite map_map. f_equal. apply map_ext. intros kv. unfold entry, f, key_line. cbn [fst snd]. rewrite fold_total. rewrite (total_perm _ _ (sort_perm b_le (snd kv))). reflexivity. }
  split; [apply F|]. split; [apply F|]. unfold b_save. rewrite !E. reflexivity.
Qed.
Print Assumptions C82_file.
