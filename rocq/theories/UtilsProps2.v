(** * Property C31, continued: LRGraph.to_EojeolCounter *)
From Verif Require Import PyBase PyDict PyText PyFile UtilsModel UtilsSpec UtilsProofs UtilsProofs2 UtilsProps.
Open Scope Z_scope.

(** the (l, r, count) triples of a table in the order Python's nested loop over items() visits them *)
Definition triples (d : dict str (dict str Z)) : list (str * str * Z) :=
  concat (map (fun lrd => map (fun rc => (fst lrd, fst rc, snd rc)) (snd lrd)) d).
(** [v] is the count of the last visited split of [w] *)
Definition last_split (ts : list (str * str * Z)) (w : str) (v : Z) : Prop :=
  exists before l r after, ts = before ++ (l, r, v) :: after /\ w = l ++ r /\ forall l' r' v', In (l', r', v') after -> l' ++ r' <> w.

Lemma flat_triples d : flat_list d = map (fun t : str * str * Z => (fst (fst t) ++ snd (fst t), snd t)) (triples d).
Proof.
  unfold flat_list, triples. rewrite concat_map, map_map. f_equal. apply map_ext. intros [l rd]. rewrite map_map. reflexivity.
Qed.
Lemma dict_of_last (ts : list (str * str * Z)) w v :
  dget (dict_of (map (fun t : str * str * Z => (fst (fst t) ++ snd (fst t), snd t)) ts)) w = Some v <-> last_split ts w v.
Proof.
  revert v. induction ts as [|[[l r] c] ts IH] using rev_ind; intros v.
  - split; [discriminate|]. intros ([|? ?] & ? & ? & ? & E & _); discriminate.
  - unfold dict_of in *. rewrite map_app, fold_left_app. cbn [map fold_left fst snd]. rewrite dget_dset. destruct (eqb_spec (l ++ r) w) as [<-|N].
    + split.
      * intros E. injection E as <-. exists ts, l, r, []. split; [reflexivity|]. split; [reflexivity|]. intros ? ? ? [].
      * intros (b & l' & r' & a & E & W & H). destruct a as [|x a _] using rev_ind.
        -- apply app_inj_tail in E as [_ E]. congruence.
        -- rewrite app_comm_cons, app_assoc in E. apply app_inj_tail in E as [_ <-]. exfalso. apply (H l r c); [apply in_or_app; right; left; reflexivity|reflexivity].
    + rewrite IH. split.
      * intros (b & l' & r' & a & -> & W & H). exists b, l', r', (a ++ [(l, r, c)]). split; [rewrite <- app_assoc; reflexivity|]. split; [exact W|].
        intros l2 r2 v2 I. apply in_app_or in I as [I|[I|[]]]; [eapply H, I|]. injection I as <- <- <-. congruence.
      * intros (b & l' & r' & a & E & W & H). destruct a as [|x a _] using rev_ind.
        -- apply app_inj_tail in E as [_ E]. injection E as <- <- <-. congruence.
        -- rewrite app_comm_cons, app_assoc in E. apply app_inj_tail in E as [-> _]. exists b, l', r', a. split; [reflexivity|]. split; [exact W|].
           intros l2 r2 v2 I. apply (H l2 r2 v2). apply in_or_app. left. exact I.
Qed.

(** without reset the counter holds, for each eojeol with a split in the current graph, the count of the split visited last;
    its total is the sum of these *)
Theorem C31_counter_of_current_graph : forall g, exists c, to_EojeolCounter g false = Ok c /\
  (forall w v, dget (ec_counter c) w = Some v <-> last_split (triples (lr g)) w v) /\ NoDup (map fst (ec_counter c)) /\ ec_sum c = total (ec_counter c).
Proof.
  intros g. eexists. split; [reflexivity|]. split; [|split].
  - intros w v. cbn [mkCounter ec_counter]. rewrite flat_counter_dict_of, flat_triples. apply dict_of_last.
  - cbn [mkCounter ec_counter]. rewrite flat_counter_dict_of. apply (dwf_dict_of (flat_list (lr g))).
  - reflexivity.
Qed.
Print Assumptions C31_counter_of_current_graph.
(** with reset it is the counter of the graph as constructed, whatever was added and removed since; a frozen graph has no such counter *)
Theorem C31_counter_of_original_graph : forall d sents lm rm g ops, is_graph d -> lrg_new d sents lm rm = Ok g ->
  (Forall (fun o => o <> OpFreeze) ops -> to_EojeolCounter (history g ops) true = to_EojeolCounter g false) /\
  to_EojeolCounter (history (freeze g) ops) true = Err AttributeError.
Proof.
  intros d sents lm rm g ops G N. destruct (new_Inv _ _ _ _ _ G N) as (I & _ & O & _). split.
  - intros F. destruct (history_origin ops F g I) as (A & _ & _). unfold to_EojeolCounter. rewrite A, O. reflexivity.
  - unfold to_EojeolCounter. assert (H : forall g, origin g = None -> origin (history g ops) = None).
    { clear. induction ops as [|o ops IH]; intros g0 E; [exact E|]. apply (IH (step g0 o)), step_None, E. }
    rewrite H by reflexivity. reflexivity.
Qed.
Print Assumptions C31_counter_of_original_graph.
Example C31_counter_ex : exists g, lrg_new [(u "이것", [(u "은", 3)]); (u "이", [(u "것은", 3); (u "것", 2)])] [] 10 9 = Ok g /\
  (let h := history g [OpRemove (u "이") (u "것은") 1] in
   match to_EojeolCounter h false, to_EojeolCounter h true with
   | Ok c, Ok c0 => ec_counter c = [(u "이것은", 2); (u "이것", 2)] /\ ec_counter c0 = [(u "이것은", 3); (u "이것", 2)]
   | _, _ => False end) /\ last_split (triples (lr g)) (u "이것은") 3.
Proof.
  eexists. split; [vm_compute; reflexivity|]. split; [vm_compute; split; reflexivity|].
  exists [(u "이것", u "은", 3)], (u "이"), (u "것은"), [(u "이", u "것", 2)]. split; [reflexivity|]. split; [reflexivity|].
  intros l r v [E|[]] E'. injection E as <- <- <-. discriminate E'.
Qed.

(** ** C34, continued: the eojeols not covered yet *)
(** get_uncovered_eojeols(m) after any removals: the eojeols in no removed set that occurred at least m times, with their counts *)
Theorem C34_uncovered : forall d ess m w v, is_counter d -> 0 < total d ->
  let c := removed_all (mkCounter d) ess in
  dget (get_uncovered_eojeols c m) w = Some v <-> dget d w = Some v /\ ~ In w (concat ess) /\ m <= v.
Proof.
  intros d ess m w v C T c. destruct (C34_coverage d ess [] C T) as (A & _). fold c in A.
  assert (dwf d) as W by apply C. unfold get_uncovered_eojeols. rewrite A.
  change (filter (fun kv : str * Z => negb (mem (fst kv) (concat ess))) d) with (dfilter (fun k (_ : Z) => negb (mem k (concat ess))) d).
  rewrite dget_dfilter by (apply dwf_dfilter, W). rewrite dget_dfilter by exact W.
  destruct (dget d w) as [x|]; [|split; [discriminate|intros [? _]; discriminate]].
  destruct (mem w (concat ess)) eqn:M; cbn [negb].
  - split; [discriminate|]. intros (_ & N & _). apply mem_In in M. contradiction.
  - assert (~ In w (concat ess)) as NI by (intros I; apply mem_In in I; congruence).
    rewrite Z.geb_leb. destruct (Z.leb_spec m x).
    + split; [intros E; injection E as <-; auto|intros (E & _); exact E].
    + split; [discriminate|]. intros (E & _ & L). injection E as <-. lia.
Qed.
Print Assumptions C34_uncovered.
Example C34_uncovered_ex : get_uncovered_eojeols (removed_all (mkCounter [(u "가", 3); (u "나", 1); (u "다", 4)]) [[u "가"]]) 2 = [(u "다", 4)].
Proof. vm_compute. reflexivity. Qed.
