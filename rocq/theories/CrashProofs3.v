From Coq Require Import List ZArith NArith QArith Lia Permutation Sorted.
Import ListNotations.
From Verif Require Import PyBase PyDict PySort PyText PyFile SortLemmas UtilsModel UtilsSpec UtilsProofs UtilsProofs2 UtilsProofs3 UtilsProofs4 UtilsProofs5 CrashModel CrashSpec CrashProofs CrashProofs2.
Open Scope Z_scope.

(** ** LRGraph *)
Definition flat (d : dict str (dict str Z)) : list pair3 := concat (map (fun p => map (fun rc => (fst p, fst rc, snd rc)) (snd p)) d).
Lemma flat_In d l r c : In (l, r, c) (flat d) <-> holds_pair d l r c.
Proof.
  unfold flat, holds_pair. rewrite in_concat. split.
  - intros (x & X & I). apply in_map_iff in X as ([k rd] & <- & X). apply in_map_iff in I as ([r0 c0] & E & I). cbn [fst snd] in *. assert (k = l /\ r0 = r /\ c0 = c) as (-> & -> & ->) by (repeat split; congruence). exists rd. auto.
  - intros (rd & A & B). eexists. split; [apply in_map_iff; exists (l, rd); split; [reflexivity|exact A]|]. apply in_map_iff. exists (r, c). auto.
Qed.
Lemma rows_flat d : rows d = map (fun b => b ++ [10%N]) (map graph_line (flat d)).
Proof.
  unfold rows, flat. rewrite !concat_map, !map_map. f_equal. apply map_ext. intros p. rewrite !map_map. apply map_ext. intros rc. reflexivity.
Qed.
Lemma flat_NoDup d : is_graph d -> NoDup (map (fun t => (t_l t, t_r t)) (flat d)).
Proof.
  intros [ND F]. induction F as [|[l rd] d R F IH]; [constructor|]. inversion ND as [|? ? NI ND']; subst. specialize (IH ND'). cbn [fst snd] in *.
  unfold flat. cbn [map concat fst snd]. change (concat (map _ d)) with (flat d). rewrite map_app. apply CountLemmas.NoDup_app_intro.
  - rewrite map_map. unfold t_l, t_r. cbn [fst snd]. rewrite <- (map_map fst (fun r => (l, r))). apply FinFun.Injective_map_NoDup; [intros a b E; congruence|exact R].
  - exact IH.
  - intros [a b] I J. rewrite map_map in I. apply in_map_iff in I as (rc & E & I). unfold t_l in E. cbn [fst] in E. apply in_map_iff in J as ([[l' r'] c'] & E' & J). unfold t_l in E'. cbn [fst] in E'.
    apply flat_In in J as (rd' & J & _). apply NI. apply in_map_iff. exists (l', rd'). split; [cbn [fst]; congruence|exact J].
Qed.
Lemma SS_mono {A B} (f : A -> B) (R : A -> A -> Prop) (R' : B -> B -> Prop) l : (forall x y, R x y -> R' (f x) (f y)) -> StronglySorted R l -> StronglySorted R' (map f l).
Proof.
  intros H. induction 1 as [|x l S IH F]; [constructor|]. cbn [map]. constructor; [exact IH|]. apply Forall_map. eapply Forall_impl; [|exact F]. intros y. apply H.
Qed.
Lemma sort_items_sorted {V} (d : dict str V) : StronglySorted (fun x y => str_leb (fst x) (fst y) = true) (sort_items d).
Proof.
  unfold sort_items. apply (sort_sorted (fun x y : str * V => str_leb (fst x) (fst y))).
  - intros x y. apply str_leb_total.
  - intros x y z. apply str_leb_trans.
Qed.
Lemma flat_sorted o : is_graph o -> alphabetical (flat (sorted_graph o)).
Proof.
  intros G. pose proof (sorted_graph_wf o G) as [ND _]. unfold sorted_graph in *.
  pose proof (sort_items_sorted (map (fun p : str * dict str Z => (fst p, sort_items (snd p))) o)) as SS.
  assert (RW : Forall (fun p => exists rd, snd p = sort_items rd) (sort_items (map (fun p : str * dict str Z => (fst p, sort_items (snd p))) o))).
  { apply Forall_sort, Forall_map, Forall_forall. intros p _. exists (snd p). reflexivity. }
  unfold alphabetical. induction SS as [|[l rd] d SS IH F]; [constructor|]. inversion ND as [|? ? NI ND']; subst. inversion RW as [|? ? R1 R2]; subst. specialize (IH ND' R2). cbn [fst snd] in *.
  unfold flat. cbn [map concat fst snd]. change (concat (map _ d)) with (flat d). apply SS_app; [|exact IH|].
  - destruct R1 as (rd0 & ->). eapply SS_mono; [|apply sort_items_sorted]. intros x y H. right. split; [reflexivity|exact H].
  - intros x [[l' r'] c'] I J. apply in_map_iff in I as (rc & <- & I). apply flat_In in J as (rd' & J & _). left. unfold t_l. cbn [fst]. split.
    + intros <-. apply NI. apply in_map_iff. exists (l, rd'). auto.
    + rewrite Forall_forall in F. apply (F _ J).
Qed.

(** the state of the loader after the complete lines [ts] *)
Definition loaded (ts : list pair3) (o : dict str (dict str Z)) (l : str) (rd : dict str Z) : Prop :=
  (rd = [] -> ts = [] /\ o = [] /\ l = []) /\ NoDup (map fst rd) /\ is_graph o /\ ~ In l (map fst o) /\
  (forall k, In k (map fst o) -> exists r c, In (k, r, c) ts) /\
  (ts <> [] -> exists ts' r c, ts = ts' ++ [(l, r, c)]) /\
  (forall a r c, In (a, r, c) ts <-> holds_pair o a r c \/ (a = l /\ In (r, c) rd)).
Lemma loaded_nil : loaded [] [] [] [].
Proof.
  split; [auto|]. split; [constructor|]. split; [split; constructor|]. split; [intros []|]. split; [intros k []|]. split; [congruence|].
  intros a r c. split; [intros []|]. intros [(rd & [] & _)|[_ []]].
Qed.
Lemma holds_pair_app d1 d2 l r c : holds_pair (d1 ++ d2) l r c <-> holds_pair d1 l r c \/ holds_pair d2 l r c.
Proof.
  unfold holds_pair. split.
  - intros (rd & A & B). apply in_app_or in A as [A|A]; [left|right]; exists rd; auto.
  - intros [(rd & A & B)|(rd & A & B)]; exists rd; split; auto; apply in_or_app; auto.
Qed.
Lemma holds_pair_one l rd a r c : holds_pair [(l, rd)] a r c <-> a = l /\ In (r, c) rd.
Proof. unfold holds_pair. split; [intros (rd' & [E|[]] & J); assert (l = a /\ rd = rd') as [-> ->] by (split; congruence); auto|intros [-> J]; exists rd; split; [left; reflexivity|exact J]]. Qed.
(** the next line begins with [l2]: the former group is closed if the left part is another one *)
Definition closed (o : dict str (dict str Z)) (l : str) (rd : dict str Z) (l2 : str) : dict str (dict str Z) * dict str Z :=
  let changed := negb (eqb l2 l) && negb (length rd =? 0)%nat in
  (if changed then dset o l rd else o, if changed then [] else rd).
Lemma closed_loaded ts o l rd l2 : loaded ts o l rd -> (forall ts' a r c, ts = ts' ++ [(a, r, c)] -> l2 <> a -> forall r' c', ~ In (l2, r', c') ts) ->
  let o' := fst (closed o l rd l2) in let rd' := snd (closed o l rd l2) in
  NoDup (map fst rd') /\ is_graph o' /\ ~ In l2 (map fst o') /\ (forall k, In k (map fst o') -> exists r c, In (k, r, c) ts) /\
  (forall a r c, In (a, r, c) ts <-> holds_pair o' a r c \/ (a = l2 /\ In (r, c) rd')).
Proof.
  intros (H1 & H2 & H3 & H4 & H5 & H6 & H7) N. unfold closed. destruct (eqb_spec l2 l) as [->|NE]; cbn [negb andb fst snd].
  - split; [exact H2|]. split; [exact H3|]. split; [exact H4|]. split; [exact H5|exact H7].
  - destruct rd as [|x rd]; cbn [length Nat.eqb negb fst snd].
    + destruct (H1 eq_refl) as (-> & -> & ->). split; [constructor|]. split; [exact H3|]. split; [intros []|]. split; [exact H5|].
      intros a r c. split; [intros []|]. intros [(rd & [] & _)|[_ []]].
    + assert (TN : ts <> []). { intros ->. destruct x as [r c]. apply (proj2 (H7 l r c)). right. split; [reflexivity|left; reflexivity]. }
      destruct (H6 TN) as (ts' & r0 & c0 & TE). specialize (N ts' l r0 c0 TE NE).
      rewrite dset_items_new by (apply dget_None; exact H4). split; [constructor|].
      split; [|split; [|split]].
      * destruct H3 as [G1 G2]. split; [rewrite map_app; apply CountLemmas.NoDup_app_intro; [exact G1|constructor; [intros []|constructor]|intros k I [<-|[]]; exact (H4 I)]|apply Forall_app; split; [exact G2|constructor; [exact H2|constructor]]].
      * rewrite map_app. intros I. apply in_app_or in I as [I|[E|[]]]; [|exact (NE (eq_sym E))]. destruct (H5 _ I) as (r & c & J). exact (N r c J).
      * rewrite map_app. intros k I. apply in_app_or in I as [I|[<-|[]]]; [apply H5, I|]. exists r0, c0. rewrite TE. apply in_or_app. right. left. reflexivity.
      * intros a r c. rewrite H7, holds_pair_app, holds_pair_one. cbn [In]. tauto.
Qed.
Lemma load_step ts o l rd l2 r2 z : loaded ts o l rd -> (forall ts' a r c, ts = ts' ++ [(a, r, c)] -> l2 <> a -> forall r' c', ~ In (l2, r', c') ts) ->
  (forall c, ~ In (l2, r2, c) ts) -> loaded (ts ++ [(l2, r2, z)]) (fst (closed o l rd l2)) l2 (dset (snd (closed o l rd l2)) r2 z).
Proof.
  intros H N NI. destruct (closed_loaded ts o l rd l2 H N) as (C1 & C2 & C3 & C4 & C5). set (o' := fst (closed o l rd l2)) in *. set (rd' := snd (closed o l rd l2)) in *. cbv zeta in *. clearbody o' rd'.
  assert (F : dget rd' r2 = None). { apply dget_None. intros I. apply in_map_iff in I as ([r c] & E & I). cbn [fst] in E. subst r. apply (NI c), C5. right. auto. }
  rewrite dset_items_new by exact F. apply dget_None in F. split; [destruct rd'; discriminate|].
  split; [rewrite map_app; apply CountLemmas.NoDup_app_intro; [exact C1|constructor; [intros []|constructor]|intros k I [<-|[]]; exact (F I)]|].
  split; [exact C2|]. split; [exact C3|]. split; [intros k I; destruct (C4 k I) as (r & c & J); exists r, c; apply in_or_app; auto|].
  split; [intros _; exists ts, r2, z; reflexivity|]. intros a r c. split.
  - intros I. apply in_app_or in I as [I|[E|[]]]; [apply C5 in I as [I|[-> I]]; [left; exact I|right; split; [reflexivity|apply in_or_app; auto]]|]. right. assert (a = l2 /\ r = r2 /\ c = z) as (-> & -> & ->) by (repeat split; congruence). split; [reflexivity|apply in_or_app; right; left; reflexivity].
  - intros [I|[-> I]]; [apply in_or_app; left; apply C5; auto|]. apply in_app_or in I as [I|[E|[]]]; [apply in_or_app; left; apply C5; auto|]. apply in_or_app. right. left. congruence.
Qed.
Lemma load_line (line : str) ls o l rd l2 r2 z : (exists n, split line = match r2 with [] => [l2; n] | _ => [l2; r2; n] end /\ parse_int n = Ok z) ->
  load_loop (line :: ls) o l rd = load_loop ls (fst (closed o l rd l2)) l2 (dset (snd (closed o l rd l2)) r2 z).
Proof.
  intros (n & E & P). cbn [load_loop]. rewrite E. unfold closed. destruct r2; rewrite P; cbn [bind fst snd]; reflexivity.
Qed.
Lemma graph_line_split t : word (t_l t) -> nospace (t_r t) -> exists n, split (graph_line t ++ [10%N]) = match t_r t with [] => [t_l t; n] | _ => [t_l t; t_r t; n] end /\ parse_int n = Ok (t_c t).
Proof.
  intros W R. exists (format_int (t_c t)). split; [|apply parse_format_int]. destruct t as [[l r] c]. unfold t_l, t_r, t_c in *. cbn [fst snd] in *. pose proof (split_row l (r, c) W R) as X. destruct r; exact X.
Qed.
(** consecutive groups *)
Definition grouped (T : list pair3) : Prop := forall ts t rest, T = ts ++ t :: rest ->
  (forall ts' a r c, ts = ts' ++ [(a, r, c)] -> t_l t <> a -> forall r' c', ~ In (t_l t, r', c') ts) /\ (forall c, ~ In (t_l t, t_r t, c) ts).
Lemma alphabetical_grouped T : alphabetical T -> NoDup (map (fun t => (t_l t, t_r t)) T) -> grouped T.
Proof.
  intros A ND ts t rest ->. split.
  - intros ts' a r c -> NE r' c' I. apply in_app_or in I as [I|[E|[]]]; [|apply NE; unfold t_l; congruence]. unfold alphabetical in A. rewrite <- app_assoc in A. cbn [app] in A.
    apply in_split in I as (x & y & ->). rewrite <- app_assoc in A. cbn [app] in A. clear ND.
    assert (A1 : StronglySorted (fun x y => t_l x <> t_l y /\ str_leb (t_l x) (t_l y) = true \/ t_l x = t_l y /\ str_leb (t_r x) (t_r y) = true) ((t_l t, r', c') :: y ++ (a, r, c) :: t :: rest)) by (clear -A; induction x as [|z x IH]; [exact A|inversion A; subst; apply IH; assumption]).
    inversion A1 as [|? ? A2 A3]; subst. rewrite Forall_forall in A3. specialize (A3 (a, r, c) ltac:(apply in_or_app; right; left; reflexivity)). unfold t_l at 1 2 3 5 in A3. cbn [fst] in A3.
    assert (A4 : t_l t = a \/ str_leb a (t_l t) = true).
    { clear -A2. induction y as [|z y IH]; [|inversion A2; subst; apply IH; assumption]. inversion A2 as [|? ? B1 B2]; subst. apply Forall_inv in B2. unfold t_l at 1 3 5 in B2. cbn [fst] in B2. destruct B2 as [[_ B]|[B _]]; auto. }
    destruct A4 as [A4|A4]; [exact (NE A4)|]. apply NE. destruct A3 as [[_ A3]|[A3 _]]; [apply str_leb_antisym; assumption|exact A3].
  - intros c I. rewrite map_app in ND. cbn [map] in ND. apply NoDup_remove_2 in ND. apply ND. apply in_or_app. left. apply in_map_iff. exists (t_l t, t_r t, c). auto.
Qed.
Lemma load_complete T : grouped T -> Forall (fun t => word (t_l t) /\ nospace (t_r t)) T -> forall k, exists o l rd, loaded (firstn k T) o l rd /\
  forall more, load_loop (map (fun b => b ++ [10%N]) (map graph_line (firstn k T)) ++ more) [] [] [] = load_loop more o l rd.
Proof.
  intros G F. induction k as [|k IH].
  - exists [], [], []. split; [apply loaded_nil|reflexivity].
  - destruct IH as (o & l & rd & L & E). destruct (nth_error T k) as [t|] eqn:NT.
    + assert (SPL : T = firstn k T ++ t :: skipn (S k) T) by (rewrite <- (firstn_skipn k T) at 1; f_equal; clear -NT; revert k NT; induction T as [|x r IH]; intros [|k] N; try discriminate N; [injection N as ->; reflexivity|apply IH, N]).
      assert (FS : firstn (S k) T = firstn k T ++ [t]) by (clear -NT; revert k NT; induction T as [|x r IH]; intros [|k] N; try discriminate N; [injection N as ->; reflexivity|cbn [firstn app]; f_equal; apply IH, N]).
      destruct (G _ _ _ SPL) as [G1 G2]. destruct t as [[l2 r2] z]. unfold t_l, t_r in G1, G2. cbn [fst snd] in G1, G2.
      eexists _, _, _. split; [rewrite FS; apply load_step; [exact L|exact G1|exact G2]|]. intros more. rewrite FS, !map_app, <- app_assoc. cbn [map app]. rewrite E. apply load_line.
      rewrite Forall_forall in F. destruct (F (l2, r2, z) (nth_error_In _ _ NT)) as [F1 F2]. exact (graph_line_split (l2, r2, z) F1 F2).
    + apply nth_error_None in NT. rewrite firstn_all2 by lia. rewrite firstn_all2 in L, E by lia. exists o, l, rd. auto.
Qed.
