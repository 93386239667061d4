(** * Proofs about LRGraph: nested dictionaries *)
From Verif Require Import PyBase PyDict PySort PyText UtilsModel UtilsSpec.
Open Scope Z_scope.

Definition pget (d : dict str (dict str Z)) (a b : str) : option Z :=
  match dget d a with Some x => dget x b | None => None end.

Lemma dset_keys_In {K V} `{EqB K} (d : dict K V) k v p : In p (dset d k v) -> p = (k, v) \/ In p d.
Proof.
  induction d as [|[k0 v0] d IH]; cbn [dset].
  - intros [<-|[]]. auto.
  - destruct (eqb_spec k0 k) as [->|n].
    + intros [<-|I]; [auto|right; right; exact I].
    + intros [<-|I]; [right; left; reflexivity|]. destruct (IH I) as [->|I']; [auto|right; right; exact I'].
Qed.

Lemma gwf_dset d a x : is_graph d -> NoDup (map fst x) -> is_graph (dset d a x).
Proof.
  intros [W F] X. split; [apply (dwf_dset (K:=str)); exact W|].
  apply Forall_forall. intros p I. apply dset_keys_In in I as [->|I]; [exact X|]. rewrite Forall_forall in F. auto.
Qed.
Lemma gwf_dpop d a : is_graph d -> is_graph (dpop d a).
Proof.
  intros [W F]. split; [apply (dwf_dpop (K:=str)); exact W|].
  apply Forall_forall. intros p I. apply filter_In in I as [I _]. rewrite Forall_forall in F. auto.
Qed.
Lemma gwf_nil : is_graph [].
Proof. split; constructor. Qed.
Lemma gwf_inner d a x : is_graph d -> dget d a = Some x -> NoDup (map fst x).
Proof. intros [_ F] E. apply dget_In in E. rewrite Forall_forall in F. apply (F _ E). Qed.

Lemma pget_holds d l r c : is_graph d -> (pget d l r = Some c <-> holds_pair d l r c).
Proof.
  intros G. pose proof G as [W F]. unfold pget, holds_pair. split.
  - destruct (dget d l) as [x|] eqn:E; [|discriminate]. intros E2. exists x. split; apply dget_In; assumption.
  - intros (x & I & I2). apply (In_dget (K:=str) _ _ _ W) in I. rewrite I.
    apply In_dget; [|exact I2]. exact (gwf_inner _ _ _ G I).
Qed.

Lemma pget_nil a b : pget [] a b = None.
Proof. reflexivity. Qed.
Lemma pget_dset d a x a' b' : pget (dset d a x) a' b' = if eqb a a' then dget x b' else pget d a' b'.
Proof. unfold pget. rewrite dget_dset. destruct (eqb a a'); reflexivity. Qed.
Lemma pget_dpop d a a' b' : pget (dpop d a) a' b' = if eqb a a' then None else pget d a' b'.
Proof. unfold pget. rewrite dget_dpop. destruct (eqb a a'); reflexivity. Qed.

Definition oget (o : option Z) : Z := match o with Some v => v | None => 0 end.

Lemma pget_inc2 d a b c a' b' :
  pget (inc2 d a b c) a' b' = if eqb a a' && eqb b b' then Some (oget (pget d a b) + c) else pget d a' b'.
Proof.
  unfold inc2. rewrite pget_dset. destruct (eqb_spec a a') as [<-|n]; [|reflexivity]. cbn [andb].
  rewrite dget_dset. unfold dgetd, pget. destruct (dget d a) as [x|]; [|destruct (eqb b b'); reflexivity].
  destruct (eqb_spec b b') as [<-|]; [|reflexivity]. destruct (dget x b); reflexivity.
Qed.
Lemma gwf_inc2 d a b c : is_graph d -> is_graph (inc2 d a b c).
Proof.
  intros G. unfold inc2. apply gwf_dset; [exact G|]. apply (dwf_dset (K:=str)).
  destruct (dget d a) as [x|] eqn:E; [exact (gwf_inner _ _ _ G E)|constructor].
Qed.

Lemma pget_add2 d a b c d' : add2 d a b c = Ok d' ->
  exists v, pget d a b = Some v /\ forall a' b', pget d' a' b' = if eqb a a' && eqb b b' then Some (v + c) else pget d a' b'.
Proof.
  unfold add2. destruct (dget d a) as [x|] eqn:E; [|discriminate]. destruct (dget x b) as [v|] eqn:E2; [|discriminate].
  intros [= <-]. exists v. split; [unfold pget; rewrite E; exact E2|]. intros a' b'. rewrite pget_dset.
  destruct (eqb_spec a a') as [<-|n]; [|reflexivity]. cbn [andb]. rewrite dget_dset. unfold pget. rewrite E. reflexivity.
Qed.
Lemma add2_err d a b c e : add2 d a b c = Err e <-> e = KeyError /\ pget d a b = None.
Proof.
  unfold add2, pget. destruct (dget d a) as [x|]; [destruct (dget x b)|]; (split; [intros E; split; congruence|intros [-> E]; congruence]).
Qed.
Lemma gwf_add2 d a b c d' : is_graph d -> add2 d a b c = Ok d' -> is_graph d'.
Proof.
  intros G. unfold add2. destruct (dget d a) as [x|] eqn:E; [|discriminate]. destruct (dget x b) as [v|] eqn:E2; [|discriminate].
  intros [= <-]. apply gwf_dset; [exact G|]. apply (dwf_dset (K:=str)). exact (gwf_inner _ _ _ G E).
Qed.

Definition dec (o : option Z) (c : Z) : option Z :=
  match o with Some v => if v - c <=? 0 then None else Some (v - c) | None => None end.
Lemma pget_dec2 d a b c a' b' :
  pget (dec2 d a b c) a' b' = if eqb a a' && eqb b b' then dec (pget d a b) c else pget d a' b'.
Proof.
  unfold dec2, pget at 2. destruct (dget d a) as [x|] eqn:E.
  2:{ destruct (eqb_spec a a') as [<-|n]; [|reflexivity]. cbn [andb]. unfold pget. rewrite E. destruct (eqb b b'); reflexivity. }
  destruct (dget x b) as [v|] eqn:E2.
  2:{ cbn [dec]. destruct (eqb_spec a a') as [<-|n]; [|reflexivity]. cbn [andb]. destruct (eqb_spec b b') as [<-|]; [|reflexivity].
      unfold pget. rewrite E. exact E2. }
  cbn [dec]. destruct (v - c <=? 0).
  - assert (P : forall b', dget (dpop x b) b' = if eqb b b' then None else dget x b') by (intros; apply dget_dpop).
    destruct (dpop x b) as [|p y] eqn:D.
    + rewrite pget_dpop. destruct (eqb_spec a a') as [<-|n]; [|reflexivity]. cbn [andb].
      specialize (P b'). rewrite dget_nil in P. destruct (eqb b b'); [reflexivity|]. unfold pget. rewrite E. exact P.
    + rewrite pget_dset. destruct (eqb_spec a a') as [<-|n]; [|reflexivity]. cbn [andb]. rewrite P.
      unfold pget. rewrite E. reflexivity.
  - rewrite pget_dset. destruct (eqb_spec a a') as [<-|n]; [|reflexivity]. cbn [andb]. rewrite dget_dset.
    unfold pget. rewrite E. reflexivity.
Qed.
Lemma gwf_dec2 d a b c : is_graph d -> is_graph (dec2 d a b c).
Proof.
  intros G. unfold dec2. destruct (dget d a) as [x|] eqn:E; [|exact G]. destruct (dget x b) as [v|] eqn:E2; [|exact G].
  pose proof (gwf_inner _ _ _ G E) as W. destruct (v - c <=? 0).
  - assert (P : NoDup (map fst (dpop x b))) by (apply (dwf_dpop (K:=str)); exact W).
    destruct (dpop x b) as [|p y]; [apply gwf_dpop; exact G|apply gwf_dset; assumption].
  - apply gwf_dset; [exact G|]. apply (dwf_dset (K:=str)). exact W.
Qed.

(** no empty inner table *)
Definition full (d : dict str (dict str Z)) : Prop := Forall (fun p => snd p <> []) d.
Lemma full_dset d a x : full d -> x <> [] -> full (dset d a x).
Proof. intros F X. apply Forall_forall. intros p I. apply dset_keys_In in I as [->|I]; [exact X|]. unfold full in F. rewrite Forall_forall in F. auto. Qed.
Lemma full_filter f d : full d -> full (filter f d).
Proof. intros F. apply Forall_forall. intros p I. apply filter_In in I as [I _]. unfold full in F. rewrite Forall_forall in F. auto. Qed.
Lemma dset_nonnil {K V} `{EqB K} (d : dict K V) k v : dset d k v <> [].
Proof. destruct d as [|[k0 v0] d]; cbn [dset]; [discriminate|]. destruct (eqb k0 k); discriminate. Qed.
Lemma full_inc2 d a b c : full d -> full (inc2 d a b c).
Proof. intros F. apply full_dset; [exact F|apply dset_nonnil]. Qed.
Lemma full_add2 d a b c d' : full d -> add2 d a b c = Ok d' -> full d'.
Proof.
  intros F. unfold add2. destruct (dget d a) as [x|]; [|discriminate]. destruct (dget x b); [|discriminate].
  intros [= <-]. apply full_dset; [exact F|apply dset_nonnil].
Qed.
Lemma full_dec2 d a b c : full d -> full (dec2 d a b c).
Proof.
  intros F. unfold dec2. destruct (dget d a) as [x|]; [|exact F]. destruct (dget x b) as [v|]; [|exact F].
  destruct (v - c <=? 0).
  - destruct (dpop x b) eqn:D; [apply full_filter; exact F|apply full_dset; [exact F|discriminate]].
  - apply full_dset; [exact F|apply dset_nonnil].
Qed.

(** ** folds of inc2 *)
Notation trip := (str * str * Z)%type (only parsing).
Definition incs (T : list (str * str * Z)) (g : dict str (dict str Z)) : dict str (dict str Z) :=
  fold_left (fun g t => inc2 g (fst (fst t)) (snd (fst t)) (snd t)) T g.
Definition at_pair (a b : str) (t : str * str * Z) : bool := eqb (fst (fst t)) a && eqb (snd (fst t)) b.
Definition tsum (T : list (str * str * Z)) : Z := zsum (map snd T).
Lemma pget_incs T g a b :
  pget (incs T g) a b = match pget g a b, filter (at_pair a b) T with
                        | None, [] => None
                        | o, M => Some (oget o + tsum M)
                        end.
Proof.
  revert g. induction T as [|[[x y] c] T IH]; intros g.
  - cbn [incs fold_left filter]. destruct (pget g a b); [|reflexivity]. f_equal. cbn. lia.
  - change (incs ((x, y, c) :: T) g) with (incs T (inc2 g x y c)). rewrite IH, pget_inc2. cbn [filter].
    change (at_pair a b (x, y, c)) with (eqb x a && eqb y b).
    destruct (eqb_spec x a) as [->|n]; cbn [andb]; [|reflexivity].
    destruct (eqb_spec y b) as [->|n]; cbn [andb]; [|reflexivity].
    assert (S : tsum ((a, b, c) :: filter (at_pair a b) T) = c + tsum (filter (at_pair a b) T)) by reflexivity. rewrite S.
    destruct (pget g a b); cbn [oget]; f_equal; lia.
Qed.
Lemma gwf_incs T g : is_graph g -> is_graph (incs T g).
Proof. revert g. induction T as [|t T IH]; intros g G; [exact G|]. apply (IH (inc2 _ _ _ _)), gwf_inc2, G. Qed.
Lemma full_incs T g : full g -> full (incs T g).
Proof. revert g. induction T as [|t T IH]; intros g G; [exact G|]. apply (IH (inc2 _ _ _ _)), full_inc2, G. Qed.
Lemma incs_app T1 T2 g : incs (T1 ++ T2) g = incs T2 (incs T1 g).
Proof. apply fold_left_app. Qed.

(** make_rl *)
Definition rl_row (p : str * dict str Z) : list (str * str * Z) :=
  map (fun rc => (fst rc, fst p, snd rc)) (filter (fun rc : str * Z => negb (eqb (fst rc) [])) (snd p)).
Lemma make_rl_incs d : make_rl d = incs (concat (map rl_row d)) [].
Proof.
  unfold make_rl. generalize (@nil (str * dict str Z)) as g. induction d as [|[l rd] d IH]; intros g; [reflexivity|].
  cbn [fold_left map concat]. rewrite incs_app, <- IH. f_equal. clear IH. unfold rl_row. cbn [fst snd].
  revert g. induction rd as [|[r c] rd IH]; intros g; [reflexivity|]. cbn [fold_left filter map fst snd].
  destruct r as [|x r]; cbn [eqb EqB_list list_eqb negb map]; [apply IH|]. apply IH.
Qed.
Lemma filter_unique {K V} `{EqB K} (d : dict K V) k : NoDup (map fst d) ->
  filter (fun p => eqb (fst p) k) d = match dget d k with Some v => [(k, v)] | None => [] end.
Proof.
  induction d as [|[k0 v0] d IH]; intros ND; [reflexivity|]. inversion ND as [|? ? NI ND']; subst. cbn [filter fst dget].
  destruct (eqb_spec k0 k) as [->|n]; [|apply IH, ND'].
  rewrite IH by exact ND'. replace (dget d k) with (@None V); [reflexivity|]. symmetry. apply dget_None. exact NI.
Qed.
Lemma filter_concat {A} (f : A -> bool) (ls : list (list A)) : filter f (concat ls) = concat (map (filter f) ls).
Proof. induction ls; [reflexivity|]. cbn [concat map]. rewrite filter_app, IHls. reflexivity. Qed.
Lemma concat_map_select {A B C} `{EqB A} (d : dict A B) (f : A * B -> list C) k : NoDup (map fst d) ->
  (forall p, In p d -> fst p <> k -> f p = []) ->
  concat (map f d) = match dget d k with Some v => f (k, v) | None => [] end.
Proof.
  induction d as [|[k0 v0] d IH]; intros ND Z; [reflexivity|]. inversion ND as [|? ? NI ND']; subst. cbn [map concat dget].
  destruct (eqb_spec k0 k) as [->|n].
  - rewrite IH; [|exact ND'|intros p I; apply Z; right; exact I].
    replace (dget d k) with (@None B); [apply app_nil_r|]. symmetry. apply dget_None. exact NI.
  - rewrite (Z (k0, v0)) by (cbn; auto). cbn [app]. apply IH; [exact ND'|]. intros p I; apply Z; right; exact I.
Qed.
Lemma filter_map_comm {A B} (f : A -> B) (p : B -> bool) l : filter p (map f l) = map f (filter (fun x => p (f x)) l).
Proof. induction l; [reflexivity|]. cbn [map filter]. destruct (p (f a)); cbn [map]; rewrite IHl; reflexivity. Qed.
Lemma filter_filter_comm {A} (p q : A -> bool) l : filter p (filter q l) = filter (fun x => q x && p x) l.
Proof. induction l; [reflexivity|]. cbn [filter]. destruct (q a); cbn [filter andb]; [destruct (p a)|]; rewrite IHl; reflexivity. Qed.
Lemma filter_false {A} (l : list A) : filter (fun _ => false) l = [].
Proof. induction l; [reflexivity|assumption]. Qed.
Lemma make_rl_spec d r l : is_graph d -> pget (make_rl d) r l = match r with [] => None | _ => pget d l r end.
Proof.
  intros [W F]. rewrite make_rl_incs, pget_incs, pget_nil. rewrite filter_concat, map_map.
  rewrite (concat_map_select d (fun p => filter (at_pair r l) (rl_row p)) l W).
  2:{ intros p I n. unfold rl_row. rewrite filter_map_comm. replace (filter _ _) with (@nil (str * Z)); [reflexivity|].
      symmetry. rewrite (filter_ext _ (fun _ => false)); [apply filter_false|].
      intros rc. unfold at_pair. cbn [fst snd]. replace (eqb (fst p) l) with false by (symmetry; apply eqb_neq; exact n). apply andb_false_r. }
  unfold pget. destruct (dget d l) as [x|] eqn:E; [|destruct r; reflexivity].
  unfold rl_row. cbn [fst snd]. rewrite filter_map_comm, filter_filter_comm.
  assert (ND : NoDup (map fst x)). { rewrite Forall_forall in F. apply dget_In in E. exact (F _ E). }
  rewrite (filter_ext _ (fun rc : str * Z => negb (eqb r []) && eqb (fst rc) r)).
  2:{ intros rc. unfold at_pair. cbn [fst snd]. rewrite eqb_refl, andb_true_r. destruct (eqb_spec (fst rc) r) as [->|n]; [|rewrite !andb_false_r]; reflexivity. }
  destruct r as [|q r].
  - change (filter _ x) with (filter (fun _ : str * Z => false) x). rewrite filter_false. reflexivity.
  - change (filter _ x) with (filter (fun p : str * Z => eqb (fst p) (q :: r)) x). rewrite (filter_unique x (q :: r) ND). destruct (dget x (q :: r)) as [v|]; [|reflexivity].
    cbn. f_equal. lia.
Qed.
Lemma make_rl_wf d : is_graph (make_rl d).
Proof. rewrite make_rl_incs. apply gwf_incs, gwf_nil. Qed.
Lemma make_rl_full d : full (make_rl d).
Proof. rewrite make_rl_incs. apply full_incs. constructor. Qed.

(** ** the invariant *)
Record Inv (g : lrg) : Prop := {
  inv_lr : is_graph (lr g);
  inv_rl : is_graph (rl g);
  inv_eq : forall r l, pget (rl g) r l = match r with [] => None | _ => pget (lr g) l r end;
  inv_rl_full : full (rl g);
  inv_or : match origin g with Some o => is_graph o | None => True end }.



Lemma new_Inv d sents lm rm g : is_graph d -> lrg_new d sents lm rm = Ok g ->
  Inv g /\ (full d -> full (lr g)) /\ origin g = Some (lr g) /\ rl g = make_rl (lr g).
Proof.
  intros G. unfold lrg_new. destruct (negb (lm >? 1)); [discriminate|]. destruct (negb (rm >? 0)); [discriminate|].
  assert (K : forall d', is_graph d' -> (full d -> full d') ->
     match d' with [] => Ok (mkLrg [] [] (Some []) lm rm) | _ :: _ => do p <- check_lrgraph d'; Ok (mkLrg (fst p) (snd p) (Some (fst p)) lm rm) end = Ok g ->
     Inv g /\ (full d -> full (lr g)) /\ origin g = Some (lr g) /\ rl g = make_rl (lr g)).
  { intros d' G' F'. destruct d' as [|p d'].
    - intros [= <-]. split; [|split; [|split]]; [|intros _; constructor|reflexivity|reflexivity].
      constructor; cbn [lr rl origin]; try apply gwf_nil; [intros [|] ?; reflexivity|constructor].
    - unfold check_lrgraph. cbn [bind fst snd]. intros [= <-]. split; [|split; [exact F'|split; reflexivity]].
      constructor; cbn [lr rl origin]; [exact G'|apply make_rl_wf|intros; apply make_rl_spec; exact G'|apply make_rl_full|exact G']. }
  destruct sents as [|s0 sents]; cbn [bind]; [apply K; auto|].
  destruct d as [|p d]; cbn [bind]; [|discriminate]. 
  apply K.
  - unfold construct_graph. 
    assert (H : forall ss g, is_graph g -> is_graph (fold_left (fun d sent => fold_left (construct_word lm rm) (split sent) d) ss g)).
    { induction ss as [|x ss IH]; intros g0 G0; [exact G0|]. cbn [fold_left]. apply IH.
      generalize (split x). clear IH. intros ws. revert g0 G0. induction ws as [|w ws IHw]; intros g0 G0; [exact G0|].
      cbn [fold_left]. apply IHw. unfold construct_word. generalize (seq 1 (Nat.min (length w) (Z.to_nat lm))). intros es. revert g0 G0.
      induction es as [|e es IHe]; intros g0 G0; [exact G0|]. cbn [fold_left]. apply IHe.
      destruct (_ >? rm); [exact G0|apply gwf_inc2, G0]. }
    apply H, gwf_nil.
  - intros _. unfold construct_graph.
    assert (H : forall ss g, full g -> full (fold_left (fun d sent => fold_left (construct_word lm rm) (split sent) d) ss g)).
    { induction ss as [|x ss IH]; intros g0 G0; [exact G0|]. cbn [fold_left]. apply IH.
      generalize (split x). clear IH. intros ws. revert g0 G0. induction ws as [|w ws IHw]; intros g0 G0; [exact G0|].
      cbn [fold_left]. apply IHw. unfold construct_word. generalize (seq 1 (Nat.min (length w) (Z.to_nat lm))). intros es. revert g0 G0.
      induction es as [|e es IHe]; intros g0 G0; [exact G0|]. cbn [fold_left]. apply IHe.
      destruct (_ >? rm); [exact G0|apply full_inc2, G0]. }
    apply H. constructor.
Qed.

(** the effect of one pair addition, on a consistent graph *)
Definition upd (d : dict str (dict str Z)) (f : str -> str -> option Z) : Prop := forall a b, pget d a b = f a b.

Lemma add_pair_spec g l r c : Inv g ->
  match pget (lr g) l r with
  | None => add_lr_pair g l r c = (g, Some KeyError)
  | Some v => exists g', add_lr_pair g l r c = (g', None) /\ Inv g' /\ origin g' = origin g /\ l_max g' = l_max g /\ r_max g' = r_max g /\
      (forall l' r', pget (lr g') l' r' = if eqb l l' && eqb r r' then Some (v + c) else pget (lr g) l' r') /\
      (full (lr g) -> full (lr g'))
  end.
Proof.
  intros I. destruct (pget (lr g) l r) as [v|] eqn:E.
  - unfold add_lr_pair. destruct (add2 (lr g) l r c) as [d|e] eqn:A; [|apply add2_err in A as [_ A]; congruence].
    destruct (pget_add2 _ _ _ _ _ A) as (v' & E' & P). assert (v' = v) by congruence. subst v'.
    destruct r as [|x r].
    + exists (set_lr g d). split; [reflexivity|]. split; [|split; [reflexivity|split; [reflexivity|split; [reflexivity|split; [exact P|intros F; exact (full_add2 _ _ _ _ _ F A)]]]]].
      destruct I as [I1 I2 I3 I4 I5]. constructor; cbn [set_lr lr rl origin]; auto.
      * exact (gwf_add2 _ _ _ _ _ I1 A).
      * intros [|y r] l'; rewrite I3; [reflexivity|]. rewrite P. cbn. rewrite andb_false_r. reflexivity.
    + cbn [set_lr rl]. destruct (add2 (rl g) (x :: r) l c) as [d'|e] eqn:B.
      2:{ apply add2_err in B as [_ B]. rewrite (inv_eq g I) in B. congruence. }
      destruct (pget_add2 _ _ _ _ _ B) as (w & Ew & Q). rewrite (inv_eq g I) in Ew. assert (w = v) by congruence. subst w.
      exists (set_rl (set_lr g d) d'). split; [reflexivity|].
      split; [|split; [reflexivity|split; [reflexivity|split; [reflexivity|split; [exact P|intros F; exact (full_add2 _ _ _ _ _ F A)]]]]].
      destruct I as [I1 I2 I3 I4 I5]. constructor; cbn [set_lr set_rl lr rl origin]; auto.
      * exact (gwf_add2 _ _ _ _ _ I1 A).
      * exact (gwf_add2 _ _ _ _ _ I2 B).
      * intros r' l'. rewrite Q, P, I3. rewrite andb_comm.
        destruct (eqb_spec (x :: r) r') as [<-|n]; [destruct (eqb l l'); reflexivity|]. rewrite andb_false_r. destruct r'; reflexivity.
      * exact (full_add2 _ _ _ _ _ I4 B).
  - unfold add_lr_pair. replace (add2 (lr g) l r c) with (@Err (dict str (dict str Z)) KeyError); [reflexivity|].
    symmetry. apply add2_err. auto.
Qed.

Lemma remove_pair_spec g l r c : Inv g ->
  let g' := remove_lr_pair g l r c in
  Inv g' /\ origin g' = origin g /\ (full (lr g) -> full (lr g')) /\
  forall l' r', pget (lr g') l' r' = if eqb l l' && eqb r r' then dec (pget (lr g) l r) c else pget (lr g) l' r'.
Proof.
  intros I g'. subst g'. unfold remove_lr_pair. cbn [set_lr set_rl lr rl origin].
  split; [|split; [reflexivity|split; [apply full_dec2|intros; apply pget_dec2]]].
  destruct I as [I1 I2 I3 I4 I5]. constructor; cbn [set_lr set_rl lr rl origin]; auto using gwf_dec2, full_dec2.
  intros r' l'. rewrite !pget_dec2. rewrite !I3. rewrite (andb_comm (eqb l l')).
  destruct (eqb_spec r r') as [<-|n]; cbn [andb]; [|destruct r'; reflexivity].
  destruct r as [|x r]; destruct (eqb l l'); reflexivity.
Qed.

Lemma reset_Inv g : Inv g -> Inv (reset_lrgraph g).
Proof.
  intros I. unfold reset_lrgraph. destruct (origin g) as [o|] eqn:E; [|exact I]. pose proof (inv_or g I) as O. rewrite E in O.
  destruct o as [|p o]; [exact I|]. cbn [check_lrgraph].
  constructor; cbn [lr rl origin]; [exact O|apply make_rl_wf|intros; apply make_rl_spec; exact O|apply make_rl_full|exact O].
Qed.
Lemma add_splits_Inv is e c : forall g, Inv g -> let g' := fst (add_splits g e is c) in Inv g' /\ origin g' = origin g /\ (full (lr g) -> full (lr g')) /\
  ((forall l r v, pget (lr g) l r = Some v -> 0 < v) -> 0 <= c -> forall l r v, pget (lr g') l r = Some v -> 0 < v).
Proof.
  induction is as [|i is IH]; intros g I; cbn [add_splits fst]; [auto|].
  pose proof (add_pair_spec g (firstn i e) (skipn i e) c I) as A. destruct (pget (lr g) (firstn i e) (skipn i e)) as [v|] eqn:E.
  - destruct A as (g' & -> & I' & O' & _ & _ & P & F'). destruct (IH g' I') as (J1 & J2 & J3 & J4). cbn zeta. split; [exact J1|].
    split; [congruence|]. split; [auto|]. intros Pos C. apply J4; [|exact C]. intros l r w. rewrite P.
    destruct (eqb (firstn i e) l && eqb (skipn i e) r); [|apply Pos]. intros [= <-]. specialize (Pos _ _ _ E). lia.
  - rewrite A. auto.
Qed.
Lemma remove_eojeol_Inv e c : forall g, Inv g -> let g' := remove_eojeol g e c in Inv g' /\ origin g' = origin g /\ (full (lr g) -> full (lr g')) /\
  ((forall l r v, pget (lr g) l r = Some v -> 0 < v) -> forall l r v, pget (lr g') l r = Some v -> 0 < v).
Proof.
  unfold remove_eojeol. generalize (seq 1 (length e)) as is. induction is as [|i is IH]; intros g I; cbn [fold_left]; [auto|].
  destruct (remove_pair_spec g (firstn i e) (skipn i e) c I) as (I' & O' & F' & P). destruct (IH _ I') as (J1 & J2 & J3 & J4).
  cbn zeta. split; [exact J1|]. split; [congruence|]. split; [auto|]. intros Pos. apply J4. intros l r w. rewrite P.
  destruct (eqb (firstn i e) l && eqb (skipn i e) r); [|apply Pos]. unfold dec. destruct (pget (lr g) (firstn i e) (skipn i e)); [|discriminate].
  destruct (z - c <=? 0) eqn:Z; [discriminate|]. intros [= <-]. apply Z.leb_gt in Z. lia.
Qed.

Definition positive (d : dict str (dict str Z)) := forall l r v, pget d l r = Some v -> 0 < v.
(** everything kept by a history *)
Definition Good (b : bool) (g : lrg) : Prop := Inv g /\ (b = true -> full (lr g) /\ match origin g with Some o => full o | None => True end).
Definition Pos (g : lrg) : Prop := positive (lr g) /\ match origin g with Some o => positive o | None => True end.
Lemma step_Inv o g : Inv g -> Inv (step g o).
Proof.
  intros I. destruct o; cbn [step].
  - pose proof (add_pair_spec g l r c I) as A. destruct (pget (lr g) l r); [destruct A as (g' & -> & I' & _); exact I'|rewrite A; exact I].
  - apply add_splits_Inv, I.
  - apply remove_pair_spec, I.
  - apply remove_eojeol_Inv, I.
  - apply reset_Inv, I.
  - destruct I as [I1 I2 I3 I4 I5]. constructor; cbn [freeze lr rl origin]; auto.
Qed.
Lemma step_full o g : Inv g -> full (lr g) /\ match origin g with Some o => full o | None => True end ->
  full (lr (step g o)) /\ match origin (step g o) with Some o => full o | None => True end.
Proof.
  intros I [F O]. destruct o; cbn [step].
  - pose proof (add_pair_spec g l r c I) as A. destruct (pget (lr g) l r); [destruct A as (g' & -> & I' & E & _ & _ & _ & F'); cbn [fst]; rewrite E; auto|rewrite A; auto].
  - unfold add_eojeol. destruct (add_splits_Inv (seq 1 (length e)) e c g I) as (_ & E & F' & _). rewrite E. auto.
  - destruct (remove_pair_spec g l r c I) as (_ & E & F' & _). rewrite E. auto.
  - destruct (remove_eojeol_Inv e c g I) as (_ & E & F' & _). rewrite E. auto.
  - unfold reset_lrgraph. destruct (origin g) as [[|p o]|] eqn:E; cbn [check_lrgraph lr origin]; rewrite ?E in *; auto.
  - cbn [freeze lr origin]. split; [exact F|]. exact Logic.I.
Qed.
Lemma step_pos o g : Inv g -> adds_nonneg o -> Pos g -> Pos (step g o).
Proof.
  intros I N [P O]. unfold Pos in *. destruct o; cbn [step adds_nonneg] in *.
  - pose proof (add_pair_spec g l r c I) as A. destruct (pget (lr g) l r) as [v|] eqn:Ev; [destruct A as (g' & -> & I' & E & _ & _ & Q & F'); cbn [fst]; rewrite E|rewrite A; auto].
    split; [|exact O]. intros l' r' w. rewrite Q. destruct (_ && _); [|apply P]. intros [= <-]. specialize (P _ _ _ Ev). lia.
  - unfold add_eojeol. destruct (add_splits_Inv (seq 1 (length e)) e c g I) as (_ & E & _ & P'). rewrite E. split; [exact (P' P N)|exact O].
  - destruct (remove_pair_spec g l r c I) as (_ & E & _ & Q). rewrite E. split; [|exact O].
    intros l' r' w. rewrite Q. destruct (_ && _); [|apply P]. unfold dec. destruct (pget (lr g) l r); [|discriminate].
    destruct (z - c <=? 0) eqn:Z; [discriminate|]. intros [= <-]. apply Z.leb_gt in Z. lia.
  - destruct (remove_eojeol_Inv e c g I) as (_ & E & _ & P'). rewrite E. split; [exact (P' P)|exact O].
  - unfold reset_lrgraph. destruct (origin g) as [[|p o]|] eqn:E; cbn [check_lrgraph lr origin]; rewrite ?E in *; auto.
  - auto.
Qed.
Lemma history_Inv ops : forall g, Inv g -> Inv (history g ops).
Proof. induction ops as [|o ops IH]; intros g I; [exact I|]. apply (IH (step g o)), step_Inv, I. Qed.
Lemma history_full ops : forall g, Inv g -> full (lr g) /\ match origin g with Some o => full o | None => True end ->
  full (lr (history g ops)).
Proof. induction ops as [|o ops IH]; intros g I F; [apply F|]. apply (IH (step g o)); [apply step_Inv, I|apply step_full; assumption]. Qed.
Lemma history_pos ops : Forall adds_nonneg ops -> forall g, Inv g -> Pos g -> Pos (history g ops).
Proof. induction 1 as [|o ops N F IH]; intros g I P; [exact P|]. apply (IH (step g o)); [apply step_Inv, I|apply step_pos; assumption]. Qed.

(** ** get_r, get_l *)
Lemma top_all_In d k b c : is_graph d -> (In (b, c) (top_items d k 0) <-> pget d k b = Some c).
Proof.
  intros G. unfold top_items. cbn [Z.gtb Z.compare]. rewrite sort_In. unfold pget. destruct (dget d k) as [x|] eqn:E; [|split; [intros []|discriminate]].
  rewrite (dget_In_iff (K:=str)); [tauto|]. exact (gwf_inner _ _ _ G E).
Qed.
