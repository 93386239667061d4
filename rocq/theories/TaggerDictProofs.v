(** * Dictionary: proofs *)
From Coq Require Import QArith.
From Verif Require Import PyBase PyDict PySort PyText TaggerModel.
Open Scope nat_scope.

Lemma sadd_In s w x : In x (sadd s w) <-> In x s \/ x = w.
Proof.
  unfold sadd. destruct (mem w s) eqn:M; [apply mem_In in M|rewrite in_app_iff; cbn [In]; intuition].
  split; [auto|intros [H| ->]; assumption].
Qed.
Lemma fold_sadd_In l s x : In x (fold_left sadd l s) <-> In x s \/ In x l.
Proof.
  revert s. induction l as [|w l IH]; intros s; cbn [fold_left In]; [intuition|]. rewrite IH, sadd_In. intuition.
Qed.
Lemma set_of_In l x : In x (set_of l) <-> In x l.
Proof. unfold set_of. rewrite fold_sadd_In. cbn [In]. intuition. Qed.
Lemma sadd_NoDup s w : NoDup s -> NoDup (sadd s w).
Proof.
  intros N. unfold sadd. destruct (mem w s) eqn:M; [exact N|]. apply mem_In_false in M. 
  apply (Permutation_NoDup (l := w :: s)); [apply Permutation_cons_append|]. constructor; assumption.
Qed.
Lemma fold_sadd_NoDup l s : NoDup s -> NoDup (fold_left sadd l s).
Proof. revert s. induction l as [|w l IH]; intros s N; [exact N|]. apply IH, sadd_NoDup, N. Qed.
Lemma set_of_NoDup l : NoDup (set_of l). Proof. apply fold_sadd_NoDup. constructor. Qed.
Lemma mem_set_of l x : mem x (set_of l) = mem x l.
Proof. apply eq_true_iff_eq. rewrite !mem_In. apply set_of_In. Qed.
Lemma set_of_nil l : set_of l = [] -> l = [].
Proof. destruct l as [|x l]; [reflexivity|]. intros E. exfalso. assert (In x (set_of (x :: l))) as I by (apply set_of_In; left; reflexivity). rewrite E in I. destruct I. Qed.

Lemma upd_nth {A} (l : list A) i x j d : nth j (upd l i x) d = if (i =? j) && (i <? length l) then x else nth j l d.
Proof.
  unfold upd. revert i j. induction l as [|a l IH]; intros i j.
  - rewrite firstn_nil, skipn_nil. cbn. rewrite andb_false_r. destruct j; reflexivity.
  - destruct i; cbn [firstn skipn app].
    + destruct j; reflexivity.
    + destruct j; cbn [nth Nat.eqb]; [reflexivity|]. rewrite IH. reflexivity.
Qed.
Lemma upd_length {A} (l : list A) i x : length (upd l i x) = length l.
Proof. unfold upd. revert i. induction l as [|a l IH]; intros i; [rewrite firstn_nil, skipn_nil; reflexivity|]. destruct i; cbn; [reflexivity|]. f_equal. apply IH. Qed.

Lemma max_of_ge l x : In x l -> x <= max_of l.
Proof. induction l as [|y l IH]; [intros []|]. intros [-> | I]; cbn; [lia|]. apply IH in I. unfold max_of in I. lia. Qed.
Lemma max_of_in l : l <> [] -> In (max_of l) l.
Proof.
  induction l as [|y l IH]; intros N; [congruence|]. cbn. destruct l as [|z l]; [left; cbn; lia|]. destruct (Nat.max_spec y (max_of (z :: l))) as [[_ E]|[_ E]]; cbn in *; rewrite E; [right; apply IH; discriminate|left; reflexivity].
Qed.

(** ** no object is stored under two tags, and every tag refers to an object *)
Definition unshared (d : tdict) : Prop :=
  NoDup (map fst (tags d)) /\ NoDup (map snd (tags d)) /\ Forall (fun kr => snd kr < length (heap d)) (tags d).
Definition bounded (d : tdict) : Prop :=
  Forall (fun kr => Forall (fun w => length w <= maxlen d) (elems (deref d (snd kr)))) (tags d).

Lemma dget_ref (d : dict str nat) t r : dget d t = Some r -> In (t, r) d.
Proof.
  induction d as [|[k v] d IH]; cbn [dget]; [discriminate|]. destruct (eqb_spec k t) as [->|N]; [intros E; injection E as ->; left; reflexivity|intros E; right; auto].
Qed.
Lemma ref_inj (d : dict str nat) t1 t2 r : NoDup (map snd d) -> dget d t1 = Some r -> dget d t2 = Some r -> t1 = t2.
Proof.
  intros N H1 H2. apply dget_ref in H1, H2. revert N H1 H2. induction d as [|[k v] d IH]; intros N H1 H2; [destruct H1|]. inversion N as [|? ? NI N']; subst.
  destruct H1 as [H1|H1], H2 as [H2|H2]; try congruence; try (apply IH; assumption).
  - injection H1 as <- <-. exfalso. apply NI, in_map_iff. exists (t2, v). auto.
  - injection H2 as <- <-. exfalso. apply NI, in_map_iff. exists (t1, v). auto.
Qed.
Lemma get_pos_spec d w t : NoDup (map fst (tags d)) -> (In t (get_pos d w) <-> word_is_tag d w t = true).
Proof.
  intros N. unfold get_pos, word_is_tag. rewrite in_map_iff. split.
  - intros ([k r] & <- & I). apply filter_In in I as [I M]. cbn [fst snd] in *. rewrite (proj2 (dget_In_iff (tags d) k r N)); assumption.
  - destruct (dget (tags d) t) as [r|] eqn:E; [|discriminate]. intros M. exists (t, r). split; [reflexivity|]. apply filter_In. split; [apply dget_ref, E|exact M].
Qed.
Lemma get_pos_NoDup d w : NoDup (map fst (tags d)) -> NoDup (get_pos d w).
Proof.
  intros N. unfold get_pos. induction (tags d) as [|[k r] l IH]; [constructor|]. cbn [map] in N. inversion N as [|? ? NI N']; subst. cbn [filter].
  destruct (mem w _); [|apply IH, N']. cbn [map]. constructor; [|apply IH, N']. intros I. apply NI. apply in_map_iff in I as ([k' r'] & E & I). apply filter_In in I as [I _].
  apply in_map_iff. exists (k', r'). auto.
Qed.
Lemma number_fst {A} i (l : list (str * A)) : map fst (number_from i l) = map fst l.
Proof. revert i. induction l as [|[k v] l IH]; intros i; cbn; [reflexivity|]. f_equal. apply IH. Qed.
Lemma number_snd {A} i (l : list (str * A)) : map snd (number_from i l) = seq i (length l).
Proof. revert i. induction l as [|[k v] l IH]; intros i; cbn; [reflexivity|]. f_equal. apply IH. Qed.
Lemma number_get {A} i (l : list (str * A)) k : dget (number_from i l) k = match dget l k with None => None | Some _ => dget (number_from i l) k end.
Proof. revert i. induction l as [|[k' v] l IH]; intros i; [reflexivity|]. cbn [number_from dget]. destruct (eqb k' k); [reflexivity|]. apply IH. Qed.
Lemma number_nth {A} (l : list (str * A)) (f : A -> obj) k h m : mem k (map fst l) = true ->
  exists r, dget (number_from (length h) l) k = Some r /\ match dget l k with Some v => nth r (h ++ map (fun kv => f (snd kv)) l) m = f v | None => False end.
Proof.
  revert h. induction l as [|[k' v] l IH]; intros h M; [discriminate|]. cbn [number_from dget map fst snd]. destruct (eqb_spec k' k) as [->|N].
  - exists (length h). split; [reflexivity|]. rewrite app_nth2 by lia. rewrite Nat.sub_diag. reflexivity.
  - apply mem_In in M. destruct M as [M|M]; [cbn in M; congruence|]. destruct (IH (h ++ [f v])) as (r & E & H); [apply mem_In, M|].
    rewrite app_length in E. cbn [length] in E. rewrite Nat.add_1_r in E. exists r. split; [exact E|]. rewrite <- app_assoc in H. exact H.
Qed.
(** the dictionary with fresh sets *)
Lemma fresh_word_is_tag (pd : dict str (list str)) m w t :
  word_is_tag (mkT (map (fun kv => OSet (set_of (snd kv))) pd) (number_from 0 pd) m) w t = match dget pd t with Some ws => mem w ws | None => false end.
Proof.
  unfold word_is_tag, deref. cbn [tags heap]. destruct (mem t (map fst pd)) eqn:M.
  - destruct (number_nth pd (fun l => OSet (set_of l)) t [] (OSet []) M) as (r & E & H). cbn [length app] in *. rewrite E. destruct (dget pd t) as [ws|]; [|destruct H]. rewrite H. apply mem_set_of.
  - assert (dget pd t = None) as E. { destruct (dget pd t) as [v|] eqn:E; [|reflexivity]. exfalso. apply mem_In_false in M. apply M. clear M. induction pd as [|[k x] pd IH]; [discriminate|]. cbn [dget] in E. destruct (eqb_spec k t) as [->|]; [left; reflexivity|right; apply IH, E]. }
    rewrite number_get, E. reflexivity.
Qed.
Lemma fresh_unshared (pd : dict str (list str)) m : NoDup (map fst pd) -> unshared (mkT (map (fun kv => OSet (set_of (snd kv))) pd) (number_from 0 pd) m).
Proof.
  intros N. unfold unshared. cbn [tags heap]. rewrite number_fst, number_snd. split; [exact N|]. split; [apply seq_NoDup|].
  apply Forall_forall. intros [k r] I. apply (in_map snd) in I. rewrite number_snd in I. apply in_seq in I. rewrite map_length. cbn in *. lia.
Qed.
Lemma number_In {A} i (l : list (str * A)) k r : In (k, r) (number_from i l) -> i <= r < i + length l /\ exists v, nth_error l (r - i) = Some (k, v).
Proof.
  revert i. induction l as [|[k' v] l IH]; intros i I; [destruct I|]. cbn [number_from length] in *. destruct I as [I|I].
  - injection I as <- <-. split; [lia|]. rewrite Nat.sub_diag. exists v. reflexivity.
  - apply IH in I as (R & v' & E). split; [lia|]. replace (r - i) with (S (r - S i)) by lia. exists v'. exact E.
Qed.
Lemma fresh_bounded (pd : dict str (list str)) m : (forall kv w, In kv pd -> In w (snd kv) -> length w <= m) -> bounded (mkT (map (fun kv => OSet (set_of (snd kv))) pd) (number_from 0 pd) m).
Proof.
  intros H. unfold bounded. apply Forall_forall. intros [k r] I. cbn [tags heap maxlen snd] in *. apply number_In in I as (R & v & E). rewrite Nat.sub_0_r in E.
  unfold deref. cbn [heap]. rewrite (nth_error_nth _ _ (OSet []) (map_nth_error (fun kv => OSet (set_of (snd kv))) r pd E)). cbn [elems snd].
  apply Forall_forall. intros w I. apply (set_of_In v w) in I. apply nth_error_In in E. eapply H; [exact E|exact I].
Qed.

(** ** effect of add_words and remove_words *)
Definition known (d : tdict) (t : str) : bool := dmem (tags d) t.
Lemma add_words_unfold d tag a force : negb force && negb (dmem (tags d) tag) = false -> elems (arg_obj d a) <> [] ->
  add_words d tag a force =
    let ws := elems (arg_obj d a) in
    let m := max_of (map (@length N) ws) in let d := if maxlen d <? m then mkT (heap d) (tags d) m else d in
    match dget (tags d) tag with
    | None => match a with
              | AStr _ => (mkT (heap d ++ [arg_obj d a]) (dset (tags d) tag (length (heap d))) (maxlen d), @None exn)
              | AObj r => (mkT (heap d) (dset (tags d) tag r) (maxlen d), None)
              end
    | Some r => match deref d r with
                | OList _ => (d, Some AttributeError)
                | OSet s => (mkT (upd (heap d) r (OSet (fold_left sadd ws s))) (dset (tags d) tag r) (maxlen d), None)
                end
    end.
Proof.
  intros E1 NE. unfold add_words. rewrite E1. assert (forall m, arg_obj (if maxlen d <? m then mkT (heap d) (tags d) m else d) a = arg_obj d a) as H.
  { intros m. destruct (maxlen d <? m); [|reflexivity]. destruct a; reflexivity. }
  cbv zeta. rewrite H. destruct (elems (arg_obj d a)); [congruence|reflexivity].
Qed.
Lemma add_words_spec d tag a force : unshared d -> (forall r, a = AObj r -> r < length (heap d)) ->
  (forall r l, dget (tags d) tag = Some r -> deref d r <> OList l) ->
  let ws := elems (arg_obj d a) in
  if (negb force && negb (known d tag)) || (length ws =? 0) then add_words d tag a force = (d, Some ValueError)
  else exists d', add_words d tag a force = (d', None) /\
    (forall w t, word_is_tag d' w t = if eqb tag t then word_is_tag d w tag || mem w ws else word_is_tag d w t) /\
    (forall t, known d' t = known d t || eqb tag t) /\ maxlen d' = Nat.max (maxlen d) (max_of (map (@length N) ws)) /\
    (bounded d -> bounded d') /\
    ((known d tag = true \/ (exists s, a = AStr s) \/ (exists r, a = AObj r /\ ~ In r (map snd (tags d)))) -> unshared d').
Proof.
  intros (N1 & N2 & V) HA HS ws. unfold known. destruct (negb force && negb (dmem (tags d) tag)) eqn:E1; cbn [orb]; [unfold add_words; rewrite E1; reflexivity|].
  destruct (length ws =? 0) eqn:E2; [apply Nat.eqb_eq in E2; unfold add_words; rewrite E1; fold ws; destruct ws; [reflexivity|discriminate]|].
  assert (ws <> []) as NE by (intros E; rewrite E in E2; discriminate).
  rewrite (add_words_unfold d tag a force E1 NE). fold ws.
  cbv zeta. set (m := max_of (map (@length N) ws)).
  set (d1 := if maxlen d <? m then mkT (heap d) (tags d) m else d).
  assert (heap d1 = heap d /\ tags d1 = tags d /\ maxlen d1 = Nat.max (maxlen d) m) as (H1 & H2 & H3).
  { unfold d1. destruct (Nat.ltb_spec (maxlen d) m); cbn [heap tags maxlen]; repeat split; lia. }
  assert (arg_obj d1 a = arg_obj d a) as H4. { destruct a; [reflexivity|]. cbn [arg_obj]. unfold deref. rewrite H1. reflexivity. }
  assert (forall r, deref d1 r = deref d r) as H5 by (intros r; unfold deref; rewrite H1; reflexivity).
  rewrite H1, H2, H3, H4. clearbody d1.
  assert (forall w, In w ws -> length w <= m) as BW by (intros w I; apply max_of_ge, in_map, I).
  destruct (dget (tags d) tag) as [r|] eqn:G.
  - rewrite H5. destruct (deref d r) as [s|l] eqn:D; [|exfalso; eapply HS; [reflexivity|exact D]].
    pose proof (dget_ref _ _ _ G) as IR. pose proof V as V'. eapply Forall_forall in V'; [|exact IR]. cbn [snd] in V'.
    assert (dset (tags d) tag r = tags d) as DS by (apply dset_same, G).
    eexists. split; [reflexivity|]. rewrite DS. split; [|split; [|split; [reflexivity|split]]].
    + intros w t. unfold word_is_tag, deref. cbn [tags heap]. destruct (eqb_spec tag t) as [<-|NT].
      * rewrite G, upd_nth, Nat.eqb_refl, (proj2 (Nat.ltb_lt _ _) V'). cbn [andb elems]. fold (deref d r). rewrite D. cbn [elems].
        apply eq_true_iff_eq. rewrite orb_true_iff, !mem_In, fold_sadd_In. reflexivity.
      * destruct (dget (tags d) t) as [r'|] eqn:G'; [|reflexivity]. rewrite upd_nth. destruct (Nat.eqb_spec r r') as [<-|NR]; [|reflexivity].
        exfalso. apply NT. eapply ref_inj; eauto.
    + intros t. cbn [tags]. unfold dmem. destruct (eqb_spec tag t) as [<-|]; [rewrite G; reflexivity|rewrite orb_false_r; reflexivity].
    + intros B. unfold bounded. cbn [tags maxlen]. apply Forall_forall. intros [k r'] I. eapply Forall_forall in B; [|exact I]. cbn [snd] in *.
      unfold deref. cbn [heap]. rewrite upd_nth. destruct (Nat.eqb_spec r r') as [<-|]; cbn [andb].
      * rewrite (proj2 (Nat.ltb_lt _ _) V'). cbn [elems]. apply Forall_forall. intros w Iw. apply fold_sadd_In in Iw as [Iw|Iw]; [|apply BW in Iw; lia].
        rewrite D in B. cbn [elems] in B. eapply Forall_forall in B; [|exact Iw]. lia.
      * fold (deref d r'). eapply Forall_impl; [|exact B]. cbv beta. intros w Hw. lia.
    + intros _. unfold unshared. cbn [tags heap]. rewrite upd_length. auto.
  - assert (forall h r, (forall k, In k (map snd (tags d)) -> nth k h (OSet []) = deref d k) -> nth r h (OSet []) = arg_obj d a ->
      let d' := mkT h (dset (tags d) tag r) (Nat.max (maxlen d) m) in
      (forall w t, word_is_tag d' w t = if eqb tag t then word_is_tag d w tag || mem w ws else word_is_tag d w t) /\
      (forall t, dmem (tags d') t = dmem (tags d) t || eqb tag t) /\ (bounded d -> bounded d')) as K.
    { intros h r Hh Hr d'. unfold d'. split; [|split].
      - intros w t. unfold word_is_tag, deref. cbn [tags heap]. rewrite dget_dset. destruct (eqb_spec tag t) as [<-|NT].
        + rewrite G, Hr. reflexivity.
        + destruct (dget (tags d) t) as [r'|] eqn:G'; [|reflexivity]. rewrite Hh; [reflexivity|]. apply dget_ref in G'. apply in_map_iff. exists (t, r'). auto.
      - intros t. cbn [tags]. unfold dmem. rewrite dget_dset. destruct (eqb_spec tag t) as [<-|]; [rewrite orb_true_r; reflexivity|rewrite orb_false_r; reflexivity].
      - intros B. unfold bounded. cbn [tags maxlen]. rewrite (dset_items_new _ _ _ G). apply Forall_app. split.
        + apply Forall_forall. intros [k r'] I. eapply Forall_forall in B; [|exact I]. cbn [snd] in *. unfold deref. cbn [heap]. rewrite Hh by (apply in_map_iff; exists (k, r'); auto).
          eapply Forall_impl; [|exact B]. cbv beta. intros w Hw. lia.
        + constructor; [|constructor]. cbn [snd]. unfold deref. cbn [heap]. rewrite Hr. apply Forall_forall. intros w Iw. fold ws in Iw. apply BW in Iw. lia. }
    assert (forall k, In k (map snd (tags d)) -> k < length (heap d)) as VR.
    { intros k I. apply in_map_iff in I as ([t k'] & E & I). cbn in E. subst k'. eapply Forall_forall in V; [|exact I]. exact V. }
    assert (~ In tag (map fst (tags d))) as NT by (apply dget_None, G).
    destruct a as [s|r]; (eexists; split; [reflexivity|]).
    + destruct (K (heap d ++ [arg_obj d (AStr s)]) (length (heap d))) as (K1 & K2 & K3).
      { intros k I. unfold deref. rewrite app_nth1; [reflexivity|]. apply VR, I. }
      { rewrite app_nth2, Nat.sub_diag by lia. reflexivity. }
      split; [exact K1|]. split; [exact K2|]. split; [reflexivity|]. split; [exact K3|]. intros _. unfold unshared. cbn [tags heap]. rewrite (dset_items_new _ _ _ G), !map_app. cbn [map fst snd].
      split; [apply (Permutation_NoDup (l := tag :: map fst (tags d))); [apply Permutation_cons_append|constructor; assumption]|].
      split; [apply (Permutation_NoDup (l := length (heap d) :: map snd (tags d))); [apply Permutation_cons_append|constructor; [intros I; apply VR in I; lia|assumption]]|].
      rewrite app_length. cbn [length]. apply Forall_app. split; [eapply Forall_impl; [|exact V]; cbv beta; intros; lia|]. constructor; [cbn; lia|constructor].
    + destruct (K (heap d) r) as (K1 & K2 & K3); [reflexivity|reflexivity|].
      split; [exact K1|]. split; [exact K2|]. split; [reflexivity|]. split; [exact K3|]. intros [KN|[[s ES]|(r' & ER & NI)]]; [unfold dmem in KN; rewrite G in KN; discriminate|discriminate|].
      injection ER as <-. unfold unshared. cbn [tags heap]. rewrite (dset_items_new _ _ _ G), !map_app. cbn [map fst snd].
      split; [apply (Permutation_NoDup (l := tag :: map fst (tags d))); [apply Permutation_cons_append|constructor; assumption]|].
      split; [apply (Permutation_NoDup (l := r :: map snd (tags d))); [apply Permutation_cons_append|constructor; assumption]|].
      apply Forall_app. split; [exact V|]. constructor; [cbn; apply HA; reflexivity|constructor].
Qed.
Lemma remove_words_spec d tag a : unshared d ->
  match a with
  | None => if known d tag then exists d', remove_words d tag None = (d', None) /\ maxlen d' = maxlen d /\ (bounded d -> bounded d') /\ unshared d' /\
       (forall w t, word_is_tag d' w t = if eqb tag t then false else word_is_tag d w t) /\ (forall t, known d' t = known d t && negb (eqb tag t))
     else remove_words d tag None = (d, Some ValueError)
  | Some a => if known d tag then
       (forall r l, dget (tags d) tag = Some r -> deref d r <> OList l) -> (forall l, arg_obj d a <> OList l) ->
       exists d', remove_words d tag (Some a) = (d', None) /\ maxlen d' = maxlen d /\ (bounded d -> bounded d') /\ unshared d' /\
       (forall w t, word_is_tag d' w t = word_is_tag d w t && negb (eqb tag t && mem w (elems (arg_obj d a)))) /\ (forall t, known d' t = known d t)
     else remove_words d tag (Some a) = (d, Some ValueError)
  end.
Proof.
  intros (N1 & N2 & V). unfold known, dmem. destruct a as [a|].
  - destruct (dget (tags d) tag) as [r|] eqn:G; [|unfold remove_words; rewrite G; reflexivity]. intros HS HA. unfold remove_words. rewrite G.
    destruct (deref d r) as [s|l] eqn:D; [|exfalso; eapply HS; eauto]. destruct (arg_obj d a) as [ws|l] eqn:A; [|exfalso; eapply HA; eauto].
    pose proof (dget_ref _ _ _ G) as IR. pose proof V as V'. eapply Forall_forall in V'; [|exact IR]. cbn [snd] in V'.
    eexists. split; [reflexivity|]. split; [reflexivity|]. split; [|split; [|split]].
    + intros B. unfold bounded. cbn [tags maxlen]. apply Forall_forall. intros [k r'] I. eapply Forall_forall in B; [|exact I]. cbn [snd] in *.
      unfold deref. cbn [heap]. rewrite upd_nth. destruct (Nat.eqb_spec r r') as [<-|]; cbn [andb]; [|exact B].
      rewrite (proj2 (Nat.ltb_lt _ _) V'). cbn [elems]. apply Forall_forall. intros w Iw. apply filter_In in Iw as [Iw _]. rewrite D in B. cbn [elems] in B. eapply Forall_forall in B; [|exact Iw]. exact B.
    + unfold unshared. cbn [tags heap]. rewrite upd_length. auto.
    + intros w t. unfold word_is_tag, deref. cbn [tags heap elems]. destruct (dget (tags d) t) as [r'|] eqn:G'; [|reflexivity]. rewrite upd_nth.
      destruct (eqb_spec tag t) as [<-|NT].
      * rewrite G in G'. injection G' as <-. rewrite Nat.eqb_refl, (proj2 (Nat.ltb_lt _ _) V'). cbn [andb elems]. fold (deref d r). rewrite D. cbn [elems].
        apply eq_true_iff_eq. rewrite andb_true_iff, !mem_In, filter_In. reflexivity.
      * cbn [andb negb]. rewrite andb_true_r. destruct (Nat.eqb_spec r r') as [<-|NR]; [|reflexivity]. exfalso. apply NT. eapply ref_inj; eauto.
    + reflexivity.
  - destruct (dget (tags d) tag) as [r|] eqn:G; [|unfold remove_words; rewrite G; reflexivity]. unfold remove_words. rewrite G.
    eexists. split; [reflexivity|]. split; [reflexivity|]. split; [|split; [|split]].
    + intros B. unfold bounded in *. cbn [tags maxlen]. apply Forall_forall. intros x I. apply filter_In in I as [I _]. eapply Forall_forall in B; [|exact I]. exact B.
    + unfold unshared. cbn [tags heap]. assert (forall (f : str * nat -> bool) A (g : str * nat -> A) l, NoDup (map g l) -> NoDup (map g (filter f l))) as NF.
      { intros f A g l. induction l as [|x l IH]; intros N; [constructor|]. cbn [map] in N. inversion N as [|? ? NI N']; subst. cbn [filter]. destruct (f x); [|apply IH, N']. cbn [map]. constructor; [|apply IH, N'].
        intros I. apply NI. apply in_map_iff in I as (y & E & I). apply filter_In in I as [I _]. apply in_map_iff. exists y. auto. }
      split; [apply NF, N1|]. split; [apply NF, N2|]. apply Forall_forall. intros x I. apply filter_In in I as [I _]. eapply Forall_forall in V; [|exact I]. exact V.
    + intros w t. unfold word_is_tag, deref. cbn [tags heap]. rewrite dget_dpop. destruct (eqb tag t); reflexivity.
    + intros t. cbn [tags]. rewrite dget_dpop. destruct (eqb tag t); cbn [negb]; [rewrite andb_false_r; reflexivity|rewrite andb_true_r; reflexivity].
Qed.
