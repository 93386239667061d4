(** * PyDict: Python dictionaries as insertion-ordered association lists. *)
From Verif Require Import PyBase.
From Coq Require Import Permutation.

Definition dict (K V : Type) := list (K * V).

Section Dict.
  Context {K V : Type} `{EqB K}.
  Implicit Types d : dict K V.

  (** [d.get(k)] *)
  Fixpoint dget d (k : K) : option V :=
    match d with
    | [] => None
    | (k', v) :: d' => if eqb k' k then Some v else dget d' k
    end.
  (** [d.get(k, default)] *)
  Definition dgetd d (k : K) (v0 : V) : V := match dget d k with Some v => v | None => v0 end.
  (** [k in d] *)
  Definition dmem d (k : K) : bool := match dget d k with Some _ => true | None => false end.
  (** [d\[k\] = v]: in place if present, appended otherwise *)
  Fixpoint dset d (k : K) (v : V) : dict K V :=
    match d with
    | [] => [(k, v)]
    | (k', v') :: d' => if eqb k' k then (k', v) :: d' else (k', v') :: dset d' k v
    end.
  (** [d.pop(k)] for a key that is present (no effect otherwise) *)
  Definition dpop d (k : K) : dict K V := filter (fun kv => negb (eqb (fst kv) k)) d.
  Definition dkeys d : list K := map fst d.
  Definition dvals d : list V := map snd d.
  (** [{k:v for k,v in d.items() if f(k,v)}] *)
  Definition dfilter (f : K -> V -> bool) d : dict K V := filter (fun kv => f (fst kv) (snd kv)) d.
  (** [dict(pairs)]: later pairs win *)
  Definition dict_of (l : list (K * V)) : dict K V := fold_left (fun d kv => dset d (fst kv) (snd kv)) l [].

  (** keys are unique *)
  Definition dwf d : Prop := NoDup (dkeys d).

  Lemma dget_dset d k v k' : dget (dset d k v) k' = if eqb k k' then Some v else dget d k'.
  Proof.
    induction d as [|[k0 v0] d IH]; simpl; [reflexivity|].
    destruct (eqb_spec k0 k) as [->|Hn]; simpl.
    - destruct (eqb_spec k k'); reflexivity.
    - rewrite IH. destruct (eqb_spec k0 k') as [->|]; [|reflexivity].
      destruct (eqb_spec k k'); [congruence|reflexivity].
  Qed.

  Lemma dget_dfilter_key (f : K -> bool) d k :
    dget (dfilter (fun k _ => f k) d) k = if f k then dget d k else None.
  Proof.
    induction d as [|[k0 v0] d IH]; simpl; [destruct (f k); reflexivity|].
    destruct (f k0) eqn:F; simpl.
    - destruct (eqb_spec k0 k) as [->|Hn]; [rewrite F; reflexivity|exact IH].
    - rewrite IH. destruct (eqb_spec k0 k) as [->|Hn]; [rewrite F|]; reflexivity.
  Qed.

  Lemma dget_dpop d k k' : dget (dpop d k) k' = if eqb k k' then None else dget d k'.
  Proof.
    pose proof (dget_dfilter_key (fun x => negb (eqb x k)) d k') as E.
    unfold dfilter in E. unfold dpop. rewrite E, (eqb_sym k' k). destruct (eqb k k'); reflexivity.
  Qed.

  Lemma dget_In d k v : dget d k = Some v -> In (k, v) d.
  Proof.
    induction d as [|[k0 v0] d IH]; simpl; [discriminate|].
    destruct (eqb_spec k0 k) as [->|Hn]; intros E; [left; congruence|right; auto].
  Qed.

  Lemma In_dget d k v : dwf d -> In (k, v) d -> dget d k = Some v.
  Proof.
    unfold dwf, dkeys. induction d as [|[k0 v0] d IH]; simpl; [tauto|].
    intros W [E|I]; inversion W as [|? ? Hni W']; subst.
    - injection E as -> ->. rewrite eqb_refl. reflexivity.
    - destruct (eqb_spec k0 k) as [->|Hn]; [|auto].
      exfalso; apply Hni. apply (in_map fst) in I. exact I.
  Qed.

  Lemma dget_In_iff d k v : dwf d -> (dget d k = Some v <-> In (k, v) d).
  Proof. intros W; split; [apply dget_In|apply In_dget; exact W]. Qed.

  Lemma dget_keys d k : dget d k <> None <-> In k (dkeys d).
  Proof.
    induction d as [|[k0 v0] d IH]; simpl; [tauto|].
    destruct (eqb_spec k0 k) as [->|Hn]; [split; [auto|congruence]|].
    rewrite IH. split; [auto|]. intros [E|I]; [congruence|exact I].
  Qed.
  Lemma dget_None d k : dget d k = None <-> ~ In k (dkeys d).
  Proof. rewrite <- dget_keys. destruct (dget d k); split; intuition congruence. Qed.
  Lemma dmem_keys d k : dmem d k = true <-> In k (dkeys d).
  Proof. rewrite <- dget_keys. unfold dmem. destruct (dget d k); split; congruence. Qed.

  Lemma dset_keys d k v : dkeys (dset d k v) = if dmem d k then dkeys d else dkeys d ++ [k].
  Proof.
    unfold dmem. induction d as [|[k0 v0] d IH]; simpl; [reflexivity|].
    destruct (eqb_spec k0 k) as [->|Hn]; simpl; [reflexivity|].
    rewrite IH. destruct (dget d k); reflexivity.
  Qed.

  Lemma NoDup_snoc {A} (l : list A) x : NoDup l -> ~ In x l -> NoDup (l ++ [x]).
  Proof.
    intros ND NI. apply (Permutation_NoDup (l := x :: l)).
    - apply Permutation_cons_append.
    - constructor; auto.
  Qed.

  Lemma dwf_dset d k v : dwf d -> dwf (dset d k v).
  Proof.
    unfold dwf. intros W. rewrite dset_keys. destruct (dmem d k) eqn:M; [exact W|].
    apply NoDup_snoc; [exact W|]. intro I. apply dmem_keys in I. congruence.
  Qed.

  Lemma dwf_nil : dwf [].
  Proof. constructor. Qed.

  Lemma NoDup_filter_map (f : K * V -> bool) d : dwf d -> dwf (filter f d).
  Proof.
    unfold dwf, dkeys. induction d as [|kv d IH]; simpl; intros W; [constructor|].
    inversion W as [|? ? Hni W']; subst.
    destruct (f kv); simpl; [|auto]. constructor; [|auto].
    intros I. apply Hni. apply in_map_iff in I. destruct I as (x & E & I).
    apply filter_In in I. rewrite <- E. apply in_map. tauto.
  Qed.
  Lemma dwf_dfilter f d : dwf d -> dwf (dfilter f d).
  Proof. apply NoDup_filter_map. Qed.
  Lemma dwf_dpop d k : dwf d -> dwf (dpop d k).
  Proof. apply NoDup_filter_map. Qed.

  Lemma dget_dfilter (f : K -> V -> bool) d k : dwf d ->
    dget (dfilter f d) k = match dget d k with Some v => if f k v then Some v else None | None => None end.
  Proof.
    intros W. pose proof (dwf_dfilter f d W) as W'.
    destruct (dget d k) as [v|] eqn:E.
    - apply dget_In in E. destruct (f k v) eqn:F.
      + apply In_dget; auto. apply filter_In. auto.
      + apply dget_None. intro I. apply in_map_iff in I. destruct I as ([k1 v1] & E1 & I).
        simpl in E1. subst k1. apply filter_In in I. destruct I as [I F1]. simpl in F1.
        apply (In_dget _ _ _ W) in E. apply (In_dget _ _ _ W) in I. congruence.
    - apply dget_None. intro I. apply in_map_iff in I. destruct I as ([k1 v1] & E1 & I).
      simpl in E1; subst k1. apply filter_In in I. destruct I as [I _].
      apply (In_dget _ _ _ W) in I. congruence.
  Qed.

  Lemma dset_items_new d k v : dget d k = None -> dset d k v = d ++ [(k, v)].
  Proof.
    induction d as [|[k0 v0] d IH]; simpl; [reflexivity|].
    destruct (eqb_spec k0 k); [discriminate|]. intros E. rewrite IH; auto.
  Qed.

  Lemma dget_app d1 d2 k : dget (d1 ++ d2) k = match dget d1 k with Some v => Some v | None => dget d2 k end.
  Proof.
    induction d1 as [|[k0 v0] d1 IH]; simpl; [reflexivity|]. destruct (eqb k0 k); auto.
  Qed.

  Lemma dget_nil k : dget ([] : dict K V) k = None.
  Proof. reflexivity. Qed.

  (** two well-formed dicts with the same content are permutations of each other *)
  Lemma dict_ext_perm d1 d2 : dwf d1 -> dwf d2 -> (forall k, dget d1 k = dget d2 k) -> Permutation d1 d2.
  Proof.
    intros W1 W2 E. apply NoDup_Permutation.
    - unfold dwf, dkeys in W1. apply NoDup_map_inv in W1. exact W1.
    - unfold dwf, dkeys in W2. apply NoDup_map_inv in W2. exact W2.
    - intros [k v]. rewrite <- !dget_In_iff by assumption. rewrite E. tauto.
  Qed.

  Lemma dget_perm d1 d2 k : dwf d1 -> Permutation d1 d2 -> dget d1 k = dget d2 k.
  Proof.
    intros W1 P. assert (W2 : dwf d2).
    { unfold dwf, dkeys in *. eapply Permutation_NoDup; [|exact W1]. apply Permutation_map; exact P. }
    destruct (dget d2 k) as [v|] eqn:E2.
    - apply (dget_In_iff _ _ _ W1). apply dget_In in E2.
      eapply Permutation_in; [apply Permutation_sym; exact P|exact E2].
    - apply dget_None in E2. apply dget_None. intro I. apply E2.
      eapply Permutation_in; [apply Permutation_map; exact P|exact I].
  Qed.

  Lemma dwf_perm d1 d2 : dwf d1 -> Permutation d1 d2 -> dwf d2.
  Proof.
    intros W P. unfold dwf, dkeys in *. eapply Permutation_NoDup; [|exact W].
    apply Permutation_map; exact P.
  Qed.

  Lemma dwf_dict_of l : dwf (dict_of l).
  Proof.
    unfold dict_of. assert (G : forall d, dwf d -> dwf (fold_left (fun d kv => dset d (fst kv) (snd kv)) l d)).
    { induction l as [|[k v] l IH]; simpl; intros d W; [exact W|]. apply IH, dwf_dset, W. }
    apply G, dwf_nil.
  Qed.

  Lemma dset_same d k v : dget d k = Some v -> dset d k v = d.
  Proof.
    induction d as [|[k0 v0] d IH]; simpl; [discriminate|].
    destruct (eqb_spec k0 k) as [->|]; intros E; [congruence|]. rewrite IH; auto.
  Qed.

  Lemma fold_dset_app (l : list (K*V)) d :
    NoDup (dkeys d ++ map fst l) -> fold_left (fun d kv => dset d (fst kv) (snd kv)) l d = d ++ l.
  Proof.
    revert d; induction l as [|[k v] l IH]; intros d ND; simpl.
    - rewrite app_nil_r. reflexivity.
    - assert (NI : dget d k = None).
      { apply dget_None. intro I. simpl in ND. apply NoDup_remove_2 in ND. apply ND.
        apply in_or_app; auto. }
      rewrite dset_items_new by exact NI. rewrite IH.
      + rewrite <- app_assoc. reflexivity.
      + unfold dkeys. rewrite map_app. simpl. rewrite <- app_assoc. simpl. exact ND.
  Qed.

  Lemma dict_of_wf l : NoDup (map fst l) -> dict_of l = l.
  Proof. intros ND. unfold dict_of. rewrite fold_dset_app; [reflexivity|exact ND]. Qed.
End Dict.
