(** * PyText: whitespace handling of Python's [str] and [re]. *)
From Verif Require Import PyBase.

(** [str.isspace] / [\s] for a single code point (both agree on all code points
    in CPython 3): U+0009-000D, 001C-001F, 0020, 0085, 00A0, 1680, 2000-200A,
    2028, 2029, 202F, 205F, 3000. *)
Definition is_space (c : N) : bool :=
  (((9 <=? c) && (c <=? 13)) || ((28 <=? c) && (c <=? 32)) || (c =? 133) || (c =? 160) || (c =? 5760)
  || ((8192 <=? c) && (c <=? 8202)) || (c =? 8232) || (c =? 8233) || (c =? 8239) || (c =? 8287) || (c =? 12288))%N.

Definition SP : N := 32%N.

(** maximal runs of characters satisfying [keep] *)
Fixpoint runs (keep : N -> bool) (s : str) : list str :=
  match s with
  | [] => []
  | c :: s' =>
    if keep c then
      match s' with
      | [] => [[c]]
      | d :: _ =>
        if keep d then match runs keep s' with w :: ws => (c :: w) :: ws | [] => [[c]] end
        else [c] :: runs keep s'
      end
    else runs keep s'
  end.

Definition nonspace (c : N) : bool := negb (is_space c).

(** [s.split()] *)
Definition split (s : str) : list str := runs nonspace s.

(** [s.lstrip()], [s.rstrip()], [s.strip()] *)
Fixpoint dropwhile (p : N -> bool) (s : str) : str :=
  match s with [] => [] | c :: s' => if p c then dropwhile p s' else s end.
Definition lstrip (s : str) : str := dropwhile is_space s.
Definition rstrip (s : str) : str := rev (dropwhile is_space (rev s)).
Definition strip (s : str) : str := rstrip (lstrip s).

(** [re.compile('\s+').sub(' ', s)]; [prev] says the previous character was whitespace *)
Fixpoint collapse_aux (prev : bool) (s : str) : str :=
  match s with
  | [] => []
  | c :: s' =>
    if is_space c then (if prev then collapse_aux true s' else SP :: collapse_aux true s')
    else c :: collapse_aux false s'
  end.
Definition collapse (s : str) : str := collapse_aux false s.

(** [re.compile('\[^...\]').sub(' ', s)] for a character class [keep] *)
Definition blank_unless (keep : N -> bool) (s : str) : str := map (fun c => if keep c then c else SP) s.

(** ** Specification of maximal runs *)
Inductive MaxRuns (keep : N -> bool) : str -> list str -> Prop :=
| MR_end sep : Forall (fun c => keep c = false) sep -> MaxRuns keep sep []
| MR_run sep w rest ws :
    Forall (fun c => keep c = false) sep ->
    w <> [] -> Forall (fun c => keep c = true) w ->
    (match rest with [] => True | c :: _ => keep c = false end) ->
    MaxRuns keep rest ws ->
    MaxRuns keep (sep ++ w ++ rest) (w :: ws).

Lemma runs_nonnil keep c s : keep c = true -> exists w ws, runs keep (c :: s) = (c :: w) :: ws.
Proof.
  intros K. simpl. rewrite K. destruct s as [|d s]; [eauto|].
  destruct (keep d); [|eauto]. destruct (runs keep (d :: s)); eauto.
Qed.

Lemma runs_run keep w rest : w <> [] -> Forall (fun c => keep c = true) w ->
  (match rest with [] => True | c :: _ => keep c = false end) ->
  runs keep (w ++ rest) = w :: runs keep rest.
Proof.
  intros NE F R. induction w as [|c w IH]; [congruence|].
  inversion F as [|? ? Hc F']; subst. cbn [app].
  destruct w as [|d w].
  - cbn [app runs]. rewrite Hc. destruct rest as [|e rest]; [reflexivity|]. rewrite R. reflexivity.
  - assert (Hd : keep d = true) by (inversion F'; auto).
    specialize (IH ltac:(discriminate) F'). cbn [app] in IH |- *.
    remember (d :: w ++ rest) as t eqn:Et. cbn [runs]. rewrite Hc, Et, Hd, <- Et, IH. reflexivity.
Qed.

Lemma runs_sep keep sep s : Forall (fun c => keep c = false) sep -> runs keep (sep ++ s) = runs keep s.
Proof.
  induction 1 as [|c sep Hc F IH]; simpl; [reflexivity|]. rewrite Hc. exact IH.
Qed.

Lemma runs_MaxRuns_iff keep s ws : MaxRuns keep s ws <-> ws = runs keep s.
Proof.
  split.
  - induction 1 as [sep F|sep w rest ws F NE Fw R M IH].
    + rewrite <- (app_nil_r sep), runs_sep by exact F. reflexivity.
    + rewrite runs_sep, runs_run by assumption. congruence.
  - intros ->. induction s as [|c s IH]; [apply MR_end; constructor|].
    destruct (keep c) eqn:K.
    + destruct s as [|d s].
      * simpl. rewrite K. apply (MR_run keep [] [c] [] []); auto; try discriminate; apply MR_end; constructor.
      * destruct (keep d) eqn:Kd.
        -- destruct (runs_nonnil keep d s Kd) as (w & ws & E).
           assert (E2 : runs keep (c :: d :: s) = (c :: d :: w) :: ws).
           { cbn [runs] in E |- *. rewrite K, Kd in *. rewrite E. reflexivity. }
           rewrite E2. rewrite E in IH. inversion IH as [|sep w' rest ws' F NE Fw R M Es Ew]; subst.
           destruct sep as [|x sep].
           ++ simpl in Es. injection Es as Es'. subst.
              apply (MR_run keep [] (c :: d :: w) rest ws); auto; discriminate.
           ++ simpl in Es. injection Es as -> _. inversion F; congruence.
        -- assert (E2 : runs keep (c :: d :: s) = [c] :: runs keep (d :: s)).
           { cbn [runs]. rewrite K, Kd. reflexivity. }
           rewrite E2. apply (MR_run keep [] [c] (d :: s)); auto; try discriminate.
    + assert (E2 : runs keep (c :: s) = runs keep s) by (cbn [runs]; rewrite K; reflexivity).
      rewrite E2. inversion IH as [sep F|sep w rest ws F NE Fw R M Es Ew]; subst.
      * apply MR_end. constructor; auto.
      * change (c :: sep ++ w ++ rest) with ((c :: sep) ++ w ++ rest). apply MR_run; auto.
Qed.

Lemma runs_Forall keep s : Forall (fun w => w <> [] /\ Forall (fun c => keep c = true) w) (runs keep s).
Proof.
  assert (M : MaxRuns keep s (runs keep s)) by (apply runs_MaxRuns_iff; reflexivity).
  induction M; constructor; auto.
Qed.

Lemma concat_runs keep s : concat (runs keep s) = filter keep s.
Proof.
  assert (M : MaxRuns keep s (runs keep s)) by (apply runs_MaxRuns_iff; reflexivity).
  assert (FF : forall sep, Forall (fun c => keep c = false) sep -> filter keep sep = []).
  { induction 1 as [|c l Hc F IH]; simpl; [reflexivity|]. rewrite Hc; exact IH. }
  assert (FT : forall w, Forall (fun c => keep c = true) w -> filter keep w = w).
  { induction 1 as [|c l Hc F IH]; simpl; [reflexivity|]. rewrite Hc, IH; reflexivity. }
  induction M as [sep F|sep w rest ws F NE Fw R M IH]; simpl.
  - symmetry; auto.
  - rewrite !filter_app, FF, FT, IH by assumption. reflexivity.
Qed.

(** joining the runs with single spaces and re-splitting gives the runs back *)
Lemma runs_join keep ws : keep SP = false ->
  Forall (fun w => w <> [] /\ Forall (fun c => keep c = true) w) ws ->
  runs keep (join [SP] ws) = ws.
Proof.
  intros KS F. induction ws as [|w ws IH]; simpl; [reflexivity|].
  inversion F as [|? ? [NE Fw] F']; subst.
  destruct ws as [|w2 ws].
  - rewrite <- (app_nil_r w) at 1. rewrite runs_run; auto.
  - rewrite runs_run by (auto; simpl; auto). f_equal.
    change ([SP] ++ join [SP] (w2 :: ws)) with (SP :: join [SP] (w2 :: ws)).
    cbn [runs]. rewrite KS. apply IH; exact F'.
Qed.

Lemma is_space_SP : is_space SP = true. Proof. reflexivity. Qed.

(** ** strip (collapse s) = " ".join(s.split()) *)
Lemma dropwhile_app_all p a b : Forall (fun c => p c = true) a -> dropwhile p (a ++ b) = dropwhile p b.
Proof. induction 1 as [|c a Hc F IH]; simpl; [reflexivity|]. rewrite Hc; exact IH. Qed.

Lemma rstrip_app_nonspace a c : is_space c = false -> rstrip (a ++ [c]) = a ++ [c].
Proof.
  intros Hc. unfold rstrip. rewrite rev_app_distr. simpl. rewrite Hc. simpl. rewrite rev_involutive. reflexivity.
Qed.
Lemma rstrip_app_space a c : is_space c = true -> rstrip (a ++ [c]) = rstrip a.
Proof. intros Hc. unfold rstrip. rewrite rev_app_distr. simpl. rewrite Hc. reflexivity. Qed.
Lemma rstrip_nil : rstrip [] = []. Proof. reflexivity. Qed.

Lemma last_nonnil {A} (l : list A) : l <> [] -> exists l' x, l = l' ++ [x].
Proof. intros N. destruct (exists_last N) as (l' & x & E). eauto. Qed.

Lemma rstrip_join_end t w : w <> [] -> Forall (fun c => nonspace c = true) w -> rstrip (t ++ w) = t ++ w.
Proof.
  intros NE F. destruct (last_nonnil w NE) as (w' & x & ->).
  rewrite app_assoc. apply rstrip_app_nonspace.
  apply Forall_app in F. destruct F as [_ F]. inversion F as [|? ? Hx ?]; subst.
  unfold nonspace in Hx. destruct (is_space x); [discriminate|reflexivity].
Qed.

Lemma join_cons sep w ws : ws <> [] -> join sep (w :: ws) = w ++ sep ++ join sep ws.
Proof. destruct ws; [congruence|reflexivity]. Qed.

Lemma join_snoc_form ws : ws <> [] -> Forall (fun w => w <> [] /\ Forall (fun c => nonspace c = true) w) ws ->
  exists t w, join [SP] ws = t ++ w /\ w <> [] /\ Forall (fun c => nonspace c = true) w.
Proof.
  intros NE F. induction ws as [|w ws IH]; [congruence|].
  inversion F as [|? ? [Nw Fw] F']; subst.
  destruct ws as [|w2 ws].
  - exists [], w. auto.
  - destruct (IH ltac:(discriminate) F') as (t & w' & E & N' & F'').
    exists (w ++ [SP] ++ t), w'. rewrite join_cons by discriminate. rewrite E.
    rewrite <- !app_assoc. auto.
Qed.

Lemma rstrip_join ws : Forall (fun w => w <> [] /\ Forall (fun c => nonspace c = true) w) ws ->
  rstrip (join [SP] ws) = join [SP] ws.
Proof.
  intros F. destruct ws as [|w ws]; [reflexivity|].
  destruct (join_snoc_form (w :: ws) ltac:(discriminate) F) as (t & w' & E & N' & F').
  rewrite E. apply rstrip_join_end; auto.
Qed.

Lemma collapse_aux_true_sep sep s : Forall (fun c => is_space c = true) sep ->
  collapse_aux true (sep ++ s) = collapse_aux true s.
Proof. induction 1 as [|c sep Hc F IH]; simpl; [reflexivity|]. rewrite Hc; exact IH. Qed.
Lemma collapse_aux_false_sep sep s : sep <> [] -> Forall (fun c => is_space c = true) sep ->
  collapse_aux false (sep ++ s) = SP :: collapse_aux true s.
Proof.
  intros NE F. destruct sep as [|c sep]; [congruence|]. inversion F as [|? ? Hc F']; subst.
  simpl. rewrite Hc. rewrite collapse_aux_true_sep; auto.
Qed.
Lemma collapse_aux_word b w s : w <> [] -> Forall (fun c => nonspace c = true) w ->
  collapse_aux b (w ++ s) = w ++ collapse_aux false s.
Proof.
  intros NE F. revert b. induction F as [|c w Hc F IH]; [congruence|]. intros b. simpl.
  unfold nonspace in Hc. destruct (is_space c); [discriminate|].
  f_equal. destruct w as [|d w]; [reflexivity|]. apply IH. discriminate.
Qed.

Lemma nonspace_false c : nonspace c = false <-> is_space c = true.
Proof. unfold nonspace. destruct (is_space c); simpl; split; congruence. Qed.
Lemma nonspace_true c : nonspace c = true <-> is_space c = false.
Proof. unfold nonspace. destruct (is_space c); simpl; split; congruence. Qed.

Lemma Forall_nonspace_false sep : Forall (fun c => nonspace c = false) sep -> Forall (fun c => is_space c = true) sep.
Proof. apply Forall_impl. intros; apply nonspace_false; assumption. Qed.

(** After collapsing from a boundary, right-stripping yields the joined words. *)
Lemma collapse_true_rstrip s ws : MaxRuns nonspace s ws -> rstrip (collapse_aux true s) = join [SP] ws.
Proof.
  intros M.
  assert (FF : Forall (fun w => w <> [] /\ Forall (fun c => nonspace c = true) w) ws)
    by (clear - M; induction M; constructor; auto).
  assert (G : exists tl, collapse_aux true s = join [SP] ws ++ tl /\ (tl = [] \/ (tl = [SP] /\ ws <> []))).
  { clear FF. induction M as [sep F|sep w rest ws F NE Fw R M IH].
    - exists []. split; [|auto]. rewrite <- (app_nil_r sep).
      rewrite collapse_aux_true_sep by (apply Forall_nonspace_false; exact F). reflexivity.
    - rewrite collapse_aux_true_sep by (apply Forall_nonspace_false; exact F).
      rewrite collapse_aux_word by assumption.
      destruct rest as [|c rest].
      + apply runs_MaxRuns_iff in M. simpl in M. subst ws. exists []. simpl. auto.
      + apply nonspace_false in R.
        destruct IH as (tl & E & T).
        change (collapse_aux true (c :: rest)) with (if is_space c then collapse_aux true rest else c :: collapse_aux false rest) in E.
        rewrite R in E.
        assert (E' : collapse_aux false (c :: rest) = SP :: collapse_aux true rest) by (simpl; rewrite R; reflexivity).
        rewrite E', E. destruct ws as [|w2 ws].
        * destruct T as [->|[_ X]]; [|congruence]. exists [SP]. simpl. split; [reflexivity|].
          right; split; [reflexivity|congruence].
        * exists tl. split.
          { transitivity ((w ++ [SP] ++ join [SP] (w2 :: ws)) ++ tl); [rewrite <- !app_assoc; reflexivity|reflexivity]. } destruct T as [->|[-> _]]; [left; reflexivity|right; split; [reflexivity|congruence]]. }
  destruct G as (tl & E & [->|[-> _]]); rewrite E.
  - rewrite app_nil_r. apply rstrip_join; exact FF.
  - rewrite rstrip_app_space by reflexivity. apply rstrip_join; exact FF.
Qed.

Lemma lstrip_sep sep s : Forall (fun c => is_space c = true) sep -> lstrip (sep ++ s) = lstrip s.
Proof. apply dropwhile_app_all. Qed.
Lemma lstrip_word w s : w <> [] -> Forall (fun c => nonspace c = true) w -> lstrip (w ++ s) = w ++ s.
Proof.
  intros NE F. destruct F as [|c w Hc F]; [congruence|]. unfold lstrip. simpl.
  apply nonspace_true in Hc. rewrite Hc. reflexivity.
Qed.

Lemma split_MaxRuns s : MaxRuns nonspace s (split s).
Proof. apply runs_MaxRuns_iff. reflexivity. Qed.

Theorem strip_collapse s : strip (collapse s) = join [SP] (split s).
Proof.
  unfold strip, collapse. pose proof (split_MaxRuns s) as M.
  rewrite <- (collapse_true_rstrip s (split s) M). f_equal.
  destruct M as [sep F|sep w rest ws F NE Fw R M].
  - apply Forall_nonspace_false in F. rewrite <- (app_nil_r sep).
    destruct sep as [|c sep]; [reflexivity|].
    rewrite collapse_aux_false_sep, collapse_aux_true_sep by (auto; discriminate). reflexivity.
  - apply Forall_nonspace_false in F.
    rewrite collapse_aux_true_sep by exact F. rewrite (collapse_aux_word true) by assumption.
    destruct sep as [|c sep].
    + change ([] ++ w ++ rest) with (w ++ rest).
      rewrite (collapse_aux_word false) by assumption. apply lstrip_word; assumption.
    + rewrite collapse_aux_false_sep by (auto; discriminate).
      rewrite collapse_aux_word by assumption.
      change (SP :: w ++ collapse_aux false rest) with ([SP] ++ w ++ collapse_aux false rest).
      rewrite lstrip_sep by (repeat constructor). apply lstrip_word; assumption.
Qed.

Lemma split_words s : Forall (fun w => w <> [] /\ Forall (fun c => nonspace c = true) w) (split s).
Proof. apply runs_Forall. Qed.

Lemma split_join ws : Forall (fun w => w <> [] /\ Forall (fun c => nonspace c = true) w) ws ->
  split (join [SP] ws) = ws.
Proof. intros F. apply runs_join; [reflexivity|exact F]. Qed.

Lemma concat_split s : concat (split s) = filter nonspace s.
Proof. apply concat_runs. Qed.

(** blanking the rest and splitting on whitespace = runs of kept characters *)
Lemma split_blank_unless keep s : (forall c, keep c = true -> is_space c = false) ->
  split (blank_unless keep s) = runs keep s.
Proof.
  intros K. unfold split. symmetry.
  assert (M : MaxRuns keep s (runs keep s)) by (apply runs_MaxRuns_iff; reflexivity).
  symmetry. symmetry. apply runs_MaxRuns_iff.
  assert (BF : forall l, Forall (fun c => keep c = false) l -> Forall (fun c => nonspace c = false) (blank_unless keep l)).
  { induction 1 as [|c l Hc F IH]; simpl; constructor; auto. rewrite Hc. reflexivity. }
  assert (BT : forall l, Forall (fun c => keep c = true) l -> blank_unless keep l = l).
  { induction 1 as [|c l Hc F IH]; simpl; [reflexivity|]. rewrite Hc. f_equal. exact IH. }
  induction M as [sep F|sep w rest ws F NE Fw R M IH].
  - apply MR_end. auto.
  - unfold blank_unless. rewrite !map_app. fold (blank_unless keep sep). fold (blank_unless keep w).
    fold (blank_unless keep rest). rewrite (BT w Fw). apply MR_run; auto.
    + eapply Forall_impl; [|exact Fw]. intros c Hc. apply nonspace_true. auto.
    + destruct rest as [|c rest]; simpl; [exact I|]. rewrite R. reflexivity.
Qed.

Theorem strip_collapse_blank keep s : (forall c, keep c = true -> is_space c = false) ->
  strip (collapse (blank_unless keep s)) = join [SP] (runs keep s).
Proof. intros K. rewrite strip_collapse, split_blank_unless by exact K. reflexivity. Qed.
