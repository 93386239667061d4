(** * Proofs about RegexTokenizer (C18) *)
From Verif Require Import PyBase PyDict PySort PyText PyRe PyReProofs TokenizerModel TokenizerSpec HangleSpec.
Open Scope nat_scope.

Lemma regex_scan_skip s : forall f fs k, regex_scan f fs k s = regex_scan f fs 0 (skipn k s).
Proof.
  induction s as [|c s IH]; intros f fs k; [destruct k; reflexivity|].
  destruct k as [|k]; [reflexivity|]. simpl. rewrite IH. reflexivity.
Qed.
(** the matched branch *)
Lemma regex_scan_found f fs r : f <> [] -> regex_scan f fs 0 (f ++ r) =
  SP :: f ++ SP :: match fs with [] => r | g :: gs => regex_scan g gs 0 r end.
Proof.
  intros N. destruct f as [|c f]; [congruence|].
  assert (P : prefixb (c :: f) ((c :: f) ++ r) = true) by (apply prefixb_spec; eauto).
  change ((c :: f) ++ r) with (c :: f ++ r) in *. cbn [regex_scan]. rewrite P.
  cbn [app]. f_equal. f_equal. rewrite <- app_assoc. f_equal. cbn [app]. f_equal.
  destruct fs as [|g gs].
  - rewrite app_comm_cons, skipn_app, Nat.sub_diag, skipn_all. reflexivity.
  - rewrite regex_scan_skip. f_equal. cbn [length]. rewrite Nat.sub_succ, Nat.sub_0_r, skipn_app, Nat.sub_diag, skipn_all. reflexivity.
Qed.
Lemma regex_scan_nomatch f fs c s : prefixb f (c :: s) = false -> regex_scan f fs 0 (c :: s) = c :: regex_scan f fs 0 s.
Proof. intros P. cbn [regex_scan]. rewrite P. reflexivity. Qed.

(** what one pattern can do to the text *)
Inductive Scan : list str -> str -> str -> Prop :=
| Scan_stop fs : Scan fs [] []
| Scan_done s : Scan [] s s
| Scan_char fs c s s' : Scan fs s s' -> Scan fs (c :: s) (c :: s')
| Scan_found f fs s s' : f <> [] -> Scan fs s s' -> Scan (f :: fs) (f ++ s) (SP :: f ++ SP :: s').

Lemma regex_scan_Scan n : forall s f fs, length s <= n -> Forall (fun f => f <> []) (f :: fs) -> Scan (f :: fs) s (regex_scan f fs 0 s).
Proof.
  induction n as [|n IH]; intros s f fs L F.
  - destruct s; [constructor|simpl in L; lia].
  - destruct s as [|c s]; [constructor|]. destruct (prefixb f (c :: s)) eqn:P.
    + apply prefixb_spec in P as (r & E). rewrite E. inversion F as [|? ? N F']; subst. rewrite regex_scan_found by exact N.
      constructor; [exact N|]. destruct fs as [|g gs]; [constructor|]. apply IH; [|exact F'].
      apply (f_equal (fun l => length l)) in E. rewrite app_length in E. destruct f; [congruence|]. simpl in *. lia.
    + rewrite regex_scan_nomatch by exact P. constructor. apply IH; [simpl in L; lia|exact F].
Qed.
Lemma regex_step_Scan findall s : Forall (fun f => f <> []) (findall s) -> Scan (findall s) s (regex_step s findall).
Proof.
  intros F. unfold regex_step. destruct (findall s) as [|f fs]; [constructor|]. eapply regex_scan_Scan; eauto.
Qed.

Lemma Scan_filter fs s s' : Scan fs s s' -> filter nonspace s' = filter nonspace s.
Proof.
  induction 1; simpl; auto.
  - destruct (nonspace c); [f_equal|]; assumption.
  - rewrite !filter_app. simpl. f_equal. exact IHScan.
Qed.

Lemma regex_tokenize1_split ps s : regex_tokenize1 ps s = split (fold_left regex_step ps s).
Proof. unfold regex_tokenize1. rewrite strip_collapse. apply split_join, split_words. Qed.


Lemma regex_fold_filter ps : nonempty_matches ps -> forall s, filter nonspace (fold_left regex_step ps s) = filter nonspace s.
Proof.
  induction 1 as [|p ps Hp F IH]; intros s; simpl; [reflexivity|]. rewrite IH. eapply Scan_filter, regex_step_Scan, Hp.
Qed.
Lemma filter_nonspace_id w : Forall (fun c => nonspace c = true) w -> filter nonspace w = w.
Proof. induction 1 as [|c w Hc F IH]; simpl; [reflexivity|]. rewrite Hc. congruence. Qed.

Lemma regex_tokenize1_concat ps s : nonempty_matches ps -> concat (regex_tokenize1 ps s) = filter nonspace s.
Proof. intros F. rewrite regex_tokenize1_split, concat_split. apply regex_fold_filter, F. Qed.

Lemma filter_id {A} (f : A -> bool) l : Forall (fun x => f x = true) l -> filter f l = l.
Proof. induction 1 as [|c w Hc F IH]; simpl; [reflexivity|]. rewrite Hc. congruence. Qed.

Lemma regex_flat_eq ps s : regex_tokenize_flat ps s = concat (regex_tokenize ps s).
Proof.
  unfold regex_tokenize_flat. apply filter_id. unfold regex_tokenize. apply Forall_concat, Forall_forall.
  intros ts I. apply in_map_iff in I as (t & <- & _). rewrite regex_tokenize1_split.
  eapply Forall_impl; [|apply split_words]. intros w [N _]. destruct w; [congruence|reflexivity].
Qed.

Lemma regex_words ps s : nonempty_matches ps ->
  Forall2 (fun e ts => concat ts = e /\ Forall (fun t => t <> [] /\ Forall (fun c => nonspace c = true) t) ts) (split s) (regex_tokenize ps s).
Proof.
  intros F. unfold regex_tokenize. pose proof (split_words s) as W. induction W as [|e es [N E] W IH]; simpl; constructor; [|exact IH].
  split; [rewrite regex_tokenize1_concat by exact F; apply filter_nonspace_id, E|].
  rewrite regex_tokenize1_split. apply split_words.
Qed.
Lemma regex_flat_text ps s : nonempty_matches ps -> concat (regex_tokenize_flat ps s) = filter nonspace s.
Proof.
  intros F. rewrite regex_flat_eq, <- concat_split. pose proof (regex_words ps s F) as W.
  induction W as [|e ts es tss [E _] W IH]; simpl; [reflexivity|]. rewrite concat_app. congruence.
Qed.

(** ** Hangul classes *)
Section Class.
  Variable k : N -> bool.
  Hypothesis k_nonspace : forall c, k c = true -> nonspace c = true.

  Lemma k_SP : k SP = false.
  Proof. destruct (k SP) eqn:E; [|reflexivity]. apply k_nonspace in E. discriminate. Qed.

  Lemma runs_app_sep a sep b : sep <> [] -> Forall (fun c => k c = false) sep -> runs k (a ++ sep ++ b) = runs k a ++ runs k b.
  Proof.
    intros N F.
    assert (M : MaxRuns k a (runs k a)) by (apply runs_MaxRuns_iff; reflexivity).
    remember (runs k a) as ws eqn:E. clear E. induction M as [s0 F0|s0 w rest ws F0 Nw Fw R M IH].
    - rewrite runs_sep by exact F0. rewrite runs_sep by exact F. reflexivity.
    - rewrite <- !app_assoc. rewrite runs_sep by exact F0. rewrite runs_run; [|exact Nw|exact Fw|].
      + simpl. f_equal. exact IH.
      + destruct rest as [|c rest]; [|exact R]. destruct sep; [congruence|]. inversion F; subst; assumption.
  Qed.
  Lemma runs_non_k w : Forall (fun c => k c = false) w -> runs k w = [].
  Proof. intros F. rewrite <- (app_nil_r w), runs_sep by exact F. reflexivity. Qed.

  (** a pattern whose matches avoid the class keeps the runs of the class *)
  Lemma Scan_runs fs s s' : Scan fs s s' -> Forall (Forall (fun c => k c = false)) fs -> forall a, runs k (a ++ s') = runs k (a ++ s).
  Proof.
    induction 1 as [fs|s|fs c s s' S IH|f fs s s' N S IH]; intros F a; auto.
    - specialize (IH F (a ++ [c])). rewrite <- !app_assoc in IH. exact IH.
    - inversion F as [|? ? Ff F']; subst. specialize (IH F' []). simpl in IH.
      replace (a ++ SP :: f ++ SP :: s') with (a ++ (SP :: f ++ [SP]) ++ s') by (simpl; rewrite <- app_assoc; reflexivity).
      rewrite !runs_app_sep; [congruence|exact N|exact Ff|discriminate|].
      constructor; [apply k_SP|]. apply Forall_app. split; [exact Ff|]. constructor; [apply k_SP|constructor].
  Qed.

  (** adjacent non-blank characters agree on the class *)
  Fixpoint agree (s : str) : Prop :=
    match s with
    | x :: ((y :: _) as s') => (nonspace x = true -> nonspace y = true -> k x = k y) /\ agree s'
    | _ => True
    end.
  Lemma agree_tl x s : agree (x :: s) -> agree s.
  Proof. destruct s; simpl; tauto. Qed.
  Lemma agree_app_inv a b : agree (a ++ b) -> agree a /\ agree b.
  Proof.
    induction a as [|x a IH]; [simpl; tauto|]. intros H. destruct (IH (agree_tl _ _ H)) as [A B]. split; [|exact B].
    destruct a as [|y a]; [exact I|]. destruct H as [H _]. split; assumption.
  Qed.
  Lemma agree_sp a b : agree a -> agree b -> agree (a ++ SP :: b).
  Proof.
    intros A B. assert (C : agree (SP :: b)). { destruct b; [exact I|]. split; [discriminate|exact B]. }
    induction a as [|x a IH]; [exact C|]. destruct a as [|y a].
    - split; [discriminate|exact C].
    - destruct A as [A1 A2]. split; [exact A1|]. apply IH, A2.
  Qed.
  Lemma Scan_hd fs s s' : Scan fs s s' -> s' = [] /\ s = [] \/ exists y t, s' = y :: t /\ (y = SP \/ exists t0, s = y :: t0).
  Proof.
    induction 1; auto.
    - destruct s; [left; auto|right; eauto 6].
    - right; eauto 6.
    - right; eauto 6.
  Qed.
  Lemma Scan_agree fs s s' : Scan fs s s' -> agree s -> agree s'.
  Proof.
    induction 1 as [fs|s|fs c s s' S IH|f fs s s' N S IH]; intros A; auto.
    - specialize (IH (agree_tl _ _ A)). destruct (Scan_hd _ _ _ S) as [[-> ->]|(y & t & -> & [->|[t0 ->]])]; [exact I| |].
      + split; [discriminate|exact IH].
      + destruct A as [A _]. split; assumption.
    - destruct (agree_app_inv _ _ A) as [A1 A2]. change (SP :: f ++ SP :: s') with ([] ++ SP :: f ++ SP :: s').
      apply agree_sp; [exact I|]. apply agree_sp; auto.
  Qed.
  Lemma agree_const b w : Forall (fun c => k c = b) w -> agree w.
  Proof.
    induction 1 as [|x w Hx F IH]; [exact I|]. destruct w; [exact I|]. split; [|exact IH]. intros _ _. inversion F; congruence.
  Qed.

  (** the pattern of the class itself *)
  Lemma regex_step_runs s : runs k (regex_step s (runs k)) = runs k s /\ agree (regex_step s (runs k)).
  Proof.
    unfold regex_step. assert (M : MaxRuns k s (runs k s)) by (apply runs_MaxRuns_iff; reflexivity).
    assert (G : forall s ws, MaxRuns k s ws -> match ws with [] => runs k s = ws /\ agree s | f :: fs => runs k (regex_scan f fs 0 s) = ws /\ agree (regex_scan f fs 0 s) end).
    { clear - k_nonspace. intros s ws M. induction M as [sep F|sep w rest ws F Nw Fw R M IH].
      - split; [apply runs_non_k, F|apply (agree_const false), F].
      - assert (E : regex_scan w ws 0 (sep ++ w ++ rest) = sep ++ SP :: w ++ SP :: match ws with [] => rest | g :: gs => regex_scan g gs 0 rest end).
        { clear - F Nw Fw. induction F as [|c sep Hc F IH]; [exact (regex_scan_found _ _ _ Nw)|]. cbn [app]. rewrite regex_scan_nomatch.
          - rewrite IH. reflexivity.
          - destruct w as [|d w]; [congruence|]. simpl. inversion Fw; subst. destruct (N.eqb_spec d c); [congruence|reflexivity]. }
        rewrite E. clear E.
        set (Z := match ws with [] => rest | g :: gs => regex_scan g gs 0 rest end) in *.
        assert (IH' : runs k Z = ws /\ agree Z) by (unfold Z; destruct ws; exact IH). destruct IH' as [I1 I2].
        split.
        + rewrite runs_sep by exact F. change (SP :: w ++ SP :: Z) with ([SP] ++ w ++ SP :: Z).
          rewrite runs_sep by (constructor; [apply k_SP|constructor]). rewrite runs_run; [|exact Nw|exact Fw|apply k_SP].
          change (SP :: Z) with ([SP] ++ Z). rewrite runs_sep by (constructor; [apply k_SP|constructor]). congruence.
        + apply agree_sp; [apply (agree_const false), F|]. apply agree_sp; [apply (agree_const true), Fw|exact I2]. }
    specialize (G s _ M). remember (runs k s) as ws eqn:Ews. destruct ws as [|f fs]; [|exact G]. destruct G as [_ G]. split; [symmetry; exact Ews|exact G].
  Qed.

  Lemma agree_homogeneous w : Forall (fun c => nonspace c = true) w -> agree w -> homogeneous k w.
  Proof.
    unfold homogeneous. intros F. induction F as [|x w Hx F IH]; intros A; [left; constructor|].
    destruct w as [|y w]; [destruct (k x) eqn:K; [left|right]; constructor; auto|].
    destruct (IH (agree_tl _ _ A)) as [G|G].
    - left. constructor; [|exact G]. destruct A as [A _]. inversion F; subst. rewrite A by assumption. inversion G; assumption.
    - right. constructor; [|exact G]. destruct A as [A _]. inversion F; subst. rewrite A by assumption. inversion G; assumption.
  Qed.
  Lemma agree_split s : agree s -> Forall (homogeneous k) (split s).
  Proof.
    intros A. pose proof (split_MaxRuns s) as M. remember (split s) as ws eqn:E. clear E. induction M as [sep F|sep w rest ws F Nw Fw R M IH]; [constructor|].
    apply agree_app_inv in A as [_ A]. apply agree_app_inv in A as [A1 A2]. constructor; [apply agree_homogeneous; assumption|auto].
  Qed.
  Lemma split_runs s : Forall (homogeneous k) (split s) -> filter (starts_in k) (split s) = runs k s.
  Proof.
    pose proof (split_MaxRuns s) as M. remember (split s) as ws eqn:E. clear E. intros H.
    assert (SPk : forall c, nonspace c = false -> k c = false). { intros c Hc. destruct (k c) eqn:K; [|reflexivity]. apply k_nonspace in K. congruence. }
    induction M as [sep F|sep w rest ws F Nw Fw R M IH].
    - rewrite runs_non_k; [reflexivity|]. eapply Forall_impl; [|exact F]. auto.
    - inversion H as [|? ? Hw H']; subst. rewrite runs_sep by (eapply Forall_impl; [|exact F]; auto). simpl.
      destruct Hw as [Hw|Hw].
      + rewrite runs_run; [|exact Nw|exact Hw|destruct rest; [exact I|apply SPk, R]].
        destruct w as [|c w]; [congruence|]. simpl. inversion Hw as [|? ? Hc ?]; subst. rewrite Hc. f_equal. apply IH, H'.
      + rewrite runs_sep by exact Hw. destruct w as [|c w]; [congruence|]. simpl. inversion Hw as [|? ? Hc ?]; subst. rewrite Hc. apply IH, H'.
  Qed.
End Class.

Lemma runs_nonempty k s : Forall (fun f => f <> []) (runs k s).
Proof. eapply Forall_impl; [|apply runs_Forall]. intros w [N _]. exact N. Qed.
Lemma runs_avoid k j s : (forall c, k c = true -> j c = false) -> Forall (Forall (fun c => j c = false)) (runs k s).
Proof. intros D. eapply Forall_impl; [|apply runs_Forall]. intros w [_ F]. eapply Forall_impl; [|exact F]. auto. Qed.

Ltac classes := unfold re_korean, re_jaum, re_moum, nonspace, is_space; intros;
  rewrite ?negb_true_iff, ?andb_true_iff, ?orb_false_iff, ?andb_false_iff, ?N.leb_le, ?N.leb_gt, ?N.eqb_neq in *; lia.


Lemma hangul_free_class f k : (forall c, k c = true -> syllable c \/ consonant c \/ vowel c) -> hangul_free f -> Forall (fun c => k c = false) f.
Proof. intros D F. eapply Forall_impl; [|exact F]. intros c (A & B & C). destruct (k c) eqn:K; [|reflexivity]. apply D in K. tauto. Qed.

Lemma kor_ns c : re_korean c = true -> nonspace c = true. Proof. classes. Qed.
Lemma jaum_ns c : re_jaum c = true -> nonspace c = true. Proof. classes. Qed.
Lemma moum_ns c : re_moum c = true -> nonspace c = true. Proof. classes. Qed.
Lemma cls_kor c : re_korean c = true -> syllable c \/ consonant c \/ vowel c. Proof. unfold syllable, consonant, vowel. classes. Qed.
Lemma cls_jaum c : re_jaum c = true -> syllable c \/ consonant c \/ vowel c. Proof. unfold syllable, consonant, vowel. classes. Qed.
Lemma cls_moum c : re_moum c = true -> syllable c \/ consonant c \/ vowel c. Proof. unfold syllable, consonant, vowel. classes. Qed.

Section Fold.
  Variables number english : str -> list str.
  Hypothesis num_ok : forall s, Forall (fun f => f <> [] /\ hangul_free f) (number s).
  Hypothesis eng_ok : forall s, Forall (fun f => f <> [] /\ hangul_free f) (english s).

  Lemma patterns_nonempty : nonempty_matches (regex_patterns number english).
  Proof.
    repeat constructor; intros s; try apply runs_nonempty.
    - eapply Forall_impl; [|apply num_ok]. intros f [A _]; exact A.
    - eapply Forall_impl; [|apply eng_ok]. intros f [A _]; exact A.
  Qed.

  Lemma regex_class k : k = re_korean \/ k = re_jaum \/ k = re_moum -> forall s,
    let X := fold_left regex_step (regex_patterns number english) s in runs k X = runs k s /\ agree k X.
  Proof.
    intros K s. cbv zeta. unfold regex_patterns. cbn [fold_left].
    set (s1 := regex_step s number). set (s2 := regex_step s1 (runs re_korean)). set (s3 := regex_step s2 (runs re_jaum)).
    set (s4 := regex_step s3 (runs re_moum)). set (s5 := regex_step s4 english).
    pose proof patterns_nonempty as NE. unfold regex_patterns, nonempty_matches in NE.
    assert (S1 : Scan (number s) s s1) by (apply regex_step_Scan; inversion NE; auto).
    assert (S2 : Scan (runs re_korean s1) s1 s2) by apply regex_step_Scan, runs_nonempty.
    assert (S3 : Scan (runs re_jaum s2) s2 s3) by apply regex_step_Scan, runs_nonempty.
    assert (S4 : Scan (runs re_moum s3) s3 s4) by apply regex_step_Scan, runs_nonempty.
    assert (S5 : Scan (english s4) s4 s5). { apply regex_step_Scan. do 4 (inversion NE as [|? ? _ NE']; subst; clear NE; rename NE' into NE). inversion NE; auto. }
    assert (AV : forall (p : str -> list str) t, (forall s, Forall (fun f => f <> [] /\ hangul_free f) (p s)) ->
       (forall c, k c = true -> syllable c \/ consonant c \/ vowel c) -> Forall (Forall (fun c => k c = false)) (p t)).
    { intros p t P D. eapply Forall_impl; [|apply P]. intros f [_ F]. apply hangul_free_class; assumption. }
    assert (D : forall c, k c = true -> syllable c \/ consonant c \/ vowel c) by (destruct K as [->|[->| ->]]; [apply cls_kor|apply cls_jaum|apply cls_moum]).
    assert (NS : forall c, k c = true -> nonspace c = true) by (destruct K as [->|[->| ->]]; [apply kor_ns|apply jaum_ns|apply moum_ns]).
    assert (R1 : runs k s1 = runs k s) by exact (Scan_runs k NS _ _ _ S1 (AV _ _ num_ok D) []).
    assert (R5 : runs k s5 = runs k s4) by exact (Scan_runs k NS _ _ _ S5 (AV _ _ eng_ok D) []).
    destruct K as [->|[->| ->]].
    - destruct (regex_step_runs re_korean NS s1) as [R2 A2]. fold s2 in R2, A2.
      assert (R3 : runs re_korean s3 = runs re_korean s2) by (refine (Scan_runs _ NS _ _ _ S3 _ []); apply runs_avoid; classes).
      assert (R4 : runs re_korean s4 = runs re_korean s3) by (refine (Scan_runs _ NS _ _ _ S4 _ []); apply runs_avoid; classes).
      split; [congruence|]. eapply Scan_agree; [exact S5|]. eapply Scan_agree; [exact S4|]. eapply Scan_agree; [exact S3|]. exact A2.
    - assert (R2 : runs re_jaum s2 = runs re_jaum s1) by (refine (Scan_runs _ NS _ _ _ S2 _ []); apply runs_avoid; classes).
      destruct (regex_step_runs re_jaum NS s2) as [R3 A3]. fold s3 in R3, A3.
      assert (R4 : runs re_jaum s4 = runs re_jaum s3) by (refine (Scan_runs _ NS _ _ _ S4 _ []); apply runs_avoid; classes).
      split; [congruence|]. eapply Scan_agree; [exact S5|]. eapply Scan_agree; [exact S4|]. exact A3.
    - assert (R2 : runs re_moum s2 = runs re_moum s1) by (refine (Scan_runs _ NS _ _ _ S2 _ []); apply runs_avoid; classes).
      assert (R3 : runs re_moum s3 = runs re_moum s2) by (refine (Scan_runs _ NS _ _ _ S3 _ []); apply runs_avoid; classes).
      destruct (regex_step_runs re_moum NS s3) as [R4 A4]. fold s4 in R4, A4.
      split; [congruence|]. eapply Scan_agree; [exact S5|]. exact A4.
  Qed.

  Lemma regex_hangul k s : k = re_korean \/ k = re_jaum \/ k = re_moum ->
    Forall (homogeneous k) (regex_tokenize1 (regex_patterns number english) s) /\
    MaxRuns k s (filter (starts_in k) (regex_tokenize1 (regex_patterns number english) s)).
  Proof.
    intros K. rewrite regex_tokenize1_split. destruct (regex_class k K s) as [R A].
    assert (NS : forall c, k c = true -> nonspace c = true) by (destruct K as [->|[->| ->]]; [apply kor_ns|apply jaum_ns|apply moum_ns]).
    pose proof (agree_split k _ A) as H. split; [exact H|]. rewrite (split_runs k NS) by exact H. rewrite R. apply runs_MaxRuns_iff. reflexivity.
  Qed.
End Fold.
