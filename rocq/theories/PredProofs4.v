(** * Stem forms and bounds of ending scores *)
From Coq Require Import QArith Permutation Lqa Sorted.
From Verif Require Import PyBase PyDict PySort SortLemmas CountLemmas QLemmas UtilsModel UtilsSpec NounModel NounSpec NounProofs HangleModel HangleSpec LemmaModel LemmaSpec LemmaProofs LemmaProofs2 LemmaProofs3 LemmaProofs4 LemmaProofs5 LemmaProofs6 LemmaProofs7 PredModel PredSpec PredProofs.
Open Scope Z_scope.

Lemma dedup_In l x : In x (dedup l) <-> In x l.
Proof. unfold dedup. rewrite setupdate_In. cbn [In]. split; [intros [[]|H]; exact H|auto]. Qed.
Lemma setupdate_NoDup {A} `{EqB A} (l : list A) : forall s, NoDup s -> NoDup (setupdate s l).
Proof. induction l as [|x l IH]; intros s N; [exact N|]. cbn [setupdate fold_left]. apply IH, setadd_NoDup, N. Qed.
Lemma dedup_NoDup l : NoDup (dedup l).
Proof. apply setupdate_NoDup. constructor. Qed.
Lemma stem_surfaces_ok stems : Forall good_stem stems ->
  exists surf, stem_surfaces_of stems = Ok surf /\ NoDup surf /\ forall x, In x surf <-> exists p a b f, In (p ++ [syl a b f]) stems /\ jamo a b f /\ stem_surface p a b f x.
Proof.
  intros F. unfold stem_surfaces_of.
  assert (M : exists ls, mapM conjugate_stem stems = Ok ls /\ forall x, In x (concat ls) <-> exists p a b f, In (p ++ [syl a b f]) stems /\ jamo a b f /\ stem_surface p a b f x).
  { induction F as [|s stems G F (ls & E & H)]; [exists []; split; [reflexivity|]; intros x; split; [intros []|intros (p & a & b & f & [] & _)]|].
    destruct (good_stem_parts s G) as (p & a & b & f & -> & J & GG). destruct (stem_exact p a b f J GG) as (cs & C & S).
    exists (cs :: ls). split; [cbn [mapM]; rewrite C; cbn [bind]; rewrite E; reflexivity|]. intros x. cbn [concat]. rewrite in_app_iff, S, H. split.
    - intros [A|(p' & a' & b' & f' & I & J' & A)]; [exists p, a, b, f; split; [left; reflexivity|split; assumption]|exists p', a', b', f'; split; [right; exact I|split; assumption]].
    - intros (p' & a' & b' & f' & [I|I] & J' & A); [left|right; exists p', a', b', f'; split; [exact I|split; assumption]].
      apply app_inj_tail in I as [-> I]. apply syl_inj in I as (-> & -> & ->); [exact A|exact J|exact J']. }
  destruct M as (ls & E & H). exists (dedup (concat ls)). rewrite E. cbn [bind]. split; [reflexivity|]. split; [apply dedup_NoDup|]. intros x. rewrite dedup_In. apply H.
Qed.
Lemma esum_nonneg surf nouns r k fs : Forall (fun lc => 0 <= snd lc) fs -> 0 <= esum surf nouns r k fs.
Proof. intros F. apply Zsum_nonneg. intros x I. rewrite Forall_forall in F. specialize (F x I). destruct (ecls_eqb _ _); lia. Qed.
Lemma ratio_bounds p n : 0 <= p -> 0 <= n -> (p + n =? 0) = false -> (-1 <= qdiv (p - n) (p + n) <= 1)%Q.
Proof.
  intros A B C. apply Z.eqb_neq in C. unfold qdiv.
  assert (P : (0 < inject_Z (p + n))%Q) by (change 0%Q with (inject_Z 0); rewrite <- Zlt_Qlt; lia).
  split.
  - apply Qle_shift_div_l; [exact P|]. rewrite inject_Z_plus. unfold Zminus. rewrite inject_Z_plus, inject_Z_opp. assert (0 <= inject_Z p)%Q by (change 0%Q with (inject_Z 0); rewrite <- Zle_Qle; lia). lra.
  - apply Qle_shift_div_r; [exact P|]. rewrite inject_Z_plus. unfold Zminus. rewrite inject_Z_plus, inject_Z_opp. assert (0 <= inject_Z n)%Q by (change 0%Q with (inject_Z 0); rewrite <- Zle_Qle; lia). lra.
Qed.
Lemma eomi_bounds surf nouns fs r ms mnf s q : Forall (fun lc => 0 <= snd lc) fs -> Forall (fun lc => fst lc <> []) fs -> eomi_predict surf nouns fs r ms mnf = Ok (s, q) ->
  0 <= s <= Zsum snd fs /\ (-1 <= q <= 1)%Q.
Proof.
  intros F NE H. unfold eomi_predict in H. rewrite eomi_predict3_eq in H by exact NE. cbn [bind] in H.
  pose proof (esum_nonneg surf nouns r EPos fs F) as P. pose proof (esum_nonneg surf nouns r ENeg fs F) as N. pose proof (esum_nonneg surf nouns r EUnk fs F) as K.
  assert (T : esum surf nouns r EPos fs + esum surf nouns r ENeg fs + esum surf nouns r EUnk fs <= Zsum snd fs).
  { clear H P N K. unfold esum. induction F as [|[l n] fs F FF IH]; [cbn; lia|]. inversion NE; subst. cbn [Zsum fst snd] in *. specialize (IH ltac:(assumption)). destruct (ecls_b surf nouns r l); cbn [ecls_eqb]; lia. }
  set (p := esum surf nouns r EPos fs) in *. set (n := esum surf nouns r ENeg fs) in *. set (k := esum surf nouns r EUnk fs) in *.
  assert (B : (-1 <= (if p + n =? 0 then 0 else qdiv (p - n) (p + n)) <= 1)%Q) by (destruct (p + n =? 0) eqn:Z; [lra|apply ratio_bounds; assumption]).
  destruct (mnf <=? _); injection H as <- <-; [|split; [lia|lra]]. split; [destruct (Qle_bool _ _); lia|exact B].
Qed.
