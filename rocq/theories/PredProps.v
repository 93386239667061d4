(** * C57: extraction of endings (EomiExtractor) *)
From Coq Require Import QArith Permutation Lqa Sorted.
From Verif Require Import PyBase PyDict PySort SortLemmas CountLemmas QLemmas UtilsModel UtilsSpec UtilsProofs6 NounModel NounSpec NounProofs NounProofs2 VectorizerSpec HangleModel HangleSpec LemmaModel LemmaSpec PredModel PredSpec PredProofs PredProofs2 PredProofs3 PredProofs4.
Open Scope Z_scope.

(** ** predict: every left part has exactly one role; the score is (pos - neg) / (pos + neg) (0 without any), the frequency
    pos + unknown when the score reaches the threshold and neg + unknown otherwise; (0, 0) with too few stem forms *)
Theorem C57_roles : forall surf nouns r l, exists! k, eclass surf nouns r l k.
Proof. intros surf nouns r l. exists (ecls_b surf nouns r l). split; [apply ecls_b_spec; reflexivity|]. intros k H. apply ecls_b_spec, H. Qed.
Theorem C57_predict_exact : forall surf nouns r fs ms mnf, Forall (fun lc => fst lc <> []) fs ->
  exists ks n, Forall2 (eclass surf nouns r) (map fst fs) ks /\ how_many (fun l => In l surf /\ ~ stem_goes_on surf l r) (map fst fs) n /\
  let pos := eweight ks fs EPos in let neg := eweight ks fs ENeg in let unk := eweight ks fs EUnk in
  let score := if pos + neg =? 0 then 0%Q else (inject_Z (pos - neg) / inject_Z (pos + neg))%Q in
  eomi_predict surf nouns fs r ms mnf = Ok (if Z.of_nat n <? mnf then (0, 0%Q) else if Qle_bool ms score then (pos + unk, score) else (neg + unk, score)).
Proof.
  intros surf nouns r fs ms mnf F. exists (map (fun lc : str * Z => ecls_b surf nouns r (fst lc)) fs), (length (eomi_refine surf r fs)). split; [apply eclasses_exist|]. split.
  - replace (length (eomi_refine surf r fs)) with (length (filter (fun l => mem l surf && negb (eomi_longer surf l r)) (map fst fs))).
    + apply how_many_filter. intros l. rewrite andb_true_iff, negb_true_iff, mem_In, eomi_longer_false. reflexivity.
    + unfold eomi_refine. clear F. induction fs as [|[l n] fs IH]; [reflexivity|]. cbn [map filter fst]. destruct (mem l surf && negb (eomi_longer surf l r)); cbn [length]; rewrite IH; reflexivity.
  - cbv zeta. rewrite !(eweight_esum surf nouns r fs) by apply eclasses_exist. unfold eomi_predict. rewrite eomi_predict3_eq by exact F. cbn [bind]. unfold qdiv.
    destruct (Z.leb_spec mnf (Z.of_nat (length (eomi_refine surf r fs)))) as [A|A]; destruct (Z.ltb_spec (Z.of_nat (length (eomi_refine surf r fs))) mnf) as [B|B]; try lia; [|reflexivity].
    destruct (Qle_bool ms _); reflexivity.
Qed.
Print Assumptions C57_predict_exact.
Theorem C57_bounds : forall surf nouns fs r ms mnf s q, Forall (fun lc => 0 <= snd lc) fs -> Forall (fun lc => fst lc <> []) fs -> eomi_predict surf nouns fs r ms mnf = Ok (s, q) ->
  0 <= s <= Zsum snd fs /\ (-1 <= q <= 1)%Q.
Proof. exact eomi_bounds. Qed.
(** ** the surface forms are those of C53 for all the stems *)
Theorem C57_stem_forms : forall stems, Forall good_stem stems ->
  exists surf, stem_surfaces_of stems = Ok surf /\ NoDup surf /\ forall x, In x surf <-> exists p a b f, In (p ++ [syl a b f]) stems /\ jamo a b f /\ stem_surface p a b f x.
Proof. exact stem_surfaces_ok. Qed.
(** ** extract: there is exactly one table of scores in which every right part of a stem form is predicted from the eojeols that no longer
    accepted ending has taken. The endings returned are the canonical forms of the accepted ones; the frequency is the sum of the counts
    of the contributing analyses and the score their mean, weighted by the counts. The graph is as before. *)
Theorem C57_extract : forall stems nouns mnf ec lm rm cond ms mf reset surf,
  NoDup (map fst (ec_counter ec)) -> (forall e n, dget (ec_counter ec) e = Some n -> 0 < n) -> 1 < lm -> 0 < rm -> stem_surfaces_of stems = Ok surf ->
  exists g S D, to_lrgraph ec lm rm false = Ok g /\ ending_scores surf nouns cond ms mnf lm rm (ec_counter ec) S /\
  eomi_extract stems nouns mnf g cond ms mf reset = Ok (g, D) /\ NoDup (dkeys D) /\
  forall e, exists xs, NoDup xs /\ (forall x, In x xs <-> contributes stems S ms lm rm (ec_counter ec) e x) /\
    let total := Qsum (map c_count xs) in
    match dget D e with
    | Some (freq, score) => xs <> [] /\ (freq == total)%Q /\ (score * total == Qsum (map (fun x => c_count x * c_score x)%Q xs))%Q /\ (inject_Z mf <= total)%Q /\ (ms <= score)%Q
    | None => xs = [] \/ (total < inject_Z mf)%Q
    end.
Proof.
  intros stems nouns mnf ec lm rm cond ms mf reset surf N POS L R SS. destruct (trained_uni ec lm rm N L R) as (g & E & _).
  destruct (eomi_extract_all stems surf nouns mnf ec lm rm cond ms mf reset g N POS L R E SS) as (S & D & ES & X & ND & C). exists g, S, D.
  split; [exact E|]. split; [exact ES|]. split; [exact X|]. split; [exact ND|]. intros e. destruct (C e) as (xs & A & B & M). exists xs. split; [exact A|]. split; [exact B|].
  cbv zeta. destruct (dget D e) as [[fr sc]|]; exact M.
Qed.
Print Assumptions C57_extract.
Theorem C57_scores_unique : forall surf surf' nouns nouns' cond lm rm ms mnf f S S', 0 < lm -> (forall x, In x surf <-> In x surf') -> (forall x, In x nouns <-> In x nouns') ->
  ending_scores surf nouns cond ms mnf lm rm f S -> ending_scores surf' nouns' cond ms mnf lm rm f S' -> forall r, dget S r = dget S' r.
Proof. exact ending_scores_unique. Qed.
(** the score threshold is applied to the surfaces; the mean of scores that reach it reaches it, and none exceeds 1 *)
Theorem C57_result_bounds : forall stems nouns mnf ec lm rm cond ms mf reset surf g D e freq score,
  NoDup (map fst (ec_counter ec)) -> (forall e n, dget (ec_counter ec) e = Some n -> 0 < n) -> 1 < lm -> 0 < rm -> stem_surfaces_of stems = Ok surf ->
  to_lrgraph ec lm rm false = Ok g -> eomi_extract stems nouns mnf g cond ms mf reset = Ok (g, D) -> dget D e = Some (freq, score) ->
  (0 < freq)%Q /\ (inject_Z mf <= freq)%Q /\ (ms <= score <= 1)%Q.
Proof.
  intros stems nouns mnf ec lm rm cond ms mf reset surf g D e freq score N POS L R SS E X DE.
  destruct (eomi_extract_all stems surf nouns mnf ec lm rm cond ms mf reset g N POS L R E SS) as (S & D' & ES & X' & ND & C).
  assert (D' = D) by congruence. subst D'. destruct (C e) as (xs & _ & B & M). rewrite DE in M. destruct M as (NE & F & W & MF & Q). cbn [fst snd] in *.
  assert (CP : forall x, In x xs -> (0 < c_count x)%Q /\ (c_score x <= 1)%Q).
  { intros [[[[r l] s] n] q] I. apply B in I as ((c & I) & _ & _ & _ & J & _). split; [unfold c_count; cbn [fst snd]; change 0%Q with (inject_Z 0); rewrite <- Zlt_Qlt; exact (POS _ _ J)|].
    destruct ES as (_ & _ & SC). destruct (SC r (c, q) I) as (fs & _ & HF & P). apply eomi_bounds in P; [apply P| |]; apply Forall_forall; intros [l' n'] I'; apply HF in I' as (_ & (A1 & _) & A2 & _); cbn [fst snd]; [specialize (POS _ _ A2); lia|exact A1]. }
  assert (TP : (0 < total _ c_count xs)%Q).
  { destruct xs as [|x xs]; [congruence|]. unfold total. cbn [map]. assert (Y : forall ys, (forall x, In x ys -> (0 < c_count x)%Q) -> (0 <= Qsum (map c_count ys))%Q).
    { induction ys as [|y ys IH]; intros H; [cbn; lra|]. cbn [map]. change (Qsum (c_count y :: map c_count ys)) with (c_count y + Qsum (map c_count ys))%Q. specialize (H y (or_introl eq_refl)) as H1. assert (0 <= Qsum (map c_count ys))%Q by (apply IH; intros z I; apply H; right; exact I). lra. }
    change (Qsum (c_count x :: map c_count xs)) with (c_count x + Qsum (map c_count xs))%Q. destruct (CP x (or_introl eq_refl)) as [H1 _]. assert (0 <= Qsum (map c_count xs))%Q by (apply Y; intros z I; apply CP; right; exact I). lra. }
  split; [rewrite F; exact TP|]. split; [rewrite F; exact MF|]. split; [exact Q|]. apply (Qmult_le_r score 1 (total _ c_count xs) TP). rewrite W. rewrite Qmult_1_l. rewrite <- (Qmult_1_l (total _ c_count xs)). apply mean_le, CP.
Qed.
Print Assumptions C57_result_bounds.

(** examples: with two stems and the default-like thresholds *)
Definition ex_ec : ecounter := mkCounter [(u "먹는다", 5); (u "잡는다", 3); (u "먹고", 2); (u "살는다", 1); (u "갔다", 4)].
Definition ex_stems : list str := [u "먹"; u "잡"; u "가"].
Example C57_ex : exists g S, to_lrgraph ex_ec 10 9 false = Ok g /\ Forall good_stem ex_stems /\ stem_surfaces_of ex_stems = Ok S /\
  eomi_predict S [] (get_l g (u "는다") (-1)) (u "는다") (3 # 10) 2 = Ok (8, (7 # 9)%Q) /\
  exists g' D, eomi_extract ex_stems [] 1 g None (3 # 10) 1 true = Ok (g', D) /\ dkeys D = [u "는다"; u "고"; u "ㅆ다"].
Proof.
  eexists. eexists. split; [vm_compute; reflexivity|]. split.
  { repeat constructor; (eexists; eexists; split; [apply (app_removelast_last 0%N); discriminate|]); (split; [vm_compute; split; discriminate|]); vm_compute; discriminate. }
  split; [vm_compute; reflexivity|]. split; [vm_compute; reflexivity|]. eexists. eexists. split; vm_compute; reflexivity.
Qed.
