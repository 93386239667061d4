(** * C73, C74: LRNounExtractor (version 1): coefficients, training, prediction, extraction *)
From Coq Require Import QArith Reals Permutation Lia Lra Lqa Sorted.
From Verif Require Import PyBase PyDict PySort SortLemmas CountLemmas QLemmas PyText PyFile UtilsModel UtilsSpec UtilsProofs UtilsProofs6 NounModel NounSpec NounProofs VectorizerSpec NounV1Model NounV1Spec NounV1Proofs NounV1Proofs2 NounV1Proofs3 NounV1Proofs4 NounV1Proofs5.
Open Scope Z_scope.

(** Loading predictor files: a right part gets the largest of the coefficients read; each file is read up to its first malformed line. *)
Theorem C73_load : forall float_of files, NoDup (dkeys (load_coef float_of files)) /\ forall r,
  match dget (load_coef float_of files) r with
  | Some q => (exists f, In f files /\ readable_entry float_of f r q) /\ forall f q', In f files -> readable_entry float_of f r q' -> (q' <= q)%Q
  | None => forall f q', In f files -> ~ readable_entry float_of f r q'
  end.
Proof. exact load_spec. Qed.
Print Assumptions C73_load.
(** "Every well-formed line counts" is false: a malformed line hides the rest of the file. *)
Definition one_float (s : str) : option Q := if eqb s (u "1.0") then Some 1%Q else None.
Theorem C73_all_lines_refuted : exists content line r q, In line (file_lines content) /\ coef_entry one_float line r q /\ dget (load_coef one_float [content]) r = None.
Proof.
  exists (u "은" ++ 10%N :: u "이" ++ 9%N :: u "1.0"), (u "이" ++ 9%N :: u "1.0"), (u "이"), 1%Q. split; [right; left; reflexivity|]. split; [|vm_compute; reflexivity].
  exists (u "1.0"). split; [vm_compute; reflexivity|]. split; [intros [H|[]]; discriminate|]. split; [intros [H|[H|[H|[]]]]; discriminate|vm_compute; reflexivity].
Qed.
Print Assumptions C73_all_lines_refuted.

(** Training fails exactly on the empty corpus. *)
Theorem C73_defined : forall c pre sents mf, (exists st, v1_train c pre sents mf = Ok st) <-> sents <> [].
Proof. exact train_ok. Qed.
Print Assumptions C73_defined.
(** The vocabulary: the frequent beginnings, up to the length limit, of the space-separated words. *)
Theorem C73_words : forall c pre sents mf st, v1_train c pre sents mf = Ok st ->
  NoDup (v_words st) /\ forall w, In w (v_words st) <-> exists n, frequent_left (v_lm c) mf (space_words pre sents) w n.
Proof.
  intros c pre sents mf st H. destruct (train_spec c pre sents mf st H) as (V & N & L & _). cbv zeta in L. split; [exact N|]. intros w. rewrite V, <- dget_keys. split.
  - destruct (dget (v_sub st) w) as [n|] eqn:D; [intros _|congruence]. exists n. apply L, D.
  - intros (n & F). apply L in F. congruence.
Qed.
Print Assumptions C73_words.
(** The graph a user can query: (l, r) is stored exactly when l is a frequent beginning and r is empty or a frequent ending, with the number of occurrences of l ++ r. *)
Theorem C73_graph : forall c pre sents mf st, v1_train c pre sents mf = Ok st -> forall l r n,
  seen_from_l (v_graph st) l r = Some n <-> graph_pair (v_lm c) (v_rm c) mf pre sents l r n.
Proof.
  intros c pre sents mf st H l r n. destruct (train_spec c pre sents mf st H) as (_ & _ & _ & _ & W & HW & U). rewrite seen_l by apply U. destruct U as (I & _ & U). rewrite U. unfold graph_pair. rewrite <- HW.
  destruct (W l r); [rewrite occ_some; tauto|]. split; [discriminate|intros [X _]; discriminate].
Qed.
Print Assumptions C73_graph.
(** Right parts as long as max_right_length are never considered. *)
Theorem C73_right_limit_refuted : exists c sents mf st l r n, v1_train c (fun s => s) sents mf = Ok st /\ 0 < n /\ mf <= n /\ occurrences (l ++ r) sents = n /\
  l <> [] /\ Z.of_nat (length l) <= v_lm c /\ Z.of_nat (length r) <= v_rm c /\ seen_from_l (v_graph st) l r = None.
Proof.
  exists (mkV1 [] 10 2 1), [u "나라에서"], 1. eexists. exists (u "나라"), (u "에서"), 1. split; [vm_compute; reflexivity|]. split; [lia|]. split; [lia|]. split; [vm_compute; reflexivity|]. split; [discriminate|]. split; [vm_compute; discriminate|]. split; [vm_compute; discriminate|]. vm_compute. reflexivity.
Qed.
Print Assumptions C73_right_limit_refuted.
(** The vocabulary is cut at spaces only, the graph at any whitespace: a frequent word after a tab is not in the vocabulary. *)
Theorem C73_whitespace_refuted : exists c sents mf st w, v1_train c (fun s => s) sents mf = Ok st /\ 0 < mf /\ mf <= occurrences w sents /\ Z.of_nat (length w) <= v_lm c /\ ~ In w (v_words st).
Proof.
  exists (mkV1 [] 10 7 1), [u "나라" ++ 9%N :: u "바다"], 1. eexists. exists (u "바다"). split; [vm_compute; reflexivity|]. split; [lia|]. split; [vm_compute; discriminate|]. split; [vm_compute; discriminate|]. intros I. cbn [v_words] in I. repeat (destruct I as [I|I]; [discriminate|]). destruct I.
Qed.
Print Assumptions C73_whitespace_refuted.

(** ** C74 *)
(** predict(word, min_noun_score, nouns): the weighted mean of the coefficients of the followers, or, when there are not more than min_num_of_features of them, the best split of the word. *)
Theorem C74_predict : forall c pre sents mf st w ms nouns, v1_train c pre sents mf = Ok st -> let v := v1_predict c (v_graph st) w ms nouns in
  exists fs, followers (v_lm c) (v_rm c) mf pre sents w fs /\
    ((v_minf c < Z.of_nat (length fs) /\ v1_score (v_coef c) w fs v) \/ (Z.of_nat (length fs) <= v_minf c /\ best_split (v_coef c) nouns ms w v)).
Proof.
  intros c pre sents mf st w ms nouns H v. pose proof (followers_features c pre sents mf st w H) as F. exists (r_features (v_graph st) w). split; [exact F|]. unfold v, v1_predict.
  destruct (Z.ltb_spec (v_minf c) (Z.of_nat (length (r_features (v_graph st) w)))) as [L|L].
  - left. split; [exact L|]. apply v1_predict_score. eapply NoDup_map_inv. apply F.
  - right. split; [exact L|]. apply subword_best.
Qed.
Print Assumptions C74_predict.
(** Without a table of nouns the score is within the range of the coefficients, and the proportion between 0 and 1. *)
Theorem C74_bounds : forall c pre sents mf st w ms lo hi, v1_train c pre sents mf = Ok st -> (forall r q, dget (v_coef c) r = Some q -> (lo <= q <= hi)%Q) -> (lo <= 0 <= hi)%Q ->
  let v := v1_predict c (v_graph st) w ms [] in (lo <= fst v <= hi)%Q /\ (0 <= snd v <= 1)%Q.
Proof.
  intros c pre sents mf st w ms lo hi H B Z0 v. destruct (v1_predict_result c pre sents mf st w ms H) as (fs & F & [[_ S]|(_ & S1 & S2)]).
  - eapply v1_score_bounds; [exact S| |exact B|exact Z0]. intros [r n] I. apply (proj2 F) in I as [_ (_ & _ & P)]. exact P.
  - fold v in S1, S2. rewrite S1, S2. split; [exact Z0|split; lra].
Qed.
Print Assumptions C74_bounds.
(** is_noun compares this score with the threshold. *)
Theorem C74_is_noun : forall c pre sents mf st w ms, v1_train c pre sents mf = Ok st ->
  v1_is_noun c (v_graph st) w ms = true <-> exists v, v1_result c mf pre sents w v /\ (ms <= fst v)%Q.
Proof.
  intros c pre sents mf st w ms H. unfold v1_is_noun. rewrite Qle_bool_iff. pose proof (v1_predict_result c pre sents mf st w (1 # 2) H) as R. split; [intros L; eexists; split; [exact R|exact L]|].
  intros (v & R' & L). destruct (v1_result_fun c mf pre sents w _ _ R R') as [-> _]. exact L.
Qed.
Print Assumptions C74_is_noun.
(** extract: the candidates of at least two characters scored at least min_noun_score, without the removals, with the occurrences no longer noun claims; the extractor is left as it was. *)
Theorem C74_extract : forall c pre sents mf st ms mf' cands, v1_train c pre sents mf = Ok st ->
  let D := snd (v1_extract c st ms mf' cands) in let C := fun w => In w (match cands with [] => v_words st | _ => cands end) in
  fst (v1_extract c st ms mf' cands) = st /\ NoDup (dkeys D) /\
  exists count, (forall x, left_count (v_lm c) mf (space_words pre sents) x (count x)) /\
    let noun := v1_noun c mf pre sents ms C in let final := fun w => noun w /\ ~ v1_removal (v_coef c) count ms noun w in
    (forall w, dget D w <> None <-> final w) /\
    forall w n s k, dget D w = Some (n, s, k) -> v1_result c mf pre sents w (s, k) /\ v1_frequency (v_lm c) (v_rm c) mf pre sents final w n.
Proof. exact extract_spec. Qed.
Print Assumptions C74_extract.
(** These descriptions are definite: there is one score, one count and one frequency. *)
Theorem C74_determined : forall c mf pre sents w, (forall v v', v1_result c mf pre sents w v -> v1_result c mf pre sents w v' -> (fst v == fst v' /\ snd v == snd v')%Q) /\
  (forall lm T x n n', left_count lm mf T x n -> left_count lm mf T x n' -> n = n') /\
  (forall noun n n', v1_frequency (v_lm c) (v_rm c) mf pre sents noun w n -> v1_frequency (v_lm c) (v_rm c) mf pre sents noun w n' -> n = n').
Proof.
  intros c mf pre sents w. split; [intros; eapply v1_result_fun; eassumption|]. split.
  - intros lm T x n n' [A|[-> A]] [B|[-> B]]; [|exfalso; exact (B _ A)|exfalso; exact (A _ B)|reflexivity]. destruct A as (_ & _ & P & _ & H), B as (_ & _ & P' & _ & H'). pose proof (how_many_fun _ _ _ _ H H'). lia.
  - intros noun n n' (rows & A & B & ->) (rows' & A' & B' & ->). rewrite !fold_right_Zsum. apply Zsum_perm. apply NoDup_perm; [eapply NoDup_map_inv; exact A|eapply NoDup_map_inv; exact A'|]. intros [r k]. rewrite B, B'. reflexivity.
Qed.
Print Assumptions C74_determined.

(** ** computation of extract with whole numbers instead of roots *)
Definition longer_cohesion_z (sub : dict str Z) (w : str) : bool := let b := dgetd sub (firstn 1 w) 0 in
  (b =? 0) || (dgetd sub (removelast w) 0 ^ Z.of_nat (length w - 1) <=? dgetd sub w 0 ^ Z.of_nat (length w - 2) * b).
Definition v1_removed_z (c : v1conf) (sub : dict str Z) (ms : Q) (nouns : dict str (Q * Q)) (word : str) : bool :=
  if N.eqb (last word 0%N) 46 || N.eqb (last word 0%N) 44 then true else
  if (length word <=? 2)%nat || longer_cohesion_z sub word then false else
  existsb (fun e => dmem nouns (firstn e word) && negb (Qle_bool (dgetd (v_coef c) (skipn e word) 0%Q) ms)) (seq 2 (length word - 2)).
Definition v1_extract_z (c : v1conf) (st : v1state) (ms : Q) (cands : list str) : v1state * dict str (Z * Q * Q) :=
  let cands := match cands with [] => v_words st | _ => cands end in
  let nouns := fold_left (fun d word => if (length word <=? 1)%nat then d else
      let score := v1_predict c (v_graph st) word 0%Q [] in
      if Qle_bool ms (fst score) then dset d word score else d) (sort (fun x y : str => (length x <=? length y)%nat) cands) [] in
  let nouns := dfilter (fun w _ => negb (v1_removed_z c (v_sub st) ms nouns w)) nouns in
  let (g, freq) := v1_frequencies (v_graph st) nouns in
  (mkV1S (reset_lrgraph g) (v_words st) (v_sub st), map (fun p => (fst p, (dgetd freq (fst p) 0, fst (snd p), snd (snd p)))) nouns).
Lemma extract_z_eq c st ms mf' cands : forallb (fun p => 0 <? snd p) (v_sub st) = true -> v1_extract c st ms mf' cands = v1_extract_z c st ms cands.
Proof.
  intros P. unfold v1_extract, v1_extract_z, v1_postprocess. cbv zeta.
  assert (PS : forall x n, dget (v_sub st) x = Some n -> 0 < n). { intros x n D. apply dget_In in D. rewrite forallb_forall in P. apply P in D. cbn [snd] in D. apply Z.ltb_lt, D. }
  assert (R : forall nouns w, v1_removed c (v_sub st) ms nouns w = v1_removed_z c (v_sub st) ms nouns w).
  { intros nouns w. unfold v1_removed, v1_removed_z. destruct (N.eqb (last w 0%N) 46 || N.eqb (last w 0%N) 44); [reflexivity|]. destruct (Nat.leb_spec (length w) 2) as [L|L]; [reflexivity|]. cbn [orb].
    replace (longer_cohesion (v_sub st) w) with (longer_cohesion_z (v_sub st) w); [reflexivity|]. apply eq_true_iff_eq. rewrite longer_cohesion_spec by (assumption || lia). unfold longer_cohesion_z, holds_together. cbv zeta. rewrite orb_true_iff, Z.eqb_eq, Z.leb_le. reflexivity. }
  match goal with |- context [dfilter (fun w _ => negb (v1_removed c (v_sub st) ms ?N w)) ?N] => replace (dfilter (fun w _ => negb (v1_removed c (v_sub st) ms N w)) N) with (dfilter (fun w _ => negb (v1_removed_z c (v_sub st) ms N w)) N) end; [reflexivity|].
  unfold dfilter. apply filter_ext. intros [w v]. cbn [fst snd]. rewrite R. reflexivity.
Qed.

Definition vx_conf : v1conf := mkV1 [(u "은", 1%Q); (u "이", (9 # 10)%Q); (u "다", (-(1))%Q)] 10 7 1.
Definition get_st (r : res v1state) : v1state := match r with Ok s => s | Err _ => mkV1S (mkLrg [] [] None 10 9) [] [] end.
Definition vx_sents : list str := [u "나라은 나라이 바다은 바다이"; u "나라바다"].
Definition vx_st : v1state := get_st (v1_train vx_conf (fun s => s) vx_sents 1).
Lemma vx_train : v1_train vx_conf (fun s => s) vx_sents 1 = Ok vx_st.
Proof. vm_compute. reflexivity. Qed.
Definition reduced (d : dict str (Z * Q * Q)) : dict str (Z * Q * Q) := map (fun p => (fst p, (fst (fst (snd p)), Qred (snd (fst (snd p))), Qred (snd (snd p))))) d.
Example vx_extract : reduced (snd (v1_extract vx_conf vx_st (1 # 2) 1 [])) = [(u "나라", (3, (19 # 20)%Q, (2 # 3)%Q)); (u "바다", (2, (19 # 20)%Q, 1%Q))].
Proof. rewrite extract_z_eq by (vm_compute; reflexivity). vm_compute. reflexivity. Qed.
(** the hypotheses of the theorems are met, and the description of the result is not empty *)
Example vx_final : exists n s k, dget (snd (v1_extract vx_conf vx_st (1 # 2) 1 [])) (u "나라") = Some (n, s, k) /\ v1_result vx_conf 1 (fun s => s) vx_sents (u "나라") (s, k) /\ (s == 19 # 20)%Q.
Proof.
  destruct (C74_extract vx_conf (fun s => s) vx_sents 1 vx_st (1 # 2) 1 [] vx_train) as (_ & _ & count & _ & _ & R).
  assert (D : exists n s k, dget (snd (v1_extract vx_conf vx_st (1 # 2) 1 [])) (u "나라") = Some (n, s, k) /\ (s == 19 # 20)%Q) by (rewrite extract_z_eq by (vm_compute; reflexivity); eexists; eexists; eexists; split; vm_compute; reflexivity).
  destruct D as (n & s & k & D & E). exists n, s, k. split; [exact D|]. split; [exact (proj1 (R _ _ _ _ D))|exact E].
Qed.
(** Compounds are never found: the table of nouns found so far is handed to the wrong parameter. The word below is in the vocabulary, consists of two extracted nouns,
    and predict scores it above the threshold when given their table. *)
Theorem C74_compound_refuted : exists c sents mf st ms w a b va vb, v1_train c (fun s => s) sents mf = Ok st /\ In w (v_words st) /\ w = a ++ b /\
  dget (snd (v1_extract c st ms mf [])) a = Some va /\ dget (snd (v1_extract c st ms mf [])) b = Some vb /\
  (ms <= fst (v1_predict c (v_graph st) w ms [(a, (snd (fst va), snd va)); (b, (snd (fst vb), snd vb))]))%Q /\ dget (snd (v1_extract c st ms mf [])) w = None.
Proof.
  exists vx_conf, vx_sents, 1, vx_st, (1 # 2), (u "나라바다"), (u "나라"), (u "바다"). eexists. eexists. rewrite extract_z_eq by (vm_compute; reflexivity).
  split; [exact vx_train|]. split; [apply (proj1 (mem_In _ _)); vm_compute; reflexivity|]. split; [reflexivity|]. split; [vm_compute; reflexivity|]. split; [vm_compute; reflexivity|]. split; [apply Qle_bool_iff; vm_compute; reflexivity|vm_compute; reflexivity].
Qed.
Print Assumptions C74_compound_refuted.
(** min_noun_frequency does not bound the reported frequencies. *)
Definition vy_sents : list str := [u "나라은 나라이 나라님은 나라님은 나라님이 나라님이"].
Definition vy_st : v1state := get_st (v1_train vx_conf (fun s => s) vy_sents 3).
Theorem C74_frequency_refuted : exists c sents ms mf st D w n s k, v1_train_extract c (fun s => s) sents ms mf [] = Ok (st, D) /\ dget D w = Some (n, s, k) /\ n < mf.
Proof.
  exists vx_conf, vy_sents, (1 # 2), 3, vy_st, (snd (v1_extract vx_conf vy_st (1 # 2) 3 [])), (u "나라"). 
  assert (E : v1_train_extract vx_conf (fun s => s) vy_sents (1 # 2) 3 [] = Ok (v1_extract vx_conf vy_st (1 # 2) 3 [])).
  { unfold v1_train_extract. replace (v1_train vx_conf (fun s => s) vy_sents 3) with (Ok vy_st) by (vm_compute; reflexivity). reflexivity. }
  rewrite E. rewrite extract_z_eq by (vm_compute; reflexivity). eexists. eexists. eexists. split; [reflexivity|split; [vm_compute; reflexivity|lia]].
Qed.
Print Assumptions C74_frequency_refuted.
