(** * C72: PredicatorExtractor: construction, training, learning of endings and stems *)
From Coq Require Import QArith Reals Permutation.
From Verif Require Import PyBase PyDict PySort CountLemmas PyText PyFile UtilsModel UtilsSpec UtilsProofs4 UtilsProps HangleModel HangleSpec LemmaModel LemmaSpec LemmaProofs NounModel NounSpec NounProofs NounProofs2 WordModel VectorizerSpec PredModel PredSpec PredSpec2 PredSpec3 PredProofs4 PredProofs6 PredProofs10 PredProps PredProps2 PredProps3.
Open Scope Z_scope.

(** ** construction: the stems are those of both dictionaries; a noun is dropped if a stem is the noun and one more character, or the noun and
    two more characters of which the first does not make another noun *)
Theorem C72_construction : forall nouns josas adj verb eomis, let c := pred_new nouns josas adj verb eomis in
  p_josas c = josas /\ p_adj c = adj /\ p_verb c = verb /\ p_eomis c = eomis /\ NoDup (p_stems c) /\ NoDup (p_nouns c) /\ (forall s, In s (p_stems c) <-> In s adj \/ In s verb) /\
  forall n, n <> [] -> (In n (p_nouns c) <-> In n nouns /\ ~ exists s, (In s adj \/ In s verb) /\ ((exists x, s = n ++ [x]) \/ (exists x y, s = n ++ [x; y] /\ ~ In (n ++ [x]) nouns))).
Proof.
  intros nouns josas adj verb eomis. unfold pred_new. cbv zeta. cbn [p_josas p_adj p_verb p_eomis p_stems p_nouns]. repeat (split; [reflexivity|]). split; [apply dedup_NoDup|]. split; [apply dedup_NoDup|].
  assert (ST : forall s, In s (dedup (adj ++ verb)) <-> In s adj \/ In s verb) by (intros s; rewrite dedup_In, in_app_iff; reflexivity). split; [exact ST|].
  intros n NE. unfold remove_stem_prefix. rewrite dedup_In, filter_In, negb_true_iff, mem_In_false.
  assert (R : In n (concat (map (fun s => match parse_noun nouns s with Some n => [n] | None => [] end) (dedup (adj ++ verb)))) <-> exists s, (In s adj \/ In s verb) /\ parse_noun nouns s = Some n).
  { rewrite in_concat. split.
    - intros (l & I & J). apply in_map_iff in I as (s & <- & I). apply ST in I. exists s. split; [exact I|]. destruct (parse_noun nouns s); [destruct J as [<-|[]]; reflexivity|destruct J].
    - intros (s & I & P). exists [n]. split; [|left; reflexivity]. apply in_map_iff. exists s. rewrite P. split; [reflexivity|]. apply ST, I. }
  rewrite R. split; intros [I H]; (split; [exact I|]); intros (s & IS & X); apply H; exists s; (split; [exact IS|]); unfold parse_noun in *.
  - destruct X as [(x & ->)|(x & y & -> & NI)].
    + rewrite removelast_last. apply mem_In in I. rewrite I. reflexivity.
    + replace (removelast (n ++ [x; y])) with (n ++ [x]) by (change [x; y] with ([x] ++ [y]); rewrite app_assoc, removelast_last; reflexivity). apply mem_In_false in NI. rewrite NI.
      replace (but_last_two (n ++ [x; y])) with n. { apply mem_In in I. rewrite I. reflexivity. }
      unfold but_last_two. rewrite app_length. cbn [length]. replace (length n + 2 - 2)%nat with (length n) by lia. rewrite firstn_app, firstn_all, Nat.sub_diag. cbn [firstn]. rewrite app_nil_r. reflexivity.
  - destruct (mem (removelast s) nouns) eqn:M.
    + injection X as <-. left. destruct s as [|z s] using rev_ind; [cbn in NE; congruence|]. rewrite removelast_last. exists z. reflexivity.
    + destruct (mem (but_last_two s) nouns) eqn:M2; [|discriminate]. injection X as <-. right. apply mem_In_false in M. unfold but_last_two in *.
      destruct s as [|z s _] using rev_ind; [cbn in NE; congruence|]. rewrite removelast_last in M. destruct s as [|y s _] using rev_ind; [cbn in NE; congruence|].
      assert (E : firstn (length ((s ++ [y]) ++ [z]) - 2) ((s ++ [y]) ++ [z]) = s). { rewrite <- app_assoc. cbn [app]. rewrite app_length. cbn [length]. replace (length s + 2 - 2)%nat with (length s) by lia. rewrite firstn_app, firstn_all, Nat.sub_diag. cbn [firstn]. apply app_nil_r. }
      rewrite E in *. exists y, z. split; [rewrite <- app_assoc; reflexivity|exact M].
Qed.
Print Assumptions C72_construction.
(** a shorter noun of the same stem is kept: both 사랑 and 사랑스 are nouns and 사랑스럽 is a stem *)
Theorem C72_construction_refuted : exists nouns adj n x y, In n nouns /\ In (n ++ [x; y]) adj /\ In n (p_nouns (pred_new nouns [] adj [] [])).
Proof. exists [u "사랑"; u "사랑스"], [u "사랑스럽"], (u "사랑"), ("스"%ch), ("럽"%ch). split; [left; reflexivity|]. split; [left; reflexivity|]. apply mem_In. vm_compute. reflexivity. Qed.
(** the frequency lists that come with the package: exactly the words with at least the minimal frequency *)
Theorem C72_dictionary : forall ls mf ws, load_frequent ls mf = Ok ws -> forall w, In w ws <-> exists line n k, In line ls /\ split line = [w; n] /\ parse_int n = Ok k /\ mf <= k.
Proof.
  induction ls as [|line ls IH]; intros mf ws E w; cbn [load_frequent] in E.
  - injection E as <-. split; [intros []|intros (l & n & k & [] & _)].
  - destruct (split line) as [|a [|b [|]]] eqn:S; try discriminate. destruct (parse_int b) as [k|] eqn:P; [|discriminate]. cbn [bind] in E. destruct (load_frequent ls mf) as [r|] eqn:L; [|discriminate]. cbn [bind] in E. specialize (IH mf r L w).
    assert (X : In w ws <-> (w = a /\ mf <= k) \/ In w r). { destruct (Z.ltb_spec k mf) as [K|K]; injection E as <-; cbn [In]; split; intros H; [right; exact H|destruct H as [[_ H]|H]; [lia|exact H]|destruct H as [<-|H]; [left; split; [reflexivity|exact K]|right; exact H]|destruct H as [[-> _]|H]; [left; reflexivity|right; exact H]]. }
    rewrite X, IH. split.
    + intros [[-> K]|(l & n & k' & I & H)]; [exists line, b, k; split; [left; reflexivity|]; split; [exact S|]; split; [exact P|exact K]|exists l, n, k'; split; [right; exact I|exact H]].
    + intros (l & n & k' & [<-|I] & H1 & H2 & H3); [left; rewrite S in H1; injection H1 as <- <-; rewrite P in H2; injection H2 as <-; split; [reflexivity|exact H3]|right; exists l, n, k'; split; [exact I|split; [exact H1|split; assumption]]].
Qed.
(** ** training *)
Theorem C72_train_counter : forall ec mf w n, NoDup (map fst (ec_counter ec)) -> (dget (pred_train_counter ec mf) w = Some n <-> dget (ec_counter ec) w = Some n /\ mf <= n).
Proof.
  intros ec mf w n ND. unfold pred_train_counter, train_eojeols. rewrite dget_dfilter by exact ND. destruct (dget (ec_counter ec) w) as [k|]; [|split; [discriminate|intros [H _]; discriminate]].
  destruct (Z.geb_spec k mf) as [G|G]; split; intros H; try discriminate; [injection H as <-; split; [reflexivity|lia]|exact (proj1 H)|destruct H as [H ?]; injection H as <-; lia].
Qed.
(** sentences: the exact counts of the eojeols of at most 15 characters that occur at least min_eojeol_frequency times, and at least twice *)
Theorem C72_train_sentences : forall norm en sents mf w, sents <> [] -> exists d, pred_train_sents norm en sents mf = Ok d /\ NoDup (dkeys d) /\
  let n := occurrences w (map (if en then fun x => x else norm) sents) in
  dget d w = if (Z.of_nat (length w) <=? 15) && (Z.max 2 mf <=? n) then Some n else None.
Proof.
  intros norm en sents mf w NE. set (pre := if en then fun x => x else norm).
  destruct (C33_exact_without_filtering pre mf 15 0 sents w NE (or_intror (Z.le_refl 0))) as (c & E & G & _ & ND & F).
  exists (train_eojeols (ec_counter c) 2). unfold pred_train_sents. fold pre. rewrite E. cbn [bind]. split; [reflexivity|]. unfold train_eojeols. split; [apply (NoDup_filter_map (K:=str)); exact ND|].
  cbv zeta. fold pre. set (n := occurrences w (map pre sents)) in *. rewrite dget_dfilter by exact ND. unfold ec_get, dgetd in G. destruct (dget (ec_counter c) w) as [k|] eqn:D.
  - apply dget_In in D. rewrite Forall_forall in F. specialize (F _ D). cbn [snd] in F. destruct (Z.of_nat (length w) <=? 15); cbn [andb] in *; [|lia]. destruct (Z.leb_spec mf n) as [A|A]; [|lia]. subst k.
    destruct (Z.geb_spec n 2); destruct (Z.leb_spec (Z.max 2 mf) n); try lia; reflexivity.
  - destruct (Z.of_nat (length w) <=? 15); cbn [andb] in *; [|reflexivity]. destruct (Z.leb_spec mf n) as [A|A]; destruct (Z.leb_spec (Z.max 2 mf) n) as [B|B]; try reflexivity; exfalso; lia.
Qed.
Print Assumptions C72_train_sentences.
(** min_eojeol_frequency = 1 has no effect on sentences *)
Theorem C72_minimum_one_refuted : exists sents w, occurrences w sents = 1 /\ exists d, pred_train_sents (fun x => x) true sents 1 = Ok d /\ dget d w = None.
Proof. exists [u "먹다 잡다 먹다"], (u "잡다"). split; [vm_compute; reflexivity|]. eexists. split; vm_compute; reflexivity. Qed.
(** ** learning: endings, then stems, from the graph of the eojeols without nouns *)
Lemma contains_noun_spec nouns e : (1 <? length e)%nat && negb (contains_noun nouns e) = true <-> without_noun nouns e.
Proof.
  rewrite andb_true_iff, negb_true_iff, Nat.ltb_lt. unfold without_noun, contains_noun. split.
  - intros [A B]. split; [lia|]. intros a b -> L I. assert (X : existsb (fun i => mem (firstn i (a ++ b)) nouns) (seq 2 (length (a ++ b) - 1)) = true); [|congruence].
    apply existsb_exists. exists (length a). split; [apply in_seq; rewrite app_length; lia|]. rewrite firstn_app, firstn_all, Nat.sub_diag. cbn [firstn]. rewrite app_nil_r. apply mem_In, I.
  - intros [A B]. split; [lia|]. destruct (existsb _ _) eqn:E; [|reflexivity]. exfalso. apply existsb_exists in E as (i & I & M). apply in_seq in I. apply mem_In in M. refine (B (firstn i e) (skipn i e) _ _ M); [symmetry; apply firstn_skipn|]. rewrite firstn_length. lia.
Qed.
Theorem C72_learn : forall c counter ee es mnf ems emf mc me sms smf, NoDup (dkeys counter) -> (forall w n, dget counter w = Some n -> 0 < n) -> Forall good_stem (p_stems c) -> (0 < sms)%Q -> ee = true \/ es = true ->
  exists f g D c1 S c2,
  NoDup (dkeys f) /\ (forall w n, dget f w = Some n <-> dget counter w = Some n /\ without_noun (p_nouns c) w) /\
  to_lrgraph (mkCounter f) 10 9 false = Ok g /\
  eomi_extract (p_stems c) (p_nouns c) mnf g None ems emf true = Ok (g, D) /\
  (c1 = if ee then add_eomis c (dkeys D) else c) /\
  stem_extract (stem_new g (p_stems c) (p_eomis c1) mc me) g [] sms smf = Ok S /\
  (c2 = if es then add_stems c1 (dkeys S) else c1) /\
  pred_learn c counter ee es mnf ems emf mc me sms smf = Ok c2 /\
  (forall m, In m (p_eomis c2) <-> In m (p_eomis c) \/ ee = true /\ dget D m <> None) /\ (forall s, In s (p_stems c2) <-> In s (p_stems c) \/ es = true /\ dget S s <> None) /\
  p_nouns c2 = p_nouns c /\ p_josas c2 = p_josas c /\ p_adj c2 = p_adj c /\ p_verb c2 = p_verb c.
Proof.
  intros c counter ee es mnf ems emf mc me sms smf ND POS GS MS FL.
  set (f := dfilter (fun e _ => (1 <? length e)%nat && negb (contains_noun (p_nouns c) e)) counter : dict str Z).
  assert (NF : NoDup (dkeys f)) by (apply (NoDup_filter_map (K:=str)); exact ND).
  assert (GF : forall w n, dget f w = Some n <-> dget counter w = Some n /\ without_noun (p_nouns c) w).
  { intros w n. unfold f. rewrite dget_dfilter by exact ND. destruct (dget counter w) as [k|]; [|split; [discriminate|intros [H _]; discriminate]].
    destruct ((1 <? length w)%nat && negb (contains_noun (p_nouns c) w)) eqn:E.
    - apply contains_noun_spec in E. split; [intros H; split; [exact H|exact E]|intros [H _]; exact H].
    - split; [discriminate|]. intros [_ H]. apply contains_noun_spec in H. congruence. }
  assert (PF : forall e n, dget (ec_counter (mkCounter f)) e = Some n -> 0 < n) by (intros e n D; apply GF in D as [D _]; exact (POS e n D)).
  destruct (C57_stem_forms (p_stems c) GS) as (surf & ES & _).
  destruct (C57_extract (p_stems c) (p_nouns c) mnf (mkCounter f) 10 9 None ems emf true surf NF PF eq_refl eq_refl ES) as (g & SS & D & EG & _ & EX & ND' & _).
  set (c1 := if ee then add_eomis c (dkeys D) else c).
  destruct (C69_extract (mkCounter f) 10 9 g (p_stems c) (p_eomis c1) mc me [] sms smf NF PF eq_refl eq_refl EG MS) as (ex & S & XS & NS & _).
  set (c2 := if es then add_stems c1 (dkeys S) else c1). exists f, g, D, c1, S, c2. repeat (split; [first [exact NF|exact GF|exact EG|exact EX|reflexivity|exact XS]|]).
  assert (ST1 : p_stems c1 = p_stems c) by (unfold c1; destruct ee; reflexivity).
  split; [|split; [|split; [|unfold c2, c1; destruct es, ee; auto]]].
  - unfold pred_learn. replace (ee || es) with true by (destruct FL as [-> | ->]; [reflexivity|symmetry; apply orb_true_r]). unfold predicator_graph. fold f. rewrite EG. cbn [bind].
    assert (E1 : (if ee then pred_extract_eomi c g mnf ems emf else Ok c) = Ok c1). { unfold c1, pred_extract_eomi. destruct ee; [|reflexivity]. rewrite EX. reflexivity. }
    rewrite E1. cbn [bind]. unfold c2, pred_extract_stem. rewrite ST1. destruct es; [|reflexivity]. rewrite XS. reflexivity.
  - intros m. replace (p_eomis c2) with (p_eomis c1) by (unfold c2; destruct es; reflexivity). unfold c1. destruct ee; cbn [p_eomis add_eomis].
    + rewrite setupdate_In, <- dget_keys. split; [intros [H|H]; [left; exact H|right; split; [reflexivity|exact H]]|intros [H|[_ H]]; [left; exact H|right; exact H]].
    + split; [left; assumption|]. intros [H|[H _]]; [exact H|discriminate].
  - intros s. unfold c2. destruct es; cbn [p_stems add_stems]; rewrite ?setupdate_In, ST1, <- ?dget_keys.
    + split; [intros [H|H]; [left; exact H|right; split; [reflexivity|exact H]]|intros [H|[_ H]]; [left; exact H|right; exact H]].
    + split; [left; assumption|]. intros [H|[H _]]; [exact H|discriminate].
Qed.
Print Assumptions C72_learn.
Theorem C72_learn_nothing : forall c counter mnf ems emf mc me sms smf, pred_learn c counter false false mnf ems emf mc me sms smf = Ok c.
Proof. reflexivity. Qed.
Example C72_ex : forall mc me, exists c', pred_learn (pred_new [u "사람"] [] [] [u "먹"; u "잡"] [u "고"]) [(u "먹는다", 5); (u "잡는다", 3); (u "사람이다", 4); (u "먹고", 2)] true false 1 (3 # 10) 1 mc me (7 # 10) 100 = Ok c' /\ p_eomis c' = [u "고"; u "는다"] /\
  Forall good_stem [u "먹"; u "잡"].
Proof.
  intros mc me. eexists. split; [vm_compute; reflexivity|]. split; [vm_compute; reflexivity|].
  repeat constructor; (eexists; eexists; split; [apply (app_removelast_last 0%N); discriminate|]); (split; [vm_compute; split; discriminate|]); vm_compute; discriminate.
Qed.
