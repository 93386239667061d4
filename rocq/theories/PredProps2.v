(** * C69: extraction of stems (StemExtractor) *)
From Coq Require Import QArith Reals Permutation Lqa.
From Verif Require Import PyBase PyDict PySort SortLemmas CountLemmas QLemmas UtilsModel UtilsSpec NounModel NounSpec NounProofs NounProofs2 WordModel WordSpec WordProofs4 JosaModel VectorizerSpec HangleModel LemmaModel LemmaSpec PredModel PredSpec PredSpec2 PredProofs PredProofs2 PredProofs3 PredProofs4 PredProofs5 PredProofs6 PredProofs7.
Open Scope Z_scope.

(** ** the tables of known left and right parts *)
Theorem C69_tables : forall ec lm rm g stems eomis mc me, NoDup (map fst (ec_counter ec)) -> (forall e n, dget (ec_counter ec) e = Some n -> 0 < n) -> 1 < lm -> 0 < rm -> to_lrgraph ec lm rm false = Ok g ->
  let c := stem_new g stems eomis mc me in
  NoDup (st_L c) /\ NoDup (st_R c) /\ ~ In [] (st_R c) /\
  (forall l, In l (st_L c) <-> exists r, known_pair stems eomis lm rm (ec_counter ec) l r) /\ (forall r, In r (st_R c) <-> exists l, known_pair stems eomis lm rm (ec_counter ec) l r).
Proof.
  intros ec lm rm g stems eomis mc me N POS L R E c. destruct (stem_tables_spec ec lm rm g stems eomis N POS L R E) as (A & B & C & D).
  split; [exact A|]. split; [exact B|]. split; [|split; [exact C|exact D]]. intros I. apply D in I as (l & stem & eomi & ws & _ & _ & _ & _ & _ & NE & _). congruence.
Qed.
Print Assumptions C69_tables.

(** ** predict: every right part has exactly one role, and the result follows from the weights of the roles, the number of different first
    characters of the right parts and the entropy of the unambiguous known ones *)
Theorem C69_roles : forall L R l r, exists! k, sclass L R l r k.
Proof.
  intros L R l r. set (c := mkSconf L R [] 0 0%R). exists (scls_b c l r). split; [apply (scls_b_spec c l r); reflexivity|].
  intros k H. apply (scls_b_spec c l r), H.
Qed.
Theorem C69_predict_exact : forall c l fs ms mf, NoDup (map fst fs) -> Forall (fun rc => 0 < snd rc) fs ->
  exists ks us cs, Forall2 (sclass (st_L c) (st_R c) l) (map fst fs) ks /\
  (NoDup us /\ forall r n, In (r, n) us <-> In (r, n) fs /\ unambiguous (st_L c) (st_R c) l r) /\
  (NoDup cs /\ forall x, In x cs <-> first_char fs x) /\
  let pos := sweight ks fs SPos in let neg := sweight ks fs SNeg in let unk := sweight ks fs SUnk in
  let score := if pos + neg =? 0 then 0%Q else (inject_Z (pos - neg) / inject_Z (pos + neg))%Q in
  let freq := if Qle_bool ms score then pos else neg + unk in
  let few := Z.of_nat (length cs) < st_min_char c \/ (shannon (map snd us) < st_min_entropy c)%R in
  (few -> stem_predict c fs l ms mf = Ok (0%Q, 0)) /\
  (~ few -> freq < mf -> stem_predict c fs l ms mf = Ok (0%Q, freq)) /\
  (~ few -> mf <= freq -> stem_predict c fs l ms mf = Ok (score, freq)).
Proof.
  intros c l fs ms mf ND F. exists (map (fun rc : str * Z => scls_b c l (fst rc)) fs), (select_pos c l fs), (dkeys (first_char_counts fs)).
  split; [apply sclasses_exist|].
  assert (SF : Forall (fun n => 0 < n) (map snd (select_pos c l fs))).
  { apply Forall_map. unfold select_pos. rewrite Forall_forall in *. intros x I. apply filter_In in I as [I _]. apply F, I. }
  split; [split|].
  - unfold select_pos. apply NoDup_filter. apply NoDup_map_inv in ND. exact ND.
  - intros r n. unfold select_pos. rewrite filter_In. cbn [fst]. rewrite <- (unambiguous_spec c l r). unfold unambiguous_b. reflexivity.
  - split; [apply first_char_counts_spec|]. cbv zeta. rewrite !(sweight_ssum c l fs) by apply sclasses_exist. unfold stem_predict. rewrite (stem_entropy_shannon _ SF). cbn [bind]. rewrite stem_predict3_eq.
    set (pos := ssum c l SPos fs). set (neg := ssum c l SNeg fs). set (unk := ssum c l SUnk fs).
    assert (PN : 0 <= pos /\ 0 <= neg).
    { rewrite Forall_forall in F. split; apply Zsum_nonneg; intros x I; specialize (F x I); cbn beta; destruct (scls_eqb _ _); lia. }
    assert (S : (if pos + neg >? 0 then qdiv (pos - neg) (pos + neg) else 0%Q) = (if pos + neg =? 0 then 0%Q else (inject_Z (pos - neg) / inject_Z (pos + neg))%Q)).
    { rewrite Z.gtb_ltb. destruct (Z.ltb_spec 0 (pos + neg)); destruct (Z.eqb_spec (pos + neg) 0); try lia; reflexivity. }
    rewrite S. unfold dkeys. rewrite map_length. set (cc := Z.of_nat (length (first_char_counts fs))). destruct (Z.ltb_spec cc (st_min_char c)) as [A|A]; cbn [orb].
    + split; [reflexivity|]. split; intros H; exfalso; apply H; left; exact A.
    + destruct (Rlt_dec (shannon (map snd (select_pos c l fs))) (st_min_entropy c)) as [B|B].
      * split; [reflexivity|]. split; intros H; exfalso; apply H; right; exact B.
      * split; [intros [H|H]; [lia|contradiction]|]. split; intros _ H.
        -- apply Z.ltb_lt in H. rewrite H. reflexivity.
        -- apply Z.ltb_ge in H. rewrite H. reflexivity.
Qed.
Print Assumptions C69_predict_exact.
Theorem C69_bounds : forall c l fs ms mf s n, Forall (fun rc => 0 < snd rc) fs -> stem_predict c fs l ms mf = Ok (s, n) ->
  (-1 <= s <= 1)%Q /\ 0 <= n <= Zsum snd fs.
Proof.
  intros c l fs ms mf s n F. unfold stem_predict. rewrite stem_entropy_shannon.
  2: { apply Forall_map. unfold select_pos. rewrite Forall_forall in *. intros x I. apply filter_In in I as [I _]. apply F, I. }
  cbn [bind]. rewrite stem_predict3_eq. set (pos := ssum c l SPos fs). set (neg := ssum c l SNeg fs). set (unk := ssum c l SUnk fs).
  assert (PN : 0 <= pos /\ 0 <= neg /\ 0 <= unk /\ pos + neg + unk <= Zsum snd fs).
  { unfold pos, neg, unk, ssum. clear -F. induction fs as [|[r m] fs IH]; [cbn; lia|]. inversion F as [|? ? A B]; subst. specialize (IH B). cbn [Zsum fst snd] in *. destruct (scls_b c l r); cbn [scls_eqb]; lia. }
  assert (B0 : (-1 <= (if pos + neg >? 0 then qdiv (pos - neg) (pos + neg) else 0%Q) <= 1)%Q).
  { rewrite Z.gtb_ltb. destruct (Z.ltb_spec 0 (pos + neg)); [apply ratio_bounds; lia|split; discriminate]. }
  assert (Z0 : (-1 <= 0 <= 1)%Q) by (split; discriminate).
  destruct (_ || _)%bool; [intros H; injection H as <- <-; split; [exact Z0|lia]|].
  destruct (_ <? mf); intros H; injection H as <- <-; (split; [assumption|destruct (Qle_bool ms _); lia]).
Qed.
Print Assumptions C69_bounds.

(** ** extract: the surfaces are exactly the candidates whose prediction reaches both thresholds; those that are a stem and an ending or a
    longer form of another one are removed. The value of a stem is the pair of the sum of the scores of its contributions and the mean of
    their frequencies, weighted by the scores *)
Theorem C69_extract : forall ec lm rm g stems eomis mc me ignore ms mf, NoDup (map fst (ec_counter ec)) -> (forall e n, dget (ec_counter ec) e = Some n -> 0 < n) -> 1 < lm -> 0 < rm -> to_lrgraph ec lm rm false = Ok g -> (0 < ms)%Q ->
  let c := stem_new g stems eomis mc me in
  exists ex D, stem_extract c g ignore ms mf = Ok D /\ NoDup (dkeys D) /\
  NoDup (dkeys ex) /\ (forall l p, dget ex l = Some p <-> stem_surface_of c g ignore lm rm (ec_counter ec) ms mf l p) /\
  let kept := fun l p => dget ex l = Some p /\ ~ removed_surface c (fun a => dget ex a <> None) l in
  forall s, exists xs, NoDup xs /\ (forall x, In x xs <-> stem_contribution eomis kept lm rm (ec_counter ec) s x) /\
    match dget D s with
    | Some (a, b) => xs <> [] /\ (a == Qsum (map sc_score xs))%Q /\ (b * a == Qsum (map (fun x => sc_score x * sc_freq x)%Q xs))%Q
    | None => xs = []
    end.
Proof.
  intros ec lm rm g stems eomis mc me ignore ms mf N POS L R E MS c. destruct (C69_tables ec lm rm g stems eomis mc me N POS L R E) as (_ & NR & NE & _).
  destruct (stem_extract_all ec lm rm g c ignore ms mf N POS L R E NR NE MS) as (ex & D & X & ND & NX & XS & _ & C). exists ex, D.
  split; [exact X|]. split; [exact ND|]. split; [exact NX|]. split; [exact XS|]. cbv zeta. intros s. destruct (C s) as (xs & A & B & M). exists xs. split; [exact A|]. split; [exact B|].
  destruct (dget D s) as [[a b]|]; exact M.
Qed.
Print Assumptions C69_extract.

(** ** with min_entropy_of_R_char <= 0 nothing depends on the entropy: this makes the examples computable *)
Definition stem_predict_q (c : sconf) (features : list (str * Z)) (l : str) (ms : Q) (mf : Z) : res (Q * Z) :=
  let '(pos, neg, unk) := stem_predict3 c l features in
  let score := if pos + neg >? 0 then qdiv (pos - neg) (pos + neg) else 0%Q in
  let freq := if Qle_bool ms score then pos else neg + unk in
  Ok (if Z.of_nat (length (first_char_counts features)) <? st_min_char c then (0%Q, 0) else if freq <? mf then (0%Q, freq) else (score, freq)).
Lemma stem_predict_q_eq c fs l ms mf : (st_min_entropy c <= 0)%R -> Forall (fun rc => 0 < snd rc) fs -> stem_predict c fs l ms mf = stem_predict_q c fs l ms mf.
Proof.
  intros ME F. assert (SF : Forall (fun n => 0 < n) (map snd (select_pos c l fs))).
  { apply Forall_map. unfold select_pos. rewrite Forall_forall in *. intros x I. apply filter_In in I as [I _]. apply F, I. }
  unfold stem_predict, stem_predict_q. rewrite stem_entropy_shannon by exact SF. cbn [bind]. destruct (stem_predict3 c l fs) as [[pos neg] unk].
  destruct (Rlt_dec (shannon (map snd (select_pos c l fs))) (st_min_entropy c)) as [H|H].
  - exfalso. apply (Rlt_irrefl 0). eapply Rle_lt_trans; [|eapply Rlt_le_trans; [exact H|exact ME]]. apply shannon_nonneg, SF.
  - rewrite orb_false_r. reflexivity.
Qed.
Definition stem_extract_q (c : sconf) (g : lrg) (ignore : list str) (ms : Q) (mf : Z) : res (dict str (Q * Q)) :=
  do ex <- foldM (fun d l => if mem l (st_L c) || mem l (st_R c) || (length l =? 1)%nat then Ok d else
     do x <- at_last l; if N.eqb x "다"%ch || dmem d l then Ok d else
     do p <- stem_predict_q c (get_r g l (-1)) l ms mf;
     Ok (if negb (Qle_bool ms (fst p)) || (snd p <? mf) then d else dset d l p)) (sort_len (dkeys (stem_candidates c g ignore mf))) [];
  Ok (to_stem c g (fst (stem_post c ex))).
Lemma stem_extract_q_eq ec lm rm g c ignore ms mf : NoDup (map fst (ec_counter ec)) -> (forall e n, dget (ec_counter ec) e = Some n -> 0 < n) -> 1 < lm -> 0 < rm -> to_lrgraph ec lm rm false = Ok g ->
  (st_min_entropy c <= 0)%R -> stem_extract c g ignore ms mf = stem_extract_q c g ignore ms mf.
Proof.
  intros N POS L R E ME. destruct (trained_uni ec lm rm N L R) as (g0 & E0 & U & _). change (to_lrgraph ec lm rm false = Ok g0) in E0. rewrite E in E0. injection E0 as <-.
  unfold stem_extract, stem_extract_q, stem_batch. match goal with |- bind (foldM _ ?l ?d) _ = _ => generalize (sort_len (dkeys (stem_candidates c g ignore mf))) as todo; generalize d as d0 end.
  intros d0 todo. match goal with |- bind ?a _ = bind ?b _ => assert (X : a = b); [|rewrite X; reflexivity] end.
  revert d0. induction todo as [|l todo IH]; intros d0; [reflexivity|]. cbn [foldM].
  match goal with |- bind ?a _ = bind ?b _ => assert (X : a = b); [|rewrite X; destruct b; [apply IH|reflexivity]] end.
  unfold stem_batch_step. rewrite (stem_predict_q_eq c (get_r g l (-1)) l ms mf ME); [reflexivity|].
  apply Forall_forall. intros [r n] I. apply (proj2 (uni_rows lm rm _ g l U)) in I as [_ I]. exact (POS _ _ I).
Qed.

(** ** what one would expect, and does not hold *)
Definition sx_stems : list str := [u "먹"; u "잡"].
Definition sx_eomis : list str := [u "더니"; u "지만"].
Definition sx_ec : ecounter := mkCounter [(u "먹더니", 5); (u "먹지만", 2); (u "잡지만", 3); (u "달리더니", 6); (u "달리지만", 4)].
Definition sx_ec2 : ecounter := mkCounter [(u "먹더니", 5); (u "먹지만", 2); (u "잡지만", 3); (u "달리더니", 6); (u "달리지만", 4); (u "달리더라", 1)].
Lemma sx_ok : NoDup (map fst (ec_counter sx_ec)) /\ (forall e n, dget (ec_counter sx_ec) e = Some n -> 0 < n) /\ NoDup (map fst (ec_counter sx_ec2)) /\ (forall e n, dget (ec_counter sx_ec2) e = Some n -> 0 < n).
Proof.
  assert (P : forall (d : dict str Z), forallb (fun x => 0 <? snd x) d = true -> forall e n, dget d e = Some n -> 0 < n).
  { intros d H e n D. apply dget_In in D. rewrite forallb_forall in H. specialize (H _ D). cbn [snd] in H. apply Z.ltb_lt, H. }
  assert (Q : forall (l : list str), (fix nd (l : list str) := match l with [] => true | x :: t => negb (mem x t) && nd t end) l = true -> NoDup l).
  { induction l as [|x l IH]; intros H; [constructor|]. apply andb_true_iff in H as [A B]. constructor; [apply mem_In_false; apply negb_true_iff, A|exact (IH B)]. }
  split; [apply Q; vm_compute; reflexivity|]. split; [apply P; vm_compute; reflexivity|]. split; [apply Q; vm_compute; reflexivity|apply P; vm_compute; reflexivity].
Qed.
Definition sx_graph (ec : ecounter) : lrg := match to_lrgraph ec 10 9 false with Ok g => g | Err _ => mkLrg [] [] None 0 0 end.
Definition sx_conf (ec : ecounter) : sconf := stem_new (sx_graph ec) sx_stems sx_eomis 2 0%R.
Lemma sx_ME ec : (st_min_entropy (sx_conf ec) <= 0)%R.
Proof. unfold sx_conf, stem_new. cbv zeta. cbn [st_min_entropy]. apply Rle_refl. Qed.
Lemma sx_facts ec : NoDup (map fst (ec_counter ec)) -> (forall e n, dget (ec_counter ec) e = Some n -> 0 < n) ->
  to_lrgraph ec 10 9 false = Ok (sx_graph ec) /\ uni 10 9 (dget (ec_counter ec)) (sx_graph ec) /\ (forall l, Forall (fun rc => 0 < snd rc) (get_r (sx_graph ec) l (-1))) /\
  (forall ms mf, stem_extract (sx_conf ec) (sx_graph ec) [] ms mf = stem_extract_q (sx_conf ec) (sx_graph ec) [] ms mf) /\ NoDup (st_R (sx_conf ec)) /\ ~ In [] (st_R (sx_conf ec)).
Proof.
  intros A B. destruct (trained_uni ec 10 9 A) as (g & E & U & _); [lia|lia|]. change (to_lrgraph ec 10 9 false = Ok g) in E. assert (G : sx_graph ec = g) by (unfold sx_graph; rewrite E; reflexivity). rewrite G.
  split; [exact E|]. split; [exact U|]. split; [intros l; apply Forall_forall; intros [r n] I; apply (proj2 (uni_rows 10 9 _ g _ U)) in I as [_ I]; exact (B _ _ I)|].
  split; [intros ms mf; exact (stem_extract_q_eq ec 10 9 g (sx_conf ec) [] ms mf A B eq_refl eq_refl E (sx_ME ec))|].
  destruct (C69_tables ec 10 9 (sx_graph ec) sx_stems sx_eomis 2 0%R A B eq_refl eq_refl) as (_ & NR & NE & _); [rewrite G; exact E|]. split; [exact NR|exact NE].
Qed.
(** a new stem that occurs with known endings only: its surface is accepted, but no stem is returned *)
Theorem C69_known_endings_refuted : exists ec lm rm g stems eomis ms mf l, to_lrgraph ec lm rm false = Ok g /\ (ec_counter ec <> [] /\ NoDup (map fst (ec_counter ec))) /\
  let c := stem_new g stems eomis 2 0%R in
  (exists p, stem_surface_of c g [] lm rm (ec_counter ec) ms mf l p) /\ stem_extract c g [] ms mf = Ok [].
Proof.
  destruct sx_ok as (A & B & _ & _). destruct (sx_facts sx_ec A B) as (E & U & P & Q & NR & NE).
  exists sx_ec, 10, 9, (sx_graph sx_ec), sx_stems, sx_eomis, (7 # 10)%Q, 5, (u "달리"). split; [exact E|]. split; [split; [discriminate|exact A]|]. cbv zeta.
  change (stem_new (sx_graph sx_ec) sx_stems sx_eomis 2 0%R) with (sx_conf sx_ec). split.
  - exists ((10 # 10)%Q, 10). unfold stem_surface_of. split; [|split; [|split; [|split; [|split]]]].
    + apply (proj1 (proj2 (stem_candidates_spec _ _ [] 10 9 _ 5 (u "달리") eq_refl U NR NE))). apply (proj1 (mem_In _ _)). vm_compute. reflexivity.
    + apply (proj1 (mem_In_false _ _)). vm_compute. reflexivity.
    + vm_compute. discriminate.
    + intros a H. assert (X : last (u "달리") 0%N = last (a ++ u "다") 0%N) by (rewrite <- H; reflexivity). change (u "다") with ["다"%ch] in X. rewrite last_last in X. vm_compute in X. discriminate.
    + rewrite (stem_predict_q_eq _ _ _ _ _ (sx_ME _) (P _)). vm_compute. reflexivity.
    + vm_compute. split; discriminate.
  - rewrite Q. vm_compute. reflexivity.
Qed.
(** the value of a returned stem is not (frequency, score): here the score of 달리 is 1 and its frequency 10 *)
Theorem C69_frequency_first_refuted : exists ec g stems eomis ms mf l n s, to_lrgraph ec 10 9 false = Ok g /\
  let c := stem_new g stems eomis 2 0%R in stem_predict c (get_r g l (-1)) l ms mf = Ok (s, n) /\ (s == 1)%Q /\ n = 10 /\
  exists D a b, stem_extract c g [] ms mf = Ok D /\ dget D l = Some (a, b) /\ (a == 1)%Q /\ (b == 10)%Q.
Proof.
  destruct sx_ok as (_ & _ & A & B). destruct (sx_facts sx_ec2 A B) as (E & U & P & Q & NR & NE).
  exists sx_ec2, (sx_graph sx_ec2), sx_stems, sx_eomis, (7 # 10)%Q, 5, (u "달리"), 10, (10 # 10)%Q. split; [exact E|]. cbv zeta.
  change (stem_new (sx_graph sx_ec2) sx_stems sx_eomis 2 0%R) with (sx_conf sx_ec2).
  split; [rewrite (stem_predict_q_eq _ _ _ _ _ (sx_ME _) (P _)); vm_compute; reflexivity|]. split; [vm_compute; reflexivity|]. split; [reflexivity|].
  eexists. eexists. eexists. split; [rewrite Q; vm_compute; reflexivity|].
  split; [vm_compute; reflexivity|]. split; vm_compute; reflexivity.
Qed.
Print Assumptions C69_frequency_first_refuted.
