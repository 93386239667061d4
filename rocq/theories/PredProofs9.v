(** * Proofs: the table of lemmas *)
From Coq Require Import Permutation.
From Verif Require Import PyBase PyDict CountLemmas HangleModel HangleSpec LemmaModel LemmaSpec LemmaProofs LemmaProofs3 LemmaProofs5 NounModel NounSpec NounProofs NounProofs2 UtilsModel WordModel PredModel PredSpec3 PredProofs3 PredProofs4 PredProofs6.
Open Scope Z_scope.
Local Opaque syl.

Lemma is_noun_josa_spec c e : is_noun_josa c e = true <-> noun_josa c e.
Proof.
  unfold is_noun_josa, noun_josa. rewrite existsb_exists. split.
  - intros (i & I & H). apply in_seq in I. apply andb_true_iff in H as [A B]. apply mem_In in A. apply mem_In in B. exists (firstn i e), (skipn i e). split; [symmetry; apply firstn_skipn|].
    split; [intros X; apply (f_equal (@length _)) in X; rewrite firstn_length in X; cbn [length] in X; lia|]. split; [intros X; apply (f_equal (@length _)) in X; rewrite skipn_length in X; cbn [length] in X; lia|]. split; assumption.
  - intros (a & b & -> & NA & NB & A & B). exists (length a). split; [apply in_seq; rewrite app_length; destruct a; [congruence|]; destruct b; [congruence|]; cbn [length]; lia|].
    rewrite firstn_app, firstn_all, Nat.sub_diag, skipn_app, skipn_all, Nat.sub_diag. cbn [firstn skipn app]. rewrite app_nil_r. apply andb_true_iff. split; apply mem_In; assumption.
Qed.
Lemma empty_table : good_table [].
Proof. split; [constructor|]. intros ? ? ? ? []. Qed.
Lemma lemma_pairs_spec c e is : Forall syllable e -> (forall i, In i is -> (1 <= i <= length e)%nat) -> forall acc, NoDup acc ->
  exists out, lemma_pairs c e acc is = Ok out /\ NoDup out /\ forall s m, In (s, m) out <-> In (s, m) acc \/ exists i, In i is /\ lemma_of (firstn i e) (skipn i e) s m /\ In s (p_stems c) /\ In m (p_eomis c).
Proof.
  intros F. induction is as [|i is IH]; intros B acc N; cbn [lemma_pairs].
  - exists acc. split; [reflexivity|]. split; [exact N|]. intros s m. split; [auto|intros [H|(i & [] & _)]; exact H].
  - destruct (good_split e i F (B i (or_introl eq_refl))) as [GL GR]. destruct (candidate_exact [] _ _ empty_table GL GR) as (cs & C & _ & S). rewrite C. cbn [bind].
    destruct (IH (fun j J => B j (or_intror J)) (setupdate acc (filter (fun se => mem (fst se) (p_stems c) && mem (snd se) (p_eomis c)) cs)) (setupdate_NoDup _ _ N)) as (out & E & NO & O).
    exists out. split; [exact E|]. split; [exact NO|]. intros s m. rewrite O, setupdate_In, filter_In. cbn [fst snd]. rewrite andb_true_iff, !mem_In, S. split.
    + intros [[H|([H|((it & [] & _) & _)] & A)]|(j & J & H)]; [left; exact H|right; exists i; split; [left; reflexivity|]; split; [exact H|exact A]|right; exists j; split; [right; exact J|exact H]].
    + intros [H|(j & [<-|J] & H & A)]; [left; left; exact H|left; right; split; [left; exact H|exact A]|right; exists j; split; [exact J|]; split; [exact H|exact A]].
Qed.
Lemma lemma_of_conj l r s m : good_left l -> good_right r -> lemma_of l r s m -> good_stem s /\ good_ending m /\ exists ws, conjugate s m false = Ok ws /\ In (l ++ r) ws.
Proof.
  intros GL GR ((p & a & b & f & -> & J & P) & _ & SO).
  assert (G : forall q c', p = q ++ [c'] -> syllable c').
  { destruct GL as (p' & c' & EL & _ & G). apply app_inj_tail in EL as [<- _]. exact G. }
  destruct (proposal_good p a b f r s m J G GR P) as [GS [->|GE]].
  - exfalso. destruct SO as (p0 & a0 & b0 & f0 & E & o & v & g & t & _ & _ & X & _). discriminate X.
  - split; [exact GS|]. split; [exact GE|]. destruct (conjugate_exact s m GS GE) as (ws & C & S). exists ws. split; [exact C|]. apply S, SO.
Qed.
Lemma conj_back_id e cands : (forall s m, In (s, m) cands -> exists ws, conjugate s m false = Ok ws /\ In e ws) -> conj_back e cands = Ok cands.
Proof.
  induction cands as [|[s m] cs IH]; intros H; [reflexivity|]. cbn [conj_back]. destruct (H s m (or_introl eq_refl)) as (ws & C & I). rewrite C. cbn [bind]. rewrite IH by (intros s' m' I'; apply H; right; exact I'). cbn [bind].
  apply mem_In in I. rewrite I. reflexivity.
Qed.
(** the analyses of one word *)
Lemma lemmas_of_word c e : Forall syllable e -> exists ls, (do cands <- lemma_pairs c e [] (seq 1 (length e)); conj_back e cands) = Ok ls /\ NoDup ls /\ (forall s m, In (s, m) ls <-> known_lemma c e s m) /\ Forall (fun x => good_stem (fst x)) ls.
Proof.
  intros F. destruct (lemma_pairs_spec c e (seq 1 (length e)) F) with (acc := @nil (str * str)) as (ls & E & N & S); [intros i I; apply in_seq in I; lia|constructor|].
  exists ls. rewrite E. cbn [bind].
  assert (K : forall s m, In (s, m) ls -> good_stem s /\ exists ws, conjugate s m false = Ok ws /\ In e ws).
  { intros s m I. apply S in I as [[]|(i & I & L & _)]. apply in_seq in I. destruct (good_split e i F ltac:(lia)) as [GL GR]. destruct (lemma_of_conj _ _ _ _ GL GR L) as (GS & _ & ws & C & W). rewrite firstn_skipn in W. split; [exact GS|]. exists ws. split; assumption. }
  split; [apply conj_back_id; intros s m I; apply (K s m I)|]. split; [exact N|]. split; [|apply Forall_forall; intros [s m] I; apply (K s m I)].
  intros s m. rewrite S. unfold known_lemma. split.
  - intros [[]|(i & I & L & A & B)]. apply in_seq in I. split; [exact A|]. split; [exact B|]. exists (firstn i e), (skipn i e). split; [symmetry; apply firstn_skipn|]. split; [|exact L]. intros X. apply (f_equal (@length _)) in X. rewrite firstn_length in X. cbn [length] in X. lia.
  - intros (A & B & l & r & -> & NL & L). right. exists (length l). split; [apply in_seq; rewrite app_length; destruct l; [congruence|]; cbn [length]; lia|].
    rewrite firstn_app, firstn_all, Nat.sub_diag, skipn_app, skipn_all, Nat.sub_diag. cbn [firstn skipn app]. rewrite app_nil_r. split; [exact L|]. split; assumption.
Qed.
(** ** the loop *)
Definition triples (T : dict str (Z * list (str * str))) : list (str * str * str) := concat (map (fun p : str * (Z * list (str * str)) => map (fun se : str * str => (fst p, fst se, snd se)) (snd (snd p))) T).
Definition add_word (d : dict str (list str)) (x : str * str * str) : dict str (list str) := dset d (snd x) (dgetd d (snd x) [] ++ [fst (fst x)]).
Definition words_of (T : dict str (Z * list (str * str))) : dict str (list str) := fold_left add_word (triples T) [].
Definition tab_ok (c : pconf) (done : dict str Z) (st : ptab) : Prop :=
  table_of c done (t_lemmas st) /\ t_words st = words_of (t_lemmas st) /\ t_num st = Z.of_nat (length (t_lemmas st)) /\ t_count st = Zsum (fun p => fst (snd p)) (t_lemmas st) /\
  Forall (fun p : str * (Z * list (str * str)) => snd (snd p) <> [] /\ Forall (fun x => good_stem (fst x)) (snd (snd p))) (t_lemmas st).
Lemma fold_add_map e ls : forall d, fold_left (fun d se => dset d (snd se) (dgetd d (snd se) [] ++ [e])) ls d = fold_left add_word (map (fun se : str * str => (e, fst se, snd se)) ls) d.
Proof. induction ls as [|x ls IH]; intros d; [reflexivity|]. cbn [fold_left map]. rewrite IH. reflexivity. Qed.
Lemma dget_app {V} (d d' : dict str V) k : dget (d ++ d' : dict str V) k = match dget d k with Some v => Some v | None => dget d' k end.
Proof. induction d as [|[k0 v0] d IH]; [reflexivity|]. cbn [app dget]. destruct (eqb k0 k); [reflexivity|exact IH]. Qed.
Lemma lemma_step_ok c done st e n : Forall syllable e -> ~ In e (dkeys done) -> tab_ok c done st -> exists st', lemma_step c st (e, n) = Ok st' /\ tab_ok c (done ++ [(e, n)]) st'.
Proof.
  intros F FR ((NT & TI & TV) & TW & TN & TC & TG). unfold lemma_step. cbn [fst snd].
  assert (KEY : ~ In e (dkeys (t_lemmas st))). { intros I. apply dget_keys in I. apply TI in I as [I _]. apply dget_keys in I. contradiction. }
  assert (DG : forall w, dget (done ++ [(e, n)] : dict str Z) w = if eqb e w then Some n else dget done w).
  { intros w. rewrite dget_app. cbn [dget]. destruct (eqb_spec e w) as [->|NE]; [|destruct (dget done w); reflexivity]. rewrite (proj2 (dget_None done w)) by exact FR. reflexivity. }
  assert (SAME : ~ is_predicate c e -> tab_ok c (done ++ [(e, n)]) st).
  { intros NP. split; [split; [exact NT|split]|split; [exact TW|split; [exact TN|split; [exact TC|exact TG]]]].
    - intros w. rewrite TI, DG. destruct (eqb_spec e w) as [<-|NE]; [|reflexivity]. split; intros [A B]; [contradiction|contradiction].
    - intros w m ls D. specialize (TV w m ls D) as (A & B). rewrite DG. destruct (eqb_spec e w) as [<-|NE]; [|split; [exact A|exact B]]. exfalso. apply FR, dget_keys. congruence. }
  destruct (is_noun_josa c e) eqn:NJ.
  - apply is_noun_josa_spec in NJ. exists st. split; [reflexivity|]. apply SAME. intros [H _]. contradiction.
  - assert (NJ' : ~ noun_josa c e) by (intros H; apply is_noun_josa_spec in H; congruence).
    destruct (lemmas_of_word c e F) as (ls & E & ND & S & GS). destruct (lemma_pairs c e [] (seq 1 (length e))) as [cands|]; [|discriminate]. cbn [bind] in *. rewrite E. cbn [bind]. destruct ls as [|x ls].
    + eexists. split; [reflexivity|]. apply SAME. intros (_ & s & m & H). apply S in H. exact H.
    + assert (IP : is_predicate c e) by (split; [exact NJ'|]; destruct x as [s m]; exists s, m; apply S; left; reflexivity). set (LS := x :: ls) in *.
      eexists. split; [reflexivity|]. rewrite (dset_fresh _ _ _ KEY), fold_add_map, TW. set (T := t_lemmas st) in *.
      assert (GT : forall w, dget (T ++ [(e, (n, LS))] : dict str (Z * list (str * str))) w = if eqb e w then Some (n, LS) else dget T w).
      { intros w. rewrite dget_app. cbn [dget]. destruct (eqb_spec e w) as [->|NE]; [|destruct (dget T w); reflexivity]. rewrite (proj2 (dget_None T w)) by exact KEY. reflexivity. }
      unfold tab_ok. cbn [t_lemmas t_words t_num t_count]. split; [split; [|split]|split; [|split; [|split]]].
      * unfold dkeys. rewrite map_app. cbn [map fst]. apply NoDup_app_intro; [exact NT|constructor; [intros []|constructor]|]. intros k I [<-|[]]. contradiction.
      * intros w. rewrite GT, DG. destruct (eqb_spec e w) as [<-|NE]; [|apply TI]. split; intros _; [split; [discriminate|exact IP]|discriminate].
      * intros w m l D. rewrite GT in D. rewrite DG. destruct (eqb_spec e w) as [<-|NE]; [|exact (TV w m l D)]. injection D as <- <-. split; [reflexivity|]. split; [exact ND|exact S].
      * unfold words_of, triples. rewrite map_app, concat_app, fold_left_app. cbn [map concat fst snd]. rewrite app_nil_r. reflexivity.
      * rewrite app_length. cbn [length]. lia.
      * rewrite Zsum_app. cbn [Zsum fst snd]. lia.
      * apply Forall_app. split; [exact TG|]. constructor; [|constructor]. cbn [snd]. split; [discriminate|exact GS].
Qed.
Lemma lemma_table_ok c cands : NoDup (dkeys cands) -> (forall w n, In (w, n) cands -> Forall syllable w) -> exists st, lemma_table c cands = Ok st /\ tab_ok c cands st.
Proof.
  intros ND F. unfold lemma_table.
  assert (G : forall todo done st, NoDup (dkeys (done ++ todo)) -> (forall w n, In (w, n) todo -> Forall syllable w) -> tab_ok c done st -> exists st', foldM (lemma_step c) todo st = Ok st' /\ tab_ok c (done ++ todo) st').
  { clear. induction todo as [|[e n] todo IH]; intros done st ND F T; cbn [foldM]; [exists st; rewrite app_nil_r; split; [reflexivity|exact T]|].
    assert (NE : ~ In e (dkeys done)). { unfold dkeys in *. rewrite map_app in ND. cbn [map fst] in ND. apply NoDup_remove_2 in ND. intros I. apply ND, in_or_app. left; exact I. }
    destruct (lemma_step_ok c done st e n (F e n (or_introl eq_refl)) NE T) as (st' & E & T'). rewrite E. cbn [bind].
    destruct (IH (done ++ [(e, n)]) st') as (st2 & E2 & T2); [rewrite <- app_assoc; exact ND|intros w m I; apply (F w m); right; exact I|exact T'|]. exists st2. split; [exact E2|]. rewrite <- app_assoc in T2. exact T2. }
  apply (G cands [] (mkPtab [] [] 0 0)); [exact ND|exact F|].
  split; [split; [constructor|split]|split; [reflexivity|split; [reflexivity|split; [reflexivity|constructor]]]].
  - intros w. cbn. split; [congruence|intros [H _]; congruence].
  - intros w n ls H. discriminate H.
Qed.
(** ** the words of the endings *)
Lemma words_get X : forall d m, dget (fold_left add_word X d) m = match map (fun x => fst (fst x)) (filter (fun x => eqb (snd x) m) X) with [] => dget d m | l => Some (dgetd d m [] ++ l) end.
Proof.
  induction X as [|[[w s] m0] X IH]; intros d m; [reflexivity|]. cbn [fold_left filter fst snd]. rewrite IH. unfold add_word, dgetd. cbn [fst snd]. rewrite !dget_dset.
  destruct (eqb_spec m0 m) as [->|NE]; cbn [map fst snd]; [|reflexivity]. destruct (map (fun x : str * str * str => fst (fst x)) (filter (fun x => eqb (snd x) m) X)) as [|y l]; [reflexivity|]. rewrite <- app_assoc. reflexivity.
Qed.
Lemma words_wf X : forall d, NoDup (dkeys d) -> NoDup (dkeys (fold_left add_word X d)).
Proof. induction X as [|x X IH]; intros d N; [exact N|]. cbn [fold_left]. apply IH. unfold add_word. apply dwf_dset, N. Qed.
Definition uses_list (T : dict str (Z * list (str * str))) (m : str) : list (str * str) := map fst (filter (fun x => eqb (snd x) m) (triples T)).
Lemma triples_In T w s m : NoDup (dkeys T) -> (In (w, s, m) (triples T) <-> exists n ls, dget T w = Some (n, ls) /\ In (s, m) ls).
Proof.
  intros ND. unfold triples. rewrite in_concat. split.
  - intros (l & I & J). apply in_map_iff in I as ([w' [n ls]] & <- & I). cbn [fst snd] in J. apply in_map_iff in J as ([s' m'] & X & J). cbn [fst snd] in X. injection X as -> -> ->. exists n, ls. split; [apply In_dget; [exact ND|exact I]|exact J].
  - intros (n & ls & D & I). eexists. split; [apply in_map_iff; exists (w, (n, ls)); split; [reflexivity|apply dget_In, D]|]. cbn [fst snd]. apply in_map_iff. exists (s, m). split; [reflexivity|exact I].
Qed.
Lemma triples_NoDup T : NoDup (dkeys T) -> (forall w n ls, dget T w = Some (n, ls) -> NoDup ls) -> NoDup (triples T).
Proof.
  intros ND NL. unfold triples. apply NoDup_concat_map.
  - apply NoDup_map_inv in ND. exact ND.
  - intros [w [n ls]] I. cbn [fst snd]. apply In_dget in I; [|exact ND]. specialize (NL w n ls I). apply FinFun.Injective_map_NoDup; [|exact NL]. intros [a b] [a' b'] X. cbn [fst snd] in X. congruence.
  - intros [w [n ls]] [w' [n' ls']] z I J IZ JZ. cbn [fst snd] in *. apply in_map_iff in IZ as (x & <- & _). apply in_map_iff in JZ as (y & E & _). injection E as -> _ _. apply In_dget in I; [|exact ND]. apply In_dget in J; [|exact ND]. congruence.
Qed.
Lemma uses_list_ok T m : NoDup (dkeys T) -> (forall w n ls, dget T w = Some (n, ls) -> NoDup ls) -> uses T m (uses_list T m).
Proof.
  intros ND NL. unfold uses, uses_list. split.
  - pose proof (triples_NoDup T ND NL) as N. apply (NoDup_filter (fun x => eqb (snd x) m)) in N. revert N. generalize (triples T). intros X. induction X as [|x X IH]; intros N; cbn [filter] in *; [constructor|].
    destruct (eqb_spec (snd x) m) as [E|E]; [|exact (IH N)]. inversion N as [|? ? NI N']; subst. cbn [map]. constructor; [|exact (IH N')]. intros I. apply NI. apply in_map_iff in I as (y & EY & I). assert (y = x); [|subst y; exact I].
    apply filter_In in I as [_ Y]. destruct (eqb_spec (snd y) (snd x)) as [E|]; [|discriminate]. destruct x as [[? ?] ?], y as [[? ?] ?]. cbn [fst snd] in *. congruence.
  - intros w s. rewrite in_map_iff. split.
    + intros ([[w' s'] m'] & E & I). cbn [fst] in E. injection E as -> ->. apply filter_In in I as [I E]. cbn [snd] in E. apply eqb_eq in E. subst m'. apply triples_In in I; [exact I|exact ND].
    + intros H. exists (w, s, m). split; [reflexivity|]. apply filter_In. split; [apply triples_In; [exact ND|exact H]|apply eqb_refl].
Qed.
Lemma words_uses T m : dget (words_of T) m = match map fst (uses_list T m) with [] => None | l => Some l end.
Proof. unfold words_of, uses_list. rewrite words_get. rewrite map_map. cbn [dget dgetd app]. reflexivity. Qed.
