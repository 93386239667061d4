(** * Proofs: the removal of wrong endings *)
From Coq Require Import Permutation.
From Verif Require Import PyBase PyDict CountLemmas LemmaModel LemmaSpec LemmaProofs NounModel NounSpec NounProofs NounProofs2 PredModel PredSpec3 PredProofs3 PredProofs4 PredProofs6 PredProofs9.
Open Scope Z_scope.

Notation table := (dict str (Z * list (str * str))) (only parsing).
(** ** one operation (m, w): drop the ending m from the word w *)
Definition dropop (d : table) (o : str * str) : table := drop_eomi (fst o) d (snd o).
Lemma dropop_get d o w : dget (dropop d o) w =
  if eqb (snd o) w then match dget d w with None => None | Some p => if (length (snd p) =? 1)%nat then None else Some (fst p, filter (fun se => negb (eqb (snd se) (fst o))) (snd p)) end else dget d w.
Proof.
  unfold dropop, drop_eomi. destruct (eqb_spec (snd o) w) as [<-|NE].
  - destruct (dget d (snd o)) as [p|] eqn:D; [|exact D]. destruct (length (snd p) =? 1)%nat; [rewrite dget_dpop, eqb_refl; reflexivity|rewrite dget_dset, eqb_refl; reflexivity].
  - destruct (dget d (snd o)) as [p|]; [|reflexivity]. apply eqb_neq in NE. destruct (length (snd p) =? 1)%nat; [rewrite dget_dpop, NE; reflexivity|rewrite dget_dset, NE; reflexivity].
Qed.
Lemma dropop_wf d o : NoDup (dkeys d) -> NoDup (dkeys (dropop d o)).
Proof. intros N. unfold dropop, drop_eomi. destruct (dget d (snd o)) as [p|]; [|exact N]. destruct (length (snd p) =? 1)%nat; [apply dwf_dpop, N|apply dwf_dset, N]. Qed.
Lemma drops_wf ops : forall d, NoDup (dkeys d) -> NoDup (dkeys (fold_left dropop ops d)).
Proof. induction ops as [|o ops IH]; intros d N; [exact N|]. cbn [fold_left]. apply IH, dropop_wf, N. Qed.
Definition hit (ops : list (str * str)) (w m : str) : bool := existsb (fun o => eqb (snd o) w && eqb (fst o) m) ops.
Lemma hit_In ops w m : hit ops w m = true <-> In (m, w) ops.
Proof.
  unfold hit. rewrite existsb_exists. split; [intros ([m' w'] & I & H); cbn [fst snd] in H; apply andb_true_iff in H as [A B]; apply eqb_eq in A, B; subst; exact I|].
  intros I. exists (m, w). split; [exact I|]. cbn [fst snd]. rewrite !eqb_refl. reflexivity.
Qed.
Lemma drops_none ops : forall d w, dget d w = None -> dget (fold_left dropop ops d) w = None.
Proof. induction ops as [|o ops IH]; intros d w H; [exact H|]. cbn [fold_left]. apply IH. rewrite dropop_get, H. destruct (eqb (snd o) w); reflexivity. Qed.
Lemma filter_filter {A} (f g : A -> bool) l : filter f (filter g l) = filter (fun x => g x && f x) l.
Proof. induction l as [|x l IH]; [reflexivity|]. cbn [filter]. destruct (g x); cbn [filter andb]; [destruct (f x); rewrite IH; reflexivity|exact IH]. Qed.
Lemma filter_ext' {A} (f g : A -> bool) l : (forall x, f x = g x) -> filter f l = filter g l.
Proof. intros H. induction l as [|x l IH]; [reflexivity|]. cbn [filter]. rewrite H, IH. reflexivity. Qed.
Lemma filter_true {A} (l : list A) : filter (fun _ => true) l = l.
Proof. induction l as [|x l IH]; [reflexivity|]. cbn [filter]. f_equal. exact IH. Qed.
(** a word that survives has lost exactly the dropped endings *)
Lemma drops_survive ops : forall d w n ls', dget (fold_left dropop ops d) w = Some (n, ls') -> exists ls, dget d w = Some (n, ls) /\ ls' = filter (fun se => negb (hit ops w (snd se))) ls.
Proof.
  induction ops as [|o ops IH]; intros d w n ls' H.
  - exists ls'. split; [exact H|]. symmetry. apply filter_true.
  - cbn [fold_left] in H. destruct (IH _ _ _ _ H) as (ls & D & E). rewrite dropop_get in D. destruct (eqb (snd o) w) eqn:EW.
    + destruct (dget d w) as [[n0 ls0]|] eqn:DW; [|discriminate]. cbn [fst snd] in D. destruct (length ls0 =? 1)%nat; [discriminate|]. injection D as <- <-. exists ls0. split; [reflexivity|]. rewrite E, filter_filter. apply filter_ext'. intros x. cbv beta. unfold hit. cbn [existsb]. rewrite EW. cbn [andb]. rewrite negb_orb, (eqb_sym (fst o)). reflexivity.
    + exists ls. split; [exact D|]. rewrite E. apply filter_ext'. intros x. cbv beta. unfold hit. cbn [existsb]. rewrite EW. reflexivity.
Qed.
(** with different endings, a word disappears only if nothing remains *)
Lemma drops_distinct ops : forall d w n ls, dget d w = Some (n, ls) -> ls <> [] -> NoDup (map snd ls) -> NoDup (filter (fun o => eqb (snd o) w) ops) -> (forall m, In (m, w) ops -> In m (map snd ls)) ->
  dget (fold_left dropop ops d) w = match filter (fun se => negb (hit ops w (snd se))) ls with [] => None | l => Some (n, l) end.
Proof.
  induction ops as [|o ops IH]; intros d w n ls D NE N NO I.
  - cbn [fold_left]. rewrite D. replace (filter (fun se : str * str => negb (hit [] w (snd se))) ls) with ls; [destruct ls; [congruence|reflexivity]|]. symmetry. apply filter_true.
  - cbn [fold_left filter] in *. destruct (eqb_spec (snd o) w) as [EW|EW].
    + inversion NO as [|z0 l0 NI NO']; subst w; subst z0; subst l0. assert (IM : In (fst o) (map snd ls)) by (apply I; left; destruct o; reflexivity).
      pose proof (dropop_get d o (snd o)) as G. rewrite eqb_refl, D in G. cbn [fst snd] in G.
      assert (HF : forall l : list (str * str), filter (fun se => negb (hit (o :: ops) (snd o) (snd se))) l = filter (fun se => negb (hit ops (snd o) (snd se))) (filter (fun se => negb (eqb (snd se) (fst o))) l)).
      { intros l9. rewrite filter_filter. apply filter_ext'. intros x. cbv beta. unfold hit. cbn [existsb]. rewrite eqb_refl. cbn [andb]. rewrite negb_orb, (eqb_sym (fst o)). reflexivity. }
      rewrite HF. destruct (Nat.eqb_spec (length ls) 1) as [L1|L1].
      * rewrite (drops_none ops _ _ G). destruct ls as [|x [|]]; cbn [length] in L1; try lia. cbn [map In] in IM. destruct IM as [<-|[]]. cbn [filter]. rewrite eqb_refl. reflexivity.
      * apply (IH (dropop d o) (snd o) n _ G).
        -- destruct ls as [|x [|y l]]; cbn [length] in L1; [congruence|congruence|]. cbn [map] in N. inversion N as [|? ? NX _]; subst. cbn [filter]. destruct (eqb_spec (snd x) (fst o)) as [E|E]; cbn [negb]; [|discriminate].
           destruct (eqb_spec (snd y) (fst o)) as [E'|E']; cbn [negb]; [|discriminate]. exfalso. apply NX. left. congruence.
        -- clear -N. induction ls as [|x l IHl]; [constructor|]. cbn [map] in N. inversion N as [|? ? NX NL]; subst. cbn [filter]. destruct (negb (eqb (snd x) (fst o))); [|exact (IHl NL)]. cbn [map]. constructor; [|exact (IHl NL)].
           intros J. apply NX. apply in_map_iff in J as (y & <- & J). apply filter_In in J as [J _]. apply in_map, J.
        -- exact NO'.
        -- intros m J. assert (IM' : In m (map snd ls)) by (apply I; right; exact J). apply in_map_iff in IM' as (x & <- & IX). apply in_map. apply filter_In. split; [exact IX|]. apply negb_true_iff, eqb_neq. intros E. apply NI. apply filter_In. split; [|exact (eqb_refl (snd o))]. rewrite E in J. destruct o; exact J.
    + assert (G : dget (dropop d o) w = Some (n, ls)) by (rewrite dropop_get; apply eqb_neq in EW; rewrite EW; exact D).
      rewrite (IH _ _ _ _ G NE N NO) by (intros m J; apply I; right; exact J). replace (filter (fun se : str * str => negb (hit (o :: ops) w (snd se))) ls) with (filter (fun se : str * str => negb (hit ops w (snd se))) ls); [reflexivity|].
      apply filter_ext'. intros x. cbv beta. unfold hit. cbn [existsb]. apply eqb_neq in EW. rewrite EW. reflexivity.
Qed.
Lemma drops_all ops : forall d w n ls, dget d w = Some (n, ls) -> (forall m, ~ In (m, w) ops) -> dget (fold_left dropop ops d) w = Some (n, ls).
Proof.
  induction ops as [|[m w0] ops IH]; intros d w n ls D H; [exact D|]. cbn [fold_left]. apply IH; [|intros m' I; apply (H m'); right; exact I].
  rewrite dropop_get. cbn [fst snd]. destruct (eqb_spec w0 w) as [->|]; [exfalso; apply (H m); left; reflexivity|exact D].
Qed.
(** ** which endings are wrong *)
Definition morphs_of (nouns : list str) (words : dict str (list str)) : list (str * (bool * list str)) :=
  concat (map (fun ew : str * list str => match wrong_words nouns (fst ew) (snd ew) with Some (b, ws) => [(fst ew, (b, ws))] | None => [] end) words).
Definition ops_of (morphs : list (str * (bool * list str))) : list (str * str) := concat (map (fun m => map (fun w => (fst m, w)) (snd (snd m))) morphs).
Lemma remove_wrong_eq c T words : remove_wrong c T words =
  (mkPconf (p_josas c) (p_adj c) (p_verb c) (p_stems c) (filter (fun e => negb (mem e (map fst (filter (fun m => fst (snd m)) (morphs_of (p_nouns c) words))))) (p_eomis c)) (p_nouns c),
   fold_left dropop (ops_of (morphs_of (p_nouns c) words)) T).
Proof.
  unfold remove_wrong. fold (morphs_of (p_nouns c) words). f_equal. unfold ops_of. rewrite <- (concat_fold dropop (fun m : str * (bool * list str) => map (fun w => (fst m, w)) (snd (snd m)))).
  generalize (morphs_of (p_nouns c) words). intros ms. revert T. induction ms as [|m ms IH]; intros T; [reflexivity|]. cbn [fold_left]. rewrite IH. f_equal.
  generalize (snd (snd m)). intros ws. revert T. induction ws as [|w ws IHw]; intros T; [reflexivity|]. cbn [fold_left map]. rewrite IHw. reflexivity.
Qed.
Lemma morphs_In nouns words m b ws : NoDup (dkeys words) -> (In (m, (b, ws)) (morphs_of nouns words) <-> exists l, dget words m = Some l /\ wrong_words nouns m l = Some (b, ws)).
Proof.
  intros ND. unfold morphs_of. rewrite in_concat. split.
  - intros (x & I & J). apply in_map_iff in I as ([m' l] & <- & I). cbn [fst snd] in J. destruct (wrong_words nouns m' l) as [[b' ws']|] eqn:W; [|destruct J]. destruct J as [J|[]]. injection J as -> -> ->. exists l. split; [apply In_dget; [exact ND|exact I]|exact W].
  - intros (l & D & W). eexists. split; [apply in_map_iff; exists (m, l); split; [reflexivity|apply dget_In, D]|]. cbn [fst snd]. rewrite W. left. reflexivity.
Qed.
Lemma morphs_keys nouns words : NoDup (dkeys words) -> NoDup (map fst (morphs_of nouns words)).
Proof.
  unfold morphs_of, dkeys. induction words as [|[m l] words IH]; intros N; [constructor|]. cbn [map fst] in N. inversion N as [|? ? NI N']; subst. cbn [map concat fst snd]. rewrite map_app. 
  destruct (wrong_words nouns m l) as [[b ws]|]; cbn [map app fst]; [|exact (IH N')]. constructor; [|exact (IH N')]. intros I. apply NI. apply in_map_iff in I as ([m' v] & <- & I). cbn [fst]. apply in_concat in I as (x & I & J). apply in_map_iff in I as ([m2 l2] & <- & I). cbn [fst snd] in J.
  destruct (wrong_words nouns m2 l2) as [[b2 ws2]|]; [|destruct J]. destruct J as [J|[]]. injection J as <- _. apply (in_map fst) in I. exact I.
Qed.
Section Wrong.
Context (nouns : list str) (T : table) (ND : NoDup (dkeys T)) (NL : forall w n ls, dget T w = Some (n, ls) -> NoDup ls).
Let two (x : str * str) : bool := (length (fst x) =? 2)%nat.
Let nn (x : str * str) : bool := (length (fst x) =? 2)%nat && mem (fst x) nouns.
Let susp (m : str) : bool := (length m <=? 2)%nat && negb (length (filter two (uses_list T m)) =? 0)%nat && negb (2 * length (filter nn (uses_list T m)) <? length (filter two (uses_list T m)))%nat.
Let short (m : str) : bool := (length (filter two (uses_list T m)) =? length (uses_list T m))%nat.
Lemma hm_perm {A} (P : A -> Prop) (l l' : list A) : Permutation l l' -> forall n, how_many P l n -> how_many P l' n.
Proof.
  induction 1 as [|x l l' _ IH|x y l|l l' l'' _ IH1 _ IH2]; intros n H; [exact H| | |auto].
  - inversion H as [|? ? k Px H'|? ? k Px H']; subst; [apply hm_yes|apply hm_no]; auto.
  - inversion H as [|? ? k Px H'|? ? k Px H']; subst; inversion H' as [|? ? k' Py H''|? ? k' Py H'']; subst; repeat first [assumption | apply hm_yes; [assumption|] | apply hm_no; [assumption|]].
Qed.
Lemma susp_spec m : susp m = true <-> suspicious T nouns m.
Proof.
  pose proof (uses_list_ok T m ND NL) as U.
  assert (H2 : how_many (fun x : str * str => length (fst x) = 2%nat) (uses_list T m) (length (filter two (uses_list T m)))) by (apply how_many_filter; intros x; apply Nat.eqb_eq).
  assert (HN : how_many (fun x : str * str => length (fst x) = 2%nat /\ In (fst x) nouns) (uses_list T m) (length (filter nn (uses_list T m)))).
  { apply how_many_filter; intros x. unfold nn. rewrite andb_true_iff, Nat.eqb_eq, mem_In. reflexivity. }
  unfold susp, suspicious. rewrite !andb_true_iff, !negb_true_iff, Nat.leb_le, Nat.eqb_neq, Nat.ltb_ge. split.
  - intros ((A & B) & C). split; [exact A|]. exists (uses_list T m), (length (filter two (uses_list T m))), (length (filter nn (uses_list T m))). split; [exact U|]. split; [exact H2|]. split; [exact HN|]. lia.
  - intros (A & us & a & b & (NU & UI) & Ha & Hb & L).
    assert (PM : Permutation us (uses_list T m)). { apply NoDup_Permutation; [exact NU|apply U|]. intros [w s]. rewrite UI. symmetry. apply U. }
    pose proof (how_many_fun _ _ _ _ (hm_perm _ _ _ PM _ Ha) H2). pose proof (how_many_fun _ _ _ _ (hm_perm _ _ _ PM _ Hb) HN). lia.
Qed.
Lemma filter_full {A} (f : A -> bool) l : length (filter f l) = length l <-> forall x, In x l -> f x = true.
Proof.
  induction l as [|x l IH]; [split; [intros _ x []|reflexivity]|]. assert (B : (length (filter f l) <= length l)%nat). { clear. induction l as [|y l IHl]; [reflexivity|]. cbn [filter]. destruct (f y); cbn [length]; lia. }
  cbn [filter]. destruct (f x) eqn:E; cbn [length].
  - split; [intros H y [<-|I]; [exact E|apply IH; [lia|exact I]]|intros H; f_equal; apply IH; intros y I; apply H; right; exact I].
  - split; [lia|]. intros H. specialize (H x (or_introl eq_refl)). congruence.
Qed.
Lemma short_spec m : short m = true <-> only_short T m.
Proof.
  destruct (uses_list_ok T m ND NL) as [_ U]. unfold short, only_short. rewrite Nat.eqb_eq, filter_full. split.
  - intros H w n ls s D I. specialize (H (w, s)). unfold two in H. cbn [fst] in H. apply Nat.eqb_eq, H, U. exists n, ls. split; assumption.
  - intros H [w s] I. apply U in I as (n & ls & D & I). unfold two. cbn [fst]. apply Nat.eqb_eq. exact (H w n ls s D I).
Qed.
Lemma map_filter {A B} (f : A -> B) (g : B -> bool) l : filter g (map f l) = map f (filter (fun x => g (f x)) l).
Proof. induction l as [|x l IH]; [reflexivity|]. cbn [map filter]. destruct (g (f x)); cbn [map]; rewrite IH; reflexivity. Qed.
Lemma wrong_words_eq m : wrong_words nouns m (map fst (uses_list T m)) =
  if susp m then (if short m then Some (true, map fst (filter two (uses_list T m)))
                  else Some (false, map fst (filter (fun x : str * str => nn x || (length (fst x) =? 3)%nat && (length m =? 2)%nat) (uses_list T m)))) else None.
Proof.
  unfold wrong_words, susp, short. rewrite !map_filter, map_length. destruct (Nat.leb_spec 3 (length m)) as [A|A]; destruct (Nat.leb_spec (length m) 2) as [B|B]; try lia; [reflexivity|]. cbn [andb].
  rewrite filter_filter, !map_length. fold two. fold nn. destruct (length (filter two (uses_list T m)) =? 0)%nat; [reflexivity|]. cbn [orb negb andb].
  destruct (2 * length (filter nn (uses_list T m)) <? length (filter two (uses_list T m)))%nat; [reflexivity|]. cbn [negb]. reflexivity.
Qed.
Definition all_morphs := morphs_of nouns (words_of T).
Lemma words_of_wf : NoDup (dkeys (words_of T)). Proof. apply words_wf. constructor. Qed.
(** the operations *)
Lemma ops_In m w : In (m, w) (ops_of all_morphs) <-> (exists s, In (w, s) (uses_list T m)) /\ wrong_in T nouns m w.
Proof.
  unfold ops_of. rewrite in_concat. unfold wrong_in. rewrite <- susp_spec, <- short_spec. split.
  - intros (l & I & J). apply in_map_iff in I as ([m' [b ws]] & <- & I). cbn [fst snd] in J. apply in_map_iff in J as (w' & E & J). injection E as -> ->. apply morphs_In in I as (l & D & W); [|exact words_of_wf].
    rewrite words_uses in D. assert (L : l = map fst (uses_list T m)) by (destruct (map fst (uses_list T m)); [discriminate|congruence]). subst l. rewrite wrong_words_eq in W. destruct (susp m); [|discriminate]. destruct (short m) eqn:SH.
    + injection W as <- <-. apply in_map_iff in J as ([w' s] & E & J). cbn [fst] in E. subst w'. apply filter_In in J as [J _]. split; [exists s; exact J|]. split; [reflexivity|]. left; reflexivity.
    + injection W as <- <-. apply in_map_iff in J as ([w' s] & E & J). cbn [fst] in E. subst w'. apply filter_In in J as [J K]. split; [exists s; exact J|]. split; [reflexivity|]. right. unfold nn in K. cbn [fst] in K. apply orb_true_iff in K as [K|K]; apply andb_true_iff in K as [K1 K2].
      * left. split; [apply Nat.eqb_eq, K1|apply mem_In, K2].
      * right. split; apply Nat.eqb_eq; assumption.
  - intros ((s & I) & S & C). assert (NE : map fst (uses_list T m) <> []) by (destruct (uses_list T m); [destruct I|discriminate]).
    assert (D : dget (words_of T) m = Some (map fst (uses_list T m))). { rewrite words_uses. destruct (map fst (uses_list T m)); [congruence|reflexivity]. }
    pose proof (wrong_words_eq m) as W. rewrite S in W. destruct (short m) eqn:SH.
    + exists (map (fun w => (m, w)) (map fst (filter two (uses_list T m)))). split; [apply in_map_iff; exists (m, (true, map fst (filter two (uses_list T m)))); split; [reflexivity|]; apply morphs_In; [exact words_of_wf|]; eexists; split; [exact D|exact W]|].
      apply in_map. apply in_map_iff. exists (w, s). split; [reflexivity|]. apply filter_In. split; [exact I|]. unfold short in SH. apply Nat.eqb_eq in SH. rewrite filter_full in SH. apply SH, I.
    + eexists. split; [apply in_map_iff; eexists (m, (false, _)); split; [reflexivity|]; apply morphs_In; [exact words_of_wf|]; eexists; split; [exact D|exact W]|]. cbn [fst snd].
      apply in_map. apply in_map_iff. exists (w, s). split; [reflexivity|]. apply filter_In. split; [exact I|]. unfold nn. cbn [fst]. destruct C as [C|[[C1 C2]|[C1 C2]]]; [discriminate| |]; apply orb_true_iff; [left|right]; apply andb_true_iff.
      * split; [apply Nat.eqb_eq, C1|apply mem_In, C2].
      * split; apply Nat.eqb_eq; assumption.
Qed.
Lemma removed_In m : In m (map fst (filter (fun x : str * (bool * list str) => fst (snd x)) all_morphs)) <-> rejected T nouns m.
Proof.
  unfold rejected. rewrite <- susp_spec, <- short_spec, in_map_iff. split.
  - intros ([m' [b ws]] & E & I). cbn [fst] in E. subst m'. apply filter_In in I as [I B]. cbn [fst snd] in B. subst b. apply morphs_In in I as (l & D & W); [|exact words_of_wf].
    rewrite words_uses in D. assert (L : l = map fst (uses_list T m)) by (destruct (map fst (uses_list T m)); [discriminate|congruence]). subst l. rewrite wrong_words_eq in W. destruct (susp m); [|discriminate]. destruct (short m); [split; reflexivity|discriminate].
  - intros [S SH]. pose proof (wrong_words_eq m) as W. rewrite S, SH in W. eexists (m, (true, _)). split; [reflexivity|]. apply filter_In. split; [|reflexivity]. apply morphs_In; [exact words_of_wf|]. eexists. split; [|exact W].
    rewrite words_uses. destruct (uses_list T m) as [|x l] eqn:E; [|reflexivity]. exfalso. unfold susp in S. rewrite E in S. cbn [filter length Nat.eqb negb] in S. rewrite andb_false_r in S. discriminate.
Qed.
(** a word with different endings is affected once by every ending *)
Lemma ops_once w n ls : dget T w = Some (n, ls) -> NoDup (map snd ls) -> NoDup (filter (fun o : str * str => eqb (snd o) w) (ops_of all_morphs)).
Proof.
  intros D N. unfold ops_of.
  assert (F : forall ms : list (str * (bool * list str)), NoDup (map fst ms) -> (forall m b ws, In (m, (b, ws)) ms -> NoDup (filter (fun x => eqb x w) ws)) -> NoDup (filter (fun o : str * str => eqb (snd o) w) (concat (map (fun m : str * (bool * list str) => map (fun w0 => (fst m, w0)) (snd (snd m))) ms)))).
  { induction ms as [|[m [b ws]] ms IH]; intros NK H; [constructor|]. cbn [map concat fst snd]. rewrite filter_app. cbn [map fst] in NK. inversion NK as [|? ? NI NK']; subst. apply NoDup_app_intro.
    - rewrite map_filter. cbn [snd]. apply FinFun.Injective_map_NoDup; [intros x y E; congruence|]. apply (H m b ws). left; reflexivity.
    - apply IH; [exact NK'|]. intros m' b' ws' I. apply (H m' b' ws'). right; exact I.
    - intros [m' w'] I J. apply filter_In in I as [I _]. apply in_map_iff in I as (x & E & _). injection E as <- <-. apply filter_In in J as [J _]. apply in_concat in J as (l & J & K). apply in_map_iff in J as ([m2 [b2 ws2]] & <- & J). cbn [fst snd] in K. apply in_map_iff in K as (y & E & _). injection E as <- _. apply NI. apply (in_map fst) in J. exact J. }
  apply F; [apply morphs_keys, words_of_wf|]. intros m b ws I. apply morphs_In in I as (l & DW & W); [|exact words_of_wf].
  rewrite words_uses in DW. assert (L : l = map fst (uses_list T m)) by (destruct (map fst (uses_list T m)); [discriminate|congruence]). subst l. rewrite wrong_words_eq in W.
  assert (ONE : forall h : str * str -> bool, NoDup (filter (fun x => eqb x w) (map fst (filter h (uses_list T m))))).
  { intros h. rewrite map_filter, filter_filter. destruct (uses_list_ok T m ND NL) as [NU UI]. apply (NoDup_filter (fun x => h x && eqb (fst x) w)) in NU.
    assert (X : forall x y, In x (filter (fun x => h x && eqb (fst x) w) (uses_list T m)) -> In y (filter (fun x => h x && eqb (fst x) w) (uses_list T m)) -> x = y).
    { intros [w1 s1] [w2 s2] I J. apply filter_In in I as [I E1]. apply filter_In in J as [J E2]. apply andb_true_iff in E1 as [_ E1]. apply andb_true_iff in E2 as [_ E2]. cbn [fst] in E1, E2. apply eqb_eq in E1, E2. subst w1 w2. f_equal.
      apply UI in I as (n1 & l1 & D1 & I). apply UI in J as (n2 & l2 & D2 & J). rewrite D in D1, D2. injection D1 as <- <-. injection D2 as <- <-. clear -N I J. induction ls as [|[s0 m0] ls IH]; [destruct I|]. cbn [map snd] in N. inversion N as [|? ? NI N']; subst.
      destruct I as [I|I], J as [J|J]; [congruence| | |exact (IH N' I J)].
      - injection I as -> ->. exfalso. apply NI. apply (in_map snd) in J. exact J.
      - injection J as -> ->. exfalso. apply NI. apply (in_map snd) in I. exact I. }
    destruct (filter (fun x => h x && eqb (fst x) w) (uses_list T m)) as [|x [|y l]]; [constructor|constructor; [intros []|constructor]|]. exfalso. inversion NU as [|? ? NI _]; subst. apply NI. left. apply X; [right; left; reflexivity|left; reflexivity]. }
  destruct (susp m); [|discriminate]. destruct (short m); injection W as <- <-; apply ONE.
Qed.
End Wrong.
