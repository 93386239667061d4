(** * C80: the exact result of MaxLRScoreTokenizer *)
From Coq Require Import QArith Lqa Sorted.
From Verif Require Import PyBase PyDict PySort SortLemmas PyText TokenizerModel TokenizerSpec QLemmas MaxScoreProofs MaxScoreProofs2 LRTokProofs LRTokSpec LRTokModel LRTokProofs2 LRTokProofs3 LRTokProofs4.
Open Scope nat_scope.

(** The dictionaries: the caller's score, else that of the builder, else 1 for the words of a list and for preferred words. *)
Definition given (a : words_arg) (w : str) (q : Q) : Prop := match a with WDict d => dget d w = Some q | WList l => In w l /\ q = 1%Q end.
Lemma add_preferred_get (p : list str) : forall (d : dict str Q) (w : str), dget (fold_left (fun (d : dict str Q) (w : str) => if dmem d w then d else dset d w 1%Q) p d) w = match dget d w with Some q => Some q | None => if mem w p then Some 1%Q else None end.
Proof.
  induction p as [|x p IH]; intros d w; cbn [fold_left mem existsb]; [destruct (dget d w); reflexivity|]. rewrite IH. destruct (dmem d x) eqn:M.
  - destruct (dget d w) as [q|] eqn:D; [reflexivity|]. unfold mem. cbn [existsb]. destruct (eqb_spec x w) as [->|N]; [unfold dmem in M; rewrite D in M; discriminate|]. destruct (eqb_spec w x) as [->|_]; [congruence|]. reflexivity.
  - rewrite dget_dset. unfold mem. cbn [existsb]. destruct (eqb_spec x w) as [->|N].
    + unfold dmem in M. destruct (dget d w); [discriminate|]. destruct (eqb_spec w w); [reflexivity|congruence].
    + destruct (eqb_spec w x) as [->|_]; [congruence|]. reflexivity.
Qed.
Lemma fold_dset_get (e : dict str Q) : NoDup (dkeys e) -> forall (d : dict str Q) (w : str), dget (fold_left (fun (d : dict str Q) kv => dset d (fst kv) (snd kv)) e d) w = match dget e w with Some q => Some q | None => dget d w end.
Proof.
  induction e as [|[k v] e IH]; intros N d w; [reflexivity|]. cbn [dkeys map fst] in N. inversion N as [|? ? NI N']; subst. cbn [fold_left fst snd]. rewrite (IH N'), dget_dset. cbn [dget]. destruct (eqb_spec k w) as [->|NE]; [|reflexivity].
  destruct (dget e w) as [q|] eqn:D; [|reflexivity]. exfalso. apply NI. apply dget_In in D. apply in_map_iff. exists (w, q). auto.
Qed.
Lemma ones_get (l : list str) : forall (d : dict str Q) (w : str), dget (fold_left (fun (d : dict str Q) (w : str) => dset d w 1%Q) l d) w = if mem w l then Some 1%Q else dget d w.
Proof.
  induction l as [|x l IH]; intros d w; [reflexivity|]. cbn [fold_left]. rewrite IH, dget_dset. unfold mem. cbn [existsb]. fold (mem w l). destruct (eqb_spec x w) as [->|N]; [destruct (eqb_spec w w); [|congruence]; destruct (mem w l); reflexivity|]. destruct (eqb_spec w x) as [->|_]; [congruence|]. reflexivity.
Qed.
Lemma ones_wf (l : list str) : forall d : dict str Q, NoDup (dkeys d) -> NoDup (dkeys (fold_left (fun d w => dset d w 1%Q) l d)).
Proof. induction l as [|x l IH]; intros d N; [exact N|]. cbn [fold_left]. apply IH, dwf_dset, N. Qed.
Theorem C80_dictionaries : forall Dl Dr Pl Pr lrgraph builder, (forall d, Dl = WDict d \/ Dr = WDict d -> NoDup (dkeys d)) ->
  let bl := match builder with Some f => fst (f lrgraph) | None => [] end in let br := match builder with Some f => snd (f lrgraph) | None => [] end in
  ((exists l row, In (l, row) lrgraph /\ row <> [] /\ (fold_left (fun s kv => s + snd kv) row 0 == 0)%Q) -> lr_new Dl Dr Pl Pr lrgraph builder = Err ZeroDivisionError) /\
  (~ (exists l row, In (l, row) lrgraph /\ row <> [] /\ (fold_left (fun s kv => s + snd kv) row 0 == 0)%Q) -> exists dl dr, lr_new Dl Dr Pl Pr lrgraph builder = Ok (dl, dr) /\
     (forall w q, dget dl w = Some q <-> given Dl w q \/ ((forall q', ~ given Dl w q') /\ (dget bl w = Some q \/ (dget bl w = None /\ In w (dkeys Pl) /\ q = 1%Q)))) /\
     (forall w q, dget dr w = Some q <-> given Dr w q \/ ((forall q', ~ given Dr w q') /\ (dget br w = Some q \/ (dget br w = None /\ In w (dkeys Pr) /\ q = 1%Q))))).
Proof.
  intros Dl Dr Pl Pr lrgraph builder ND bl br.
  assert (NB : forall row : dict str Q, norm_ok row = false <-> row <> [] /\ (fold_left (fun s kv => s + snd kv) row 0 == 0)%Q).
  { intros [|p row]; cbn [norm_ok]; [split; [discriminate|intros [H _]; congruence]|]. rewrite negb_false_iff, Qeq_bool_iff. split; [intros H; split; [discriminate|exact H]|intros [_ H]; exact H]. }
  assert (FB : forallb (fun lr : str * dict str Q => norm_ok (snd lr)) lrgraph = false <-> exists l row, In (l, row) lrgraph /\ row <> [] /\ (fold_left (fun s kv => s + snd kv) row 0 == 0)%Q).
  { split.
    - intros H. induction lrgraph as [|[l row] g IH]; [discriminate|]. cbn [forallb snd] in H. apply andb_false_iff in H as [H|H]; [exists l, row; split; [left; reflexivity|apply NB, H]|]. destruct IH as (l' & row' & I & J); [exact H|]. exists l', row'. split; [right; exact I|exact J].
    - intros (l & row & I & J). apply not_true_is_false. intros H. rewrite forallb_forall in H. specialize (H _ I). cbn [snd] in H. apply NB in J. congruence. }
  unfold lr_new. rewrite <- FB. split; [intros ->; reflexivity|]. intros H. apply not_false_is_true in H. rewrite H.
  assert (G : forall a (b p : dict str Q), (forall d, a = WDict d -> NoDup (dkeys d)) -> forall w q, dget (add_preferred (add_words b a) p) w = Some q <-> given a w q \/ ((forall q', ~ given a w q') /\ (dget b w = Some q \/ (dget b w = None /\ In w (dkeys p) /\ q = 1%Q)))).
  { intros a b p W w q. unfold add_preferred, add_words. rewrite add_preferred_get, fold_dset_get.
    - assert (GV : forall q', dget (words_dict a) w = Some q' <-> given a w q').
      { intros q'. destruct a as [d|l]; cbn [words_dict given]; [reflexivity|]. rewrite ones_get. destruct (mem w l) eqn:M; [apply mem_In in M; split; [intros [= <-]; auto|intros [_ ->]; reflexivity]|]. apply mem_In_false in M. cbn [dget]. split; [discriminate|tauto]. }
      destruct (dget (words_dict a) w) as [q0|] eqn:D.
      + split; [intros [= <-]; left; apply GV; reflexivity|]. intros [K|[K _]]; [apply GV in K; congruence|]. exfalso. apply (K q0), GV. reflexivity.
      + assert (NG : forall q', ~ given a w q') by (intros q' K; apply GV in K; discriminate). destruct (dget b w) as [q1|].
        * split; [intros [= <-]; right; split; [exact NG|left; reflexivity]|]. intros [K|[_ [K|(K & _)]]]; [destruct (NG q K)|exact K|discriminate].
        * destruct (mem w (dkeys p)) eqn:M; [apply mem_In in M|apply mem_In_false in M].
          -- split; [intros [= <-]; right; split; [exact NG|right; auto]|]. intros [K|[_ [K|(_ & _ & ->)]]]; [destruct (NG q K)|discriminate|reflexivity].
          -- split; [discriminate|]. intros [K|[_ [K|(_ & K & _)]]]; [destruct (NG q K)|discriminate|contradiction].
    - destruct a as [d|l]; cbn [words_dict]; [apply W; reflexivity|apply ones_wf; constructor]. }
  unfold bl, br. destruct builder as [f|]; [destruct (f lrgraph) as [bl' br'] eqn:EF|]; eexists _, _; (split; [reflexivity|split; apply G; intros d E; apply ND; auto]).
Qed.
Print Assumptions C80_dictionaries.
Example C80_dictionaries_example : lr_new (WDict [(u "아이", 1 # 2)]) (WList [u "는"; u "가"]) [(u "오이", 2%Q); (u "아이", 3%Q)] [] [] None = Ok ([(u "아이", 1 # 2); (u "오이", 1%Q)], [(u "는", 1%Q); (u "가", 1%Q)]).
Proof. vm_compute. reflexivity. Qed.

(** The words selected in an eojeol are, in order, exactly those that the rules of comparison, scoring and selection determine; the rules determine them uniquely. *)
Theorem C80_selection : forall Dl Dr Pl Pr a b c d t best, lr_best Dl Dr Pl Pr a b c d t = Ok best -> StronglySorted (fun x y => p2 x <= p0 y) best /\
  (exists K B, scoring Dl Dr Pl a b c d t K /\ selecting Pl Pr K B) /\
  (forall K B, scoring Dl Dr Pl a b c d t K -> selecting Pl Pr K B -> forall x, In x best <-> exists v, B v /\ x = reported Pl Pr v).
Proof. intros Dl Dr Pl Pr a b c d t best E. split; [apply (lr_best_ok _ _ _ _ _ _ _ _ _ _ E)|]. apply lr_best_exact, E. Qed.
Print Assumptions C80_selection.
(** The selection fails only by division by zero, and never when no L score is -1/100000. *)
Theorem C80_selection_total : forall Dl Dr Pl Pr a b c d t, (forall w q, dget Dl w = Some q -> ~ (q == - (1 # 100000))%Q) -> exists best, lr_best Dl Dr Pl Pr a b c d t = Ok best.
Proof.
  intros Dl Dr Pl Pr a b c d t H. unfold lr_best, remove_l_subset. destruct (remove_l_loop_ok a b c (sort (fun x y => Qle_bool (sl y) (sl x)) (lr_init_LR Dl Dr t))) as [l ->]; [|cbn [bind]; eauto].
  intros w I. apply sort_In, init_In in I as ((_ & _ & _ & _ & _ & M & _) & SL & _). rewrite SL. unfold dmem in M. unfold dgetd. destruct (dget Dl (wl w)) as [q|] eqn:D; [apply (H (wl w) q D)|discriminate].
Qed.
Print Assumptions C80_selection_total.
(** The output of an eojeol: the selected words and, for the text before, between and after them - after the L part of the last one -, the words of MaxScoreTokenizer with the R dictionary.
    It fails exactly when such a word is in the R dictionary. *)
Theorem C80_output : forall Dl Dr Pl Pr a b c d t best, lr_best Dl Dr Pl Pr a b c d t = Ok best -> exists tokens : str -> list str, (forall s, ms_tokenize_flat Dr 0%Q 10 s = Ok (tokens s)) /\
  ((exists s w, In (inl s) (pieces t best) /\ In w (tokens s) /\ In w (dkeys Dr)) -> lr_tokenize1 Dl Dr Pl Pr a b c d t = Err AttributeError) /\
  (~ (exists s w, In (inl s) (pieces t best) /\ In w (tokens s) /\ In w (dkeys Dr)) -> exists post, lr_tokenize1 Dl Dr Pl Pr a b c d t = Ok post /\ lr_flatten post = flat_map (piece_words tokens) (pieces t best)).
Proof.
  intros Dl Dr Pl Pr a b c d t best E. exists (fun s => match ms_tokenize_flat Dr 0%Q 10 s with Ok ws => ws | Err _ => [] end).
  assert (G : forall s, ms_tokenize_flat Dr 0%Q 10 s = Ok (match ms_tokenize_flat Dr 0%Q 10 s with Ok ws => ws | Err _ => [] end)) by (intros s; destruct (ms_flat_text Dr 0%Q 10 s) as (ws & -> & _); [lia|reflexivity]).
  split; [exact G|]. destruct (lr_output Dl Dr Pl Pr a b c d t _ G best E) as [H1 H2]. split.
  - intros (s & w & I & J & K). apply H1. exists s, w. split; [exact I|]. split; [exact J|apply dmem_keys, K].
  - intros H. apply H2. intros (s & w & I & J & K). apply H. exists s, w. split; [exact I|]. split; [exact J|apply dmem_keys, K].
Qed.
Print Assumptions C80_output.
Lemma Forall2_imp {A B} (P Q : A -> B -> Prop) : (forall x y, P x y -> Q x y) -> forall l l', Forall2 P l l' -> Forall2 Q l l'.
Proof. intros H l l' F. induction F; constructor; auto. Qed.
(** A sentence is cut eojeol by eojeol, and fails as soon as one of them does. *)
Theorem C80_sentence : forall Dl Dr Pl Pr a b c d s out, lr_tokenize Dl Dr Pl Pr a b c d s = Ok out <-> Forall2 (fun e ws => exists post, lr_tokenize1 Dl Dr Pl Pr a b c d e = Ok post /\ ws = lr_flatten post) (split s) out.
Proof.
  intros Dl Dr Pl Pr a b c d s out. unfold lr_tokenize. rewrite PyBase.mapM_ok. split; intros F; (eapply Forall2_imp; [|exact F]); cbv beta.
  - intros e ws H. destruct (lr_tokenize1 Dl Dr Pl Pr a b c d e) as [p|]; [|discriminate]. cbn [bind] in H. injection H as <-. eauto.
  - intros e ws (post & -> & ->). reflexivity.
Qed.
Print Assumptions C80_sentence.
(** two candidates, a preference that decides, an R part that is emitted twice *)
Example C80_example : let Dl := [(u "아이", 1%Q); (u "아이오", 9 # 10); (u "오아이", 1 # 5)] in let Dr := [(u "는", 1%Q)] in
  match lr_best Dl Dr [] [] (3 # 10) (1 # 2) (1 # 2) (3 # 10) (u "아이오는요") with Ok best => map (fun w => (wl w, wr w, Qred (total w))) best = [(u "아이오", u "는", 19 # 10)] | Err _ => False end /\
  lr_tokenize Dl Dr [] [] (3 # 10) (1 # 2) (1 # 2) (3 # 10) (u "아이오는요 오아이") = Ok [[(u "아이오", true); (u "는", false); (u "는요", true)]; [(u "오", true); (u "아이", true)]].
Proof. vm_compute. split; reflexivity. Qed.
