(** * C54, the table of predefined pairs a caller gives to Lemmatizer *)
From Coq Require Import List NArith Lia Bool.
Import ListNotations.
From Verif Require Import PyBase HangleModel HangleSpec LemmaModel LemmaSpec LemmaProofs LemmaProofs2 LemmaProofs3 LemmaProofs4 LemmaProofs5 LemmaProps.
Open Scope N_scope.

Lemma pkey_eqb_spec a b : reflect (a = b) (pkey_eqb a b).
Proof.
  destruct a as [x|l r], b as [y|l' r']; cbn [pkey_eqb]; try (constructor; discriminate).
  - destruct (eqb_spec x y) as [->|N]; constructor; [reflexivity|congruence].
  - destruct (eqb_spec l l') as [->|N]; cbn [andb]; [|constructor; congruence]. destruct (eqb_spec r r') as [->|N]; constructor; [reflexivity|congruence].
Qed.
Lemma pred_set_keys d k v x : In x (map fst (pred_set d k v)) <-> x = k \/ In x (map fst d).
Proof.
  induction d as [|[k' v'] d IH]; cbn [pred_set map fst In]; [intuition|]. destruct (pkey_eqb_spec k k') as [->|N]; cbn [map fst In]; [intuition|]. rewrite IH. intuition.
Qed.
Lemma pred_set_NoDup d k v : NoDup (map fst d) -> NoDup (map fst (pred_set d k v)).
Proof.
  induction d as [|[k' v'] d IH]; intros N; cbn [pred_set map fst]; [constructor; [intros []|constructor]|]. cbn [map fst] in N. inversion N as [|? ? NI ND]; subst. destruct (pkey_eqb_spec k k') as [->|NE]; cbn [map fst]; [constructor; assumption|].
  constructor; [|apply IH, ND]. rewrite pred_set_keys. intros [E|I]; [congruence|contradiction].
Qed.
Lemma pred_set_In d k v x y : NoDup (map fst d) -> (In (x, y) (pred_set d k v) <-> x = k /\ y = v \/ x <> k /\ In (x, y) d).
Proof.
  induction d as [|[k' v'] d IH]; intros N; cbn [pred_set In].
  - split; [intros [E|[]]; left; split; congruence|]. intros [[-> ->]|(_ & [])]. left. reflexivity.
  - cbn [map fst] in N. inversion N as [|? ? NI ND]; subst. assert (NK : forall z, In (k', z) d -> False) by (intros z I; apply NI; apply (in_map fst) in I; exact I). destruct (pkey_eqb_spec k k') as [->|NE]; cbn [In].
    + split; [intros [E|I]; [left; split; congruence|right; split; [intros ->; exact (NK _ I)|right; exact I]]|]. intros [[-> ->]|(A & [E|I])]; [left; reflexivity|congruence|right; exact I].
    + rewrite (IH ND). split; [intros [E|[[-> ->]|(A & I)]]; [right; split; [congruence|left; exact E]|left; auto|right; split; [exact A|right; exact I]]|]. intros [[-> ->]|(A & [E|I])]; [right; left; auto|left; exact E|right; right; auto].
Qed.
Definition updated (d : predef) : predef := fold_left (fun acc kv => pred_set acc (fst kv) (snd kv)) d default_predefined.
Lemma update_spec d acc : NoDup (map fst acc) -> NoDup (map fst d) ->
  NoDup (map fst (fold_left (fun a kv => pred_set a (fst kv) (snd kv)) d acc)) /\
  forall x y, In (x, y) (fold_left (fun a kv => pred_set a (fst kv) (snd kv)) d acc) <-> In (x, y) d \/ ~ In x (map fst d) /\ In (x, y) acc.
Proof.
  revert acc. induction d as [|[k v] d IH]; intros acc NA ND; cbn [fold_left]; [split; [exact NA|intros x y; cbn [In map]; tauto]|]. cbn [map fst] in ND. inversion ND as [|? ? NI ND']; subst.
  destruct (IH (pred_set acc k v) (pred_set_NoDup acc k v NA) ND') as [I1 I2]. cbn [fst snd]. split; [exact I1|]. intros x y. rewrite I2, (pred_set_In acc k v x y NA). cbn [In map fst]. split.
  - intros [I|(A & [[-> ->]|(B & I)])]; [left; right; exact I|left; left; reflexivity|right; split; [intros [E|J]; [congruence|contradiction]|exact I]].
  - intros [[E|I]|(A & I)]; [|left; exact I|].
    + assert (x = k) as -> by congruence. assert (y = v) as -> by congruence. right. split; [exact NI|left; auto].
    + right. split; [intros J; apply A; right; exact J|]. right. split; [intros ->; apply A; left; reflexivity|exact I].
Qed.
Lemma default_NoDup : NoDup (map fst default_predefined).
Proof. vm_compute. repeat constructor; [intros [X|[]]; discriminate X|intros []]. Qed.
Lemma updated_pairs d : NoDup (map fst d) -> NoDup (map fst (updated d)) /\ forall l r v, In (KPair l r, v) (updated d) <-> In (KPair l r, v) d.
Proof.
  intros ND. destruct (update_spec d default_predefined default_NoDup ND) as [A B]. split; [exact A|]. intros l r v. unfold updated. rewrite B. split; [|auto]. intros [I|(_ & I)]; [exact I|]. exfalso. cbn in I. destruct I as [X|[X|[]]]; discriminate X.
Qed.
(** Lemmatizer(stems, endings, predefined=d).lemmatize: also the pairs that d lists for a split and that conjugate back to the word;
    the entries of d for other splits, and its entries for words, play no part *)
Theorem C54_lemmatize_table : forall stems endings d chk word, good_table d -> Forall syllable word ->
  exists cs, lemmatize (new_lemmatizer stems endings (Some d)) word chk = Ok cs /\
    forall s e, In (s, e) cs <-> exists l r, word = l ++ r /\ l <> [] /\ (lemma_of l r s e \/ listed d l r s e /\ conjugates_back l r s e) /\ In s stems /\ (chk = true \/ In e endings).
Proof.
  intros stems endings d chk word [ND GT] F. destruct (updated_pairs d ND) as [NU UP]. destruct (lemmatize_exact (new_lemmatizer stems endings (Some d)) chk word) as (cs & C & S).
  - split; [exact NU|]. intros l r items i I J. apply (GT l r items i); [apply UP, I|exact J].
  - exact F.
  - exists cs. split; [exact C|]. intros s e. rewrite S. cbn [lem_stems lem_endings lem_predefined new_lemmatizer]. fold (updated d).
    assert (L : forall l r, listed (updated d) l r s e <-> listed d l r s e) by (intros l r; unfold listed; split; intros (it & I & J); exists it; (split; [apply UP, I|exact J])).
    split; intros (l & r & E & N & X & K); exists l, r; (split; [exact E|split; [exact N|split; [|exact K]]]); (destruct X as [X|[X Y]]; [left; exact X|right; split; [apply L, X|exact Y]]).
Qed.
(** what a word, instead of a pair, in the entry of a split does: two characters are a one-character stem and ending *)
Definition as_pair (i : item) : item := match i with Word [a; b] => Pair [a] [b] | _ => i end.
Lemma conjugatable_as_pair word acc cands : conjugatable word acc (map as_pair cands) = conjugatable word acc cands.
Proof.
  revert acc. induction cands as [|i cands IH]; intros acc; [reflexivity|]. cbn [map conjugatable]. assert (U : unpack (as_pair i) = unpack i) by (destruct i as [s e|[|a [|b [|c w]]]]; reflexivity). rewrite U.
  destruct (unpack i) as [se|]; [|reflexivity]. cbn [bind]. destruct (snd se) as [|e0 t]; [apply IH|]. destruct (parts_of e0) as [R|]; [|reflexivity]. cbn [bind]. destruct (snd R =? "ㅎ"%ch); [apply IH|]. destruct (conjugate (fst se) (e0 :: t) false) as [ss|]; [|reflexivity]. cbn [bind]. apply IH.
Qed.
Theorem C54_table_words : forall d l r,
  lemma_candidate (map (fun kv => (fst kv, map as_pair (snd kv))) d) l r = lemma_candidate d l r.
Proof.
  intros d l r. unfold lemma_candidate. destruct (at_last l) as [lc|]; [|reflexivity]. cbn [bind]. destruct (parts_of lc) as [[[a b] f]|]; [|reflexivity]. cbn [bind]. destruct (compose a b " "%ch) as [lf|]; [|reflexivity]. cbn [bind].
  match goal with |- (do S <- ?X; _) = _ => destruct X as [[[[s0 s1] s2] sf]|]; [|reflexivity] end. cbn [bind]. match goal with |- (do S <- ?X; _) = _ => destruct X as [cands|]; [|reflexivity] end. cbn [bind].
  assert (P : pred_find (map (fun kv => (fst kv, map as_pair (snd kv))) d) l r = option_map (map as_pair) (pred_find d l r)).
  { induction d as [|[[w|l' r'] v] d IH]; cbn [map pred_find fst snd]; [reflexivity|exact IH|]. destruct (eqb l l' && eqb r r'); [reflexivity|exact IH]. }
  rewrite P. destruct (pred_find d l r) as [v|]; cbn [option_map]; [|reflexivity].
  rewrite <- (conjugatable_as_pair (l ++ r) [] (_ ++ v)), map_app, map_map. f_equal.
Qed.
(** any other word there makes every analysis of that split fail *)
Theorem C54_table_words_raise : forall d l r v w, NoDup (map fst d) -> good_left l -> good_right r -> In (KPair l r, v) d -> In (Word w) v -> length w <> 2%nat ->
  (forall i, In i v -> (exists s e, i = Pair s e /\ good_stem s /\ (e = [] \/ good_ending e)) \/ exists w', i = Word w' /\ length w' <> 2%nat) ->
  lemma_candidate d l r = Err ValueError.
Proof.
  intros d l r v w ND (p & c & -> & SY & G) GR I J L GV. destruct (syllable_syl c SY) as (a & b & f & JM & ->). destruct (right_parts r GR) as (s0 & s1 & s2 & sf & ER & HR).
  unfold lemma_candidate. rewrite at_last_app. cbn [bind]. rewrite (parts_syl _ _ _ JM). cbn [bind]. rewrite (compose_syl a b " "%ch) by (destruct JM as (A & B & _); split; [exact A|split; [exact B|lit]]). cbn [bind].
  rewrite ER. cbn [bind]. destruct (undo_exact p a b f r s0 s1 s2 sf JM HR) as (cs & R & SC). rewrite R. cbn [bind]. rewrite (proj2 (pred_find_In d _ r v ND) I).
  assert (X : forall word cands acc, In (Word w) cands -> (forall i, In i cands -> (exists s e, i = Pair s e /\ good_stem s /\ (e = [] \/ good_ending e)) \/ exists w', i = Word w' /\ length w' <> 2%nat) -> conjugatable word acc cands = Err ValueError).
  { intros word cands. induction cands as [|i cands IH]; intros acc Jw H; [destruct Jw|]. cbn [conjugatable]. destruct (H i (or_introl eq_refl)) as [(s & e & -> & GS & GE)|(w' & -> & L')].
    - destruct Jw as [Jw|Jw]; [discriminate Jw|]. assert (H' : forall i, In i cands -> (exists s e, i = Pair s e /\ good_stem s /\ (e = [] \/ good_ending e)) \/ exists w', i = Word w' /\ length w' <> 2%nat) by (intros j Q; apply H; right; exact Q).
      cbn [unpack bind fst snd]. destruct GE as [->|GE]; [apply IH; assumption|]. destruct (conjugate_exact s e GS GE) as (ss & C & _). destruct (good_ending_parts e GE) as (E & o & vv & g & t & -> & HP). rewrite (parts_head [] 0 0 0 E o vv g [] HP). cbn [bind]. destruct (snd (o, vv, g) =? "ㅎ"%ch); [apply IH; assumption|]. rewrite C. cbn [bind]. apply IH; assumption.
    - destruct w' as [|x [|y [|z w']]]; [reflexivity|reflexivity|cbn [length] in L'; lia|reflexivity]. }
  apply X; [apply in_or_app; right; exact J|]. intros i Q. apply in_app_or in Q as [Q|Q]; [|apply GV, Q]. left. apply in_map_iff in Q as ([s e] & <- & Q). exists s, e. split; [reflexivity|]. cbn [fst snd].
  apply SC in Q. apply (proposal_good p a b f r s e JM); [|exact GR|exact Q]. exact G.
Qed.
Example C54_table_ex : lemmatize (new_lemmatizer [u "불"; u "붇"] [u "어"] (Some [(KPair (u "불") (u "어"), [Pair (u "불") (u "어"); Word (u "붇다")])])) (u "불어") false = Ok [(u "불", u "어"); (u "붇", u "어")] /\
  lemma_candidate [(KPair (u "불") (u "어"), [Word (u "붇다네")])] (u "불") (u "어") = Err ValueError.
Proof. vm_compute. split; reflexivity. Qed.
(** the table makes the analysis find what the inverse rules miss *)
Example C54_table_ex2 : lemmatize (new_lemmatizer [u "푸르"] [u "어"] (Some [(KPair (u "푸르러") [], [Pair (u "푸르") (u "어")])])) (u "푸르러") false = Ok [(u "푸르", u "어")] /\
  lemmatize (new_lemmatizer [u "푸르"] [u "어"] None) (u "푸르러") false = Ok [].
Proof. vm_compute. split; reflexivity. Qed.
Print Assumptions C54_lemmatize_table.
Print Assumptions C54_table_words.
Print Assumptions C54_table_words_raise.
