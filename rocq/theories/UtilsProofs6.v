(** * Bridges from the invariants to the vocabulary of UtilsSpec *)
From Coq Require Import QArith.
From Verif Require Import PyBase PyDict PySort PyText PyFile SortLemmas UtilsModel UtilsSpec UtilsProofs UtilsProofs2 UtilsProofs3 UtilsProofs4 UtilsProofs5.
Open Scope Z_scope.

Lemma dget_top d k b : is_graph d -> dget (top_items d k 0) b = pget d k b.
Proof.
  intros G. unfold top_items, pget. cbn [Z.gtb Z.compare]. destruct (dget d k) as [x|] eqn:E; [|reflexivity].
  pose proof (gwf_inner _ _ _ G E) as ND. apply (dget_perm (K:=str)); [|apply sort_perm].
  eapply Permutation_NoDup; [apply Permutation_sym, Permutation_map, sort_perm|exact ND].
Qed.
Lemma seen_l g l r : Inv g -> seen_from_l g l r = pget (lr g) l r.
Proof. intros I. apply dget_top, I. Qed.
Lemma seen_r g l r : Inv g -> seen_from_r g l r = pget (rl g) r l.
Proof. intros I. apply dget_top, I. Qed.
Lemma reachable_Inv g : reachable g -> Inv g.
Proof. intros (d & ss & lm & rm & ops & g0 & G & N & ->). apply history_Inv. apply (new_Inv _ _ _ _ _ G N). Qed.
Lemma eqb_pair_dec (l l' r r' : str) : reflect (l' = l /\ r' = r) (eqb l l' && eqb r r').
Proof. destruct (eqb_spec l l'), (eqb_spec r r'); constructor; intuition congruence. Qed.
Lemma dec_less o c : dec o c = less o c.
Proof. destruct o as [v|]; [|reflexivity]. unfold dec, less. destruct (Z.leb_spec (v - c) 0), (Z.leb_spec v c); (reflexivity || lia). Qed.
Lemma inco_more o c : inco o c = more o c. Proof. destruct o; reflexivity. Qed.
Lemma is_split_of e l r : reflect (split_of e l r) (is_split e (seq 1 (length e)) l r).
Proof. apply iff_reflect. rewrite is_split_seq. unfold split_of. intuition congruence. Qed.
Lemma storable_writable d : is_graph d -> storable d -> writable d.
Proof.
  intros G S. apply Forall_forall. intros [l rd] I NE. cbn [fst snd] in *. destruct rd as [|[r c] rd]; [congruence|]. split.
  - destruct (S l r c) as (A & B & _); [exists ((r, c) :: rd); split; [exact I|left; reflexivity]|]. split; assumption.
  - apply Forall_forall. intros [r' c'] J. destruct (S l r' c') as (_ & _ & B); [eexists; split; [exact I|exact J]|]. exact B.
Qed.
Lemma sentences_all ls : sentences ls = all_sents ls.
Proof.
  unfold sentences, all_sents, doc_sents. rewrite concat_map, map_map. f_equal. apply map_ext. intros d. rewrite filter_map_comm. reflexivity.
Qed.
Lemma stripped_trimmed m : stripped m -> trimmed m.
Proof.
  intros S c. destruct S as [->|[(x & t & -> & X) (t' & y & E & Y)]].
  - split; [intros t E; discriminate|intros [|] E; discriminate].
  - split; [intros u U; injection U as -> _; exact X|]. intros u U. rewrite E in U. apply app_inj_tail in U as [_ <-]. exact Y.
Qed.
Lemma reading_stop_at nd ns ls n : reading_stops nd ns ls n <-> stop_at nd ns ls n.
Proof. unfold reading_stops, stop_at. rewrite sentences_all, all_sents_length. intuition lia. Qed.

Lemma body_lines_eq content skip : (Z.to_nat skip <= length (file_lines content))%nat -> skip_lines skip (file_lines content) = Some (body_lines content skip).
Proof. intros L. unfold skip_lines. replace (_ <=? _)%nat with true; [reflexivity|]. symmetry. apply Nat.leb_le. lia. Qed.
