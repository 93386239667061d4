From Verif Require Import PyBase PyText HangleModel HangleSpec.
From Coq Require Import ZifyBool ZifyNat ZifyN.
Ltac Zify.zify_post_hook ::= Z.div_mod_to_equations.
Open Scope N_scope.

Ltac unb := unfold character_is_korean, character_is_complete_korean, character_is_jaum, character_is_moum,
  character_is_number, character_is_english, character_is_punctuation, between,
  kor_begin, kor_end, chosung_base, jungsung_base, jaum_begin, jaum_end, moum_begin, moum_end in *.

(** ** index_of / list_at *)
Lemma index_of_spec l x : 
  match index_of l x with
  | Ok i => nth_error l (N.to_nat i) = Some x
  | Err e => e = ValueError /\ ~ In x l
  end.
Proof.
  induction l as [|y l IH]; simpl; [tauto|].
  destruct (N.eqb_spec y x) as [->|Hn]; simpl; [reflexivity|].
  destruct (index_of l x) as [i|e]; simpl.
  - replace (N.to_nat (i + 1)) with (S (N.to_nat i)) by lia. exact IH.
  - destruct IH as [-> NI]. split; [reflexivity|]. intros [E|I]; [congruence|tauto].
Qed.

Lemma index_of_In l x : In x l -> exists i, index_of l x = Ok i.
Proof.
  intros I. pose proof (index_of_spec l x) as S. destruct (index_of l x); [eauto|tauto].
Qed.
Lemma index_of_notIn l x : ~ In x l -> index_of l x = Err ValueError.
Proof.
  intros I. pose proof (index_of_spec l x) as S. destruct (index_of l x).
  - apply nth_error_In in S. tauto.
  - destruct S as [-> _]. reflexivity.
Qed.
Lemma index_of_nth l i x : NoDup l -> nth_error l (N.to_nat i) = Some x -> index_of l x = Ok i.
Proof.
  intros ND E. pose proof (index_of_spec l x) as S. destruct (index_of l x) as [j|e].
  - f_equal. assert (N.to_nat j = N.to_nat i); [|lia].
    rewrite NoDup_nth_error in ND. apply ND; [apply nth_error_Some; congruence|congruence].
  - apply nth_error_In in E. tauto.
Qed.
Lemma index_of_bound l x i : index_of l x = Ok i -> i < N.of_nat (length l).
Proof.
  intros E. pose proof (index_of_spec l x) as S. rewrite E in S.
  assert (N.to_nat i < length l)%nat by (apply nth_error_Some; congruence). lia.
Qed.
Lemma list_at_ok l i : i < N.of_nat (length l) -> exists x, list_at l i = Ok x /\ nth_error l (N.to_nat i) = Some x.
Proof.
  intros L. unfold list_at. destruct (nth_error l (N.to_nat i)) eqn:E; [eauto|].
  apply nth_error_None in E. lia.
Qed.

Definition nodupb (l : list N) : bool := (fix go l := match l with [] => true | x :: l' => negb (mem x l') && go l' end) l.
Lemma nodupb_NoDup l : nodupb l = true -> NoDup l.
Proof.
  induction l as [|x l IH]; simpl; intros E; constructor; apply andb_true_iff in E; destruct E as [E1 E2].
  - apply negb_true_iff, mem_In_false in E1. exact E1.
  - auto.
Qed.
Lemma cho_nodup : NoDup chosung_list. Proof. apply nodupb_NoDup. vm_compute. reflexivity. Qed.
Lemma jung_nodup : NoDup jungsung_list. Proof. apply nodupb_NoDup. vm_compute. reflexivity. Qed.
Lemma jong_nodup : NoDup jongsung_list. Proof. apply nodupb_NoDup. vm_compute. reflexivity. Qed.

(** ** decompose *)
Lemma decompose_res_syllable c : character_is_complete_korean c = true ->
  exists a b d i j k,
    decompose_res c = Ok (Some (a, b, d)) /\
    index_of chosung_list a = Ok i /\ index_of jungsung_list b = Ok j /\ index_of jongsung_list d = Ok k /\
    c = kor_begin + chosung_base * i + jungsung_base * j + k.
Proof.
  intros K. unfold decompose_res.
  replace (character_is_korean c) with true by (unb; lia).
  replace (between jaum_begin c jaum_end) with false by (unb; lia).
  replace (between moum_begin c moum_end) with false by (unb; lia).
  cbn [negb].
  set (i := c - kor_begin). set (cho := i / chosung_base).
  set (jung := (i - cho * chosung_base) / jungsung_base).
  set (jong := i - cho * chosung_base - jung * jungsung_base).
  assert (Hi : i < 11172) by (subst i; unb; lia).
  assert (H1 : cho < 19) by (subst cho; unb; lia).
  assert (H2 : jung < 21) by (subst jung cho; unb; lia).
  assert (H3 : jong < 28) by (subst jong jung cho; unb; lia).
  destruct (list_at_ok chosung_list cho H1) as (a & E1 & N1).
  destruct (list_at_ok jungsung_list jung H2) as (b & E2 & N2).
  destruct (list_at_ok jongsung_list jong H3) as (d & E3 & N3).
  exists a, b, d, cho, jung, jong. rewrite E1, E2, E3. cbn [bind].
  split; [reflexivity|].
  split; [apply index_of_nth; auto using cho_nodup|].
  split; [apply index_of_nth; auto using jung_nodup|].
  split; [apply index_of_nth; auto using jong_nodup|].
  subst jong jung cho i. unb. lia.
Qed.

Lemma decompose_res_ok c : decompose_res c = Ok (decompose c).
Proof.
  unfold decompose. destruct (character_is_complete_korean c) eqn:K.
  - destruct (decompose_res_syllable c K) as (a & b & d & i & j & k & E & _). rewrite E. reflexivity.
  - unfold decompose_res.
    destruct (character_is_korean c) eqn:Kr; [|reflexivity]. cbn [negb].
    destruct (between jaum_begin c jaum_end) eqn:J; [reflexivity|].
    destruct (between moum_begin c moum_end) eqn:M; [reflexivity|].
    exfalso. unb. lia.
Qed.

Lemma decompose_syllable c : character_is_complete_korean c = true ->
  exists a b d i j k,
    decompose c = Some (a, b, d) /\
    index_of chosung_list a = Ok i /\ index_of jungsung_list b = Ok j /\ index_of jongsung_list d = Ok k /\
    c = kor_begin + chosung_base * i + jungsung_base * j + k.
Proof.
  intros K. destruct (decompose_res_syllable c K) as (a & b & d & i & j & k & E & H).
  exists a, b, d, i, j, k. unfold decompose. rewrite E. tauto.
Qed.

Lemma decompose_jaum c : character_is_jaum c = true -> decompose c = Some (c, SP, SP).
Proof.
  intros J. unfold decompose, decompose_res.
  replace (character_is_korean c) with true by (unb; lia).
  unfold character_is_jaum in J. rewrite J. reflexivity.
Qed.
Lemma decompose_moum c : character_is_moum c = true -> decompose c = Some (SP, c, SP).
Proof.
  intros J. unfold decompose, decompose_res.
  replace (character_is_korean c) with true by (unb; lia).
  replace (between jaum_begin c jaum_end) with false by (unb; lia).
  unfold character_is_moum in J. rewrite J. reflexivity.
Qed.
Lemma decompose_other c : character_is_korean c = false -> decompose c = None.
Proof. intros K. unfold decompose, decompose_res. rewrite K. reflexivity. Qed.

Lemma korean_cases c : character_is_korean c = true ->
  character_is_complete_korean c = true \/ character_is_jaum c = true \/ character_is_moum c = true.
Proof. unb. lia. Qed.

Lemma decompose_none_iff c : decompose c = None <-> character_is_korean c = false.
Proof.
  split; [|apply decompose_other].
  intros E. destruct (character_is_korean c) eqn:K; [|reflexivity].
  destruct (korean_cases c K) as [S|[J|M]].
  - destruct (decompose_syllable c S) as (a & b & d & i & j & k & E' & _). congruence.
  - rewrite decompose_jaum in E by exact J. discriminate.
  - rewrite decompose_moum in E by exact M. discriminate.
Qed.

Lemma compose_ok a b d i j k : index_of chosung_list a = Ok i -> index_of jungsung_list b = Ok j ->
  index_of jongsung_list d = Ok k -> compose a b d = Ok (kor_begin + chosung_base * i + jungsung_base * j + k).
Proof. intros A B C. unfold compose. rewrite A, B, C. reflexivity. Qed.

Lemma compose_decompose c : character_is_complete_korean c = true ->
  exists a b d, decompose c = Some (a, b, d) /\ compose a b d = Ok c /\
                In a chosung_list /\ In b jungsung_list /\ In d jongsung_list.
Proof.
  intros K. destruct (decompose_syllable c K) as (a & b & d & i & j & k & E & A & B & D & ->).
  exists a, b, d. split; [exact E|]. split; [apply compose_ok; auto|].
  assert (G : forall l x n, index_of l x = Ok n -> In x l).
  { intros l x n X. pose proof (index_of_spec l x) as S. rewrite X in S. eapply nth_error_In; eauto. }
  repeat split; eapply G; eauto.
Qed.

Lemma decompose_compose a b d : In a chosung_list -> In b jungsung_list -> In d jongsung_list ->
  exists c, compose a b d = Ok c /\ character_is_complete_korean c = true /\ decompose c = Some (a, b, d).
Proof.
  intros A B D.
  destruct (index_of_In _ _ A) as (i & Ei). destruct (index_of_In _ _ B) as (j & Ej).
  destruct (index_of_In _ _ D) as (k & Ek).
  exists (kor_begin + chosung_base * i + jungsung_base * j + k).
  pose proof (index_of_bound _ _ _ Ei) as Bi. pose proof (index_of_bound _ _ _ Ej) as Bj.
  pose proof (index_of_bound _ _ _ Ek) as Bk.
  change (N.of_nat (length chosung_list)) with 19 in Bi.
  change (N.of_nat (length jungsung_list)) with 21 in Bj.
  change (N.of_nat (length jongsung_list)) with 28 in Bk.
  assert (K : character_is_complete_korean (kor_begin + chosung_base * i + jungsung_base * j + k) = true) by (unb; lia).
  split; [apply compose_ok; auto|]. split; [exact K|].
  destruct (decompose_syllable _ K) as (a' & b' & d' & i' & j' & k' & E & A' & B' & D' & Eq).
  pose proof (index_of_bound _ _ _ A') as Bi'. pose proof (index_of_bound _ _ _ B') as Bj'.
  pose proof (index_of_bound _ _ _ D') as Bk'.
  change (N.of_nat (length chosung_list)) with 19 in Bi'.
  change (N.of_nat (length jungsung_list)) with 21 in Bj'.
  change (N.of_nat (length jongsung_list)) with 28 in Bk'.
  assert (i = i' /\ j = j' /\ k = k') as (-> & -> & ->) by (unb; lia).
  rewrite E.
  assert (G : forall l x y n, index_of l x = Ok n -> index_of l y = Ok n -> x = y).
  { intros l x y n X Y. pose proof (index_of_spec l x) as S. pose proof (index_of_spec l y) as S'.
    rewrite X in S. rewrite Y in S'. congruence. }
  rewrite (G _ _ _ _ Ei A'), (G _ _ _ _ Ej B'), (G _ _ _ _ Ek D'). reflexivity.
Qed.

Lemma compose_error_iff a b d :
  (exists e, compose a b d = Err e) <-> ~ (In a chosung_list /\ In b jungsung_list /\ In d jongsung_list).
Proof.
  split.
  - intros (e & E) (A & B & D). destruct (decompose_compose a b d A B D) as (c & C & _). congruence.
  - intros NI. unfold compose.
    destruct (in_dec N.eq_dec a chosung_list) as [A|A]; [|rewrite (index_of_notIn _ _ A); simpl; eauto].
    destruct (index_of_In _ _ A) as (i & ->). cbn [bind].
    destruct (in_dec N.eq_dec b jungsung_list) as [B|B]; [|rewrite (index_of_notIn _ _ B); simpl; eauto].
    destruct (index_of_In _ _ B) as (j & ->). cbn [bind].
    destruct (in_dec N.eq_dec d jongsung_list) as [D|D]; [tauto|].
    rewrite (index_of_notIn _ _ D). simpl. eauto.
Qed.
Lemma compose_error_kind a b d e : compose a b d = Err e -> e = ValueError.
Proof.
  unfold compose. pose proof (index_of_spec chosung_list a) as A. pose proof (index_of_spec jungsung_list b) as B.
  pose proof (index_of_spec jongsung_list d) as D.
  destruct (index_of chosung_list a); cbn [bind]; [|intro X; inversion X; subst; tauto].
  destruct (index_of jungsung_list b); cbn [bind]; [|intro X; inversion X; subst; tauto].
  destruct (index_of jongsung_list d); cbn [bind]; [discriminate|intro X; inversion X; subst; tauto].
Qed.

Lemma SP_not_cho : ~ In SP chosung_list.
Proof. rewrite <- mem_In. vm_compute. discriminate. Qed.

Lemma decompose_inj c1 c2 t : decompose c1 = Some t -> decompose c2 = Some t -> c1 = c2.
Proof.
  intros E1 E2.
  assert (K1 : character_is_korean c1 = true).
  { destruct (character_is_korean c1) eqn:K; [reflexivity|]. rewrite decompose_other in E1 by exact K. discriminate. }
  assert (K2 : character_is_korean c2 = true).
  { destruct (character_is_korean c2) eqn:K; [reflexivity|]. rewrite decompose_other in E2 by exact K. discriminate. }
  assert (JS : forall x, In x jungsung_list -> x <> SP).
  { intros x I ->. apply mem_In in I. revert I. vm_compute. discriminate. }
  assert (CS : forall x, In x chosung_list -> x <> SP).
  { intros x I ->. apply mem_In in I. revert I. vm_compute. discriminate. }
  destruct (korean_cases c1 K1) as [S1|[J1|M1]]; destruct (korean_cases c2 K2) as [S2|[J2|M2]].
  - destruct (compose_decompose c1 S1) as (a & b & d & D1 & C1 & _).
    destruct (compose_decompose c2 S2) as (a' & b' & d' & D2 & C2 & _). congruence.
  - destruct (compose_decompose c1 S1) as (a & b & d & D1 & C1 & Ia & Ib & Id).
    rewrite decompose_jaum in E2 by exact J2. exfalso. apply (JS _ Ib). congruence.
  - destruct (compose_decompose c1 S1) as (a & b & d & D1 & C1 & Ia & Ib & Id).
    rewrite decompose_moum in E2 by exact M2. exfalso. apply (CS _ Ia). congruence.
  - destruct (compose_decompose c2 S2) as (a & b & d & D1 & C1 & Ia & Ib & Id).
    rewrite decompose_jaum in E1 by exact J1. exfalso. apply (JS _ Ib). congruence.
  - rewrite decompose_jaum in E1 by exact J1. rewrite decompose_jaum in E2 by exact J2. congruence.
  - rewrite decompose_jaum in E1 by exact J1. rewrite decompose_moum in E2 by exact M2.
    unfold SP in *. exfalso. assert (c1 = 32) by congruence. subst. unb. lia.
  - destruct (compose_decompose c2 S2) as (a & b & d & D1 & C1 & Ia & Ib & Id).
    rewrite decompose_moum in E1 by exact M1. exfalso. apply (CS _ Ia). congruence.
  - rewrite decompose_moum in E1 by exact M1. rewrite decompose_jaum in E2 by exact J2.
    unfold SP in *. exfalso. assert (c2 = 32) by congruence. subst. unb. lia.
  - rewrite decompose_moum in E1 by exact M1. rewrite decompose_moum in E2 by exact M2. congruence.
Qed.

(** inventories and code-point ranges coincide for lone jamo *)
Lemma range_forall (P : N -> bool) a n :
  forallb P (map (fun k => a + N.of_nat k) (seq 0 n)) = true -> forall c, a <= c -> c < a + N.of_nat n -> P c = true.
Proof.
  intros F c L H. rewrite forallb_forall in F. apply F. apply in_map_iff.
  exists (N.to_nat (c - a)). split; [lia|]. apply in_seq. lia.
Qed.

Lemma jaum_list_iff c : In c jaum_list <-> character_is_jaum c = true.
Proof.
  split.
  - intros I. assert (F : forallb character_is_jaum jaum_list = true) by (vm_compute; reflexivity).
    rewrite forallb_forall in F. auto.
  - intros J. apply mem_In. apply (range_forall (fun c => mem c jaum_list) 12593 30); [vm_compute; reflexivity| |]; unb; lia.
Qed.
Lemma moum_list_iff c : In c moum_list <-> character_is_moum c = true.
Proof.
  split.
  - intros I. assert (F : forallb character_is_moum moum_list = true) by (vm_compute; reflexivity).
    rewrite forallb_forall in F. auto.
  - intros J. apply mem_In. apply (range_forall (fun c => mem c moum_list) 12623 21); [vm_compute; reflexivity| |]; unb; lia.
Qed.

(** ** ConvolutionHangleEncoder *)
Lemma enc_keep_cases c : enc_keep c = true ->
  c = SP \/ character_is_number c = true \/ character_is_complete_korean c = true \/
  character_is_jaum c = true \/ character_is_moum c = true.
Proof. unfold enc_keep. unb. lia. Qed.

Definition clean_char (c : N) : bool := enc_keep c.

Lemma enc_jamo_rt : forall c, 12593 <= c -> c < 12593 + N.of_nat 51 -> 
  (let r := dec_entry (enc_char c) in match r with Ok [x] => x =? c | _ => false end) &&
  (match enc_char c with [i] => ((0 <=? i) && (i <? 68))%Z | _ => false end) = true.
Proof.
  intros c L H. apply (range_forall (fun c => (let r := dec_entry (enc_char c) in match r with Ok [x] => x =? c | _ => false end) &&
  (match enc_char c with [i] => ((0 <=? i) && (i <? 68))%Z | _ => false end)) 12593 51); [vm_compute; reflexivity|lia|lia].
Qed.
Lemma enc_digit_rt : forall c, 48 <= c -> c < 48 + N.of_nat 10 -> 
  (let r := dec_entry (enc_char c) in match r with Ok [x] => x =? c | _ => false end) &&
  (match enc_char c with [i] => ((i =? 68 + (Z.of_N c - 48)))%Z | _ => false end) = true.
Proof.
  intros c L H. apply (range_forall (fun c => (let r := dec_entry (enc_char c) in match r with Ok [x] => x =? c | _ => false end) &&
  (match enc_char c with [i] => ((i =? 68 + (Z.of_N c - 48)))%Z | _ => false end)) 48 10); [vm_compute; reflexivity|lia|lia].
Qed.

Lemma enc_at_lists z : 
  ((0 <= z < 19)%Z -> exists x, enc_at z = Ok [x] /\ nth_error chosung_list (Z.to_nat z) = Some x) /\
  ((19 <= z < 40)%Z -> exists x, enc_at z = Ok [x] /\ nth_error jungsung_list (Z.to_nat (z - 19)) = Some x) /\
  ((40 <= z < 68)%Z -> exists x, enc_at z = Ok [x] /\ nth_error jongsung_list (Z.to_nat (z - 40)) = Some x).
Proof.
  assert (AT : forall x, nth_error enc_idx_to_char (Z.to_nat z) = Some [x] -> enc_at z = Ok [x]).
  { intros x E. unfold enc_at. rewrite E. reflexivity. }
  assert (G : forall (l1 l2 l3 : list N) tl i x, nth_error l2 i = Some x ->
     nth_error (map (fun c => [c]) (l1 ++ l2 ++ l3) ++ tl) (length l1 + i)%nat = Some [x]).
  { intros l1 l2 l3 tl i x E. assert (i < length l2)%nat by (apply nth_error_Some; congruence).
    rewrite nth_error_app1 by (rewrite map_length, !app_length; lia).
    rewrite nth_error_map, nth_error_app2 by lia.
    replace (length l1 + i - length l1)%nat with i by lia.
    rewrite nth_error_app1 by lia. rewrite E. reflexivity. }
  split; [|split]; intros H.
  - destruct (nth_error chosung_list (Z.to_nat z)) as [x|] eqn:E.
    + exists x. split; [|reflexivity].
      pose proof (G [] chosung_list (jungsung_list ++ jongsung_list ++ enc_num ++ [SP]) [u "<unk>"] _ _ E) as X.
      cbn [length plus] in X. cbn [app] in X. apply AT. exact X.
    + apply nth_error_None in E. change (length chosung_list) with 19%nat in E. lia.
  - destruct (nth_error jungsung_list (Z.to_nat (z - 19))) as [x|] eqn:E.
    + exists x. split; [|reflexivity].
      pose proof (G chosung_list jungsung_list (jongsung_list ++ enc_num ++ [SP]) [u "<unk>"] _ _ E) as X.
      replace (Z.to_nat z) with (length chosung_list + Z.to_nat (z - 19))%nat in AT by (change (length chosung_list) with 19%nat; lia).
      apply AT. exact X.
    + apply nth_error_None in E. change (length jungsung_list) with 21%nat in E. lia.
  - destruct (nth_error jongsung_list (Z.to_nat (z - 40))) as [x|] eqn:E.
    + exists x. split; [|reflexivity].
      pose proof (G (chosung_list ++ jungsung_list) jongsung_list (enc_num ++ [SP]) [u "<unk>"] _ _ E) as X.
      rewrite <- app_assoc in X.
      replace (Z.to_nat z) with (length (chosung_list ++ jungsung_list) + Z.to_nat (z - 40))%nat
        in AT by (change (length (chosung_list ++ jungsung_list)) with 40%nat; lia).
      apply AT. exact X.
    + apply nth_error_None in E. change (length jongsung_list) with 28%nat in E. lia.
Qed.

Lemma enc_at_ok z : (0 <= z < 80)%Z -> exists s, enc_at z = Ok s.
Proof.
  intros H. unfold enc_at. destruct (nth_error enc_idx_to_char (Z.to_nat z)) eqn:E; [eauto|].
  apply nth_error_None in E. change (length enc_idx_to_char) with 80%nat in E. lia.
Qed.

(** a valid triple decodes to the syllable with these jamo indices *)
Lemma dec_entry_triple a b d : (0 <= a < 19)%Z -> (19 <= b < 40)%Z -> (40 <= d < 68)%Z ->
  dec_entry [a; b; d] = Ok [kor_begin + chosung_base * Z.to_N a + jungsung_base * Z.to_N (b - 19) + Z.to_N (d - 40)].
Proof.
  intros A B D. cbn [dec_entry].
  replace (negb ((0 <=? a) && (a <? enc_jung_begin))%Z) with false by (unfold enc_jung_begin; lia).
  replace (negb ((enc_jung_begin <=? b) && (b <? enc_jong_begin))%Z) with false by (unfold enc_jung_begin, enc_jong_begin; lia).
  replace (negb ((enc_jong_begin <=? d) && (d <? enc_number_begin))%Z) with false by (unfold enc_jong_begin, enc_number_begin; lia).
  destruct (enc_at_lists a) as [G1 _]. destruct (G1 A) as (x & -> & Nx).
  destruct (enc_at_lists b) as [_ [G2 _]]. destruct (G2 B) as (y & -> & Ny).
  destruct (enc_at_lists d) as [_ [_ G3]]. destruct (G3 D) as (z & -> & Nz).
  cbn [bind compose_str].
  rewrite (compose_ok x y z (Z.to_N a) (Z.to_N (b - 19)) (Z.to_N (d - 40))); [reflexivity| | |].
  - apply index_of_nth; [apply cho_nodup|]. replace (N.to_nat (Z.to_N a)) with (Z.to_nat a) by lia. exact Nx.
  - apply index_of_nth; [apply jung_nodup|]. replace (N.to_nat (Z.to_N (b - 19))) with (Z.to_nat (b - 19)) by lia. exact Ny.
  - apply index_of_nth; [apply jong_nodup|]. replace (N.to_nat (Z.to_N (d - 40))) with (Z.to_nat (d - 40)) by lia. exact Nz.
Qed.

Lemma enc_char_syllable c : character_is_complete_korean c = true ->
  exists a b d, enc_char c = [a; b; d] /\ (0 <= a < 19)%Z /\ (19 <= b < 40)%Z /\ (40 <= d < 68)%Z /\
    c = kor_begin + chosung_base * Z.to_N a + jungsung_base * Z.to_N (b - 19) + Z.to_N (d - 40).
Proof.
  intros K. unfold enc_char.
  replace (c =? 32) with false by (unb; lia). replace (between 48 c 57) with false by (unb; lia).
  unfold enc_decompose, enc_jung_begin, enc_jong_begin. unfold character_is_complete_korean in K. rewrite K.
  eexists _, _, _. split; [reflexivity|]. unb. split; [|split; [|split]]; lia.
Qed.

Lemma dec_enc_char c : enc_keep c = true -> dec_entry (enc_char c) = Ok [c].
Proof.
  intros K. destruct (enc_keep_cases c K) as [->|[D|[S|[J|M]]]].
  - vm_compute. reflexivity.
  - pose proof (enc_digit_rt c) as G.
    assert (G' := G ltac:(unb; lia) ltac:(unb; lia)). apply andb_true_iff in G'. destruct G' as [G1 _].
    cbv zeta in G1. destruct (dec_entry (enc_char c)) as [[|x [|? ?]]|]; try discriminate.
    apply N.eqb_eq in G1. rewrite G1. reflexivity.
  - destruct (enc_char_syllable c S) as (a & b & d & -> & A & B & D & E).
    rewrite dec_entry_triple by assumption. rewrite <- E. reflexivity.
  - pose proof (enc_jamo_rt c) as G.
    assert (G' := G ltac:(unb; lia) ltac:(unb; lia)). apply andb_true_iff in G'. destruct G' as [G1 _].
    cbv zeta in G1. destruct (dec_entry (enc_char c)) as [[|x [|? ?]]|]; try discriminate.
    apply N.eqb_eq in G1. rewrite G1. reflexivity.
  - pose proof (enc_jamo_rt c) as G.
    assert (G' := G ltac:(unb; lia) ltac:(unb; lia)). apply andb_true_iff in G'. destruct G' as [G1 _].
    cbv zeta in G1. destruct (dec_entry (enc_char c)) as [[|x [|? ?]]|]; try discriminate.
    apply N.eqb_eq in G1. rewrite G1. reflexivity.
Qed.

(** the part of the class that is not the space itself *)
Definition enc_keep' (c : N) : bool := enc_keep c && negb (c =? SP).

Lemma enc_normalize_runs s : enc_normalize s = join [SP] (runs enc_keep' s).
Proof.
  unfold enc_normalize.
  replace (blank_unless enc_keep s) with (blank_unless enc_keep' s).
  - apply strip_collapse_blank. intros c. unfold enc_keep', enc_keep, is_space. unb. unfold SP. lia.
  - unfold blank_unless. apply map_ext. intros c. unfold enc_keep'.
    destruct (N.eqb_spec c SP) as [->|]; cbn [negb]; [reflexivity|]. rewrite andb_true_r. reflexivity.
Qed.

Lemma Forall_join (P : N -> Prop) ws : P SP -> Forall (fun w => Forall P w) ws -> Forall P (join [SP] ws).
Proof.
  intros PS F. induction F as [|w ws Fw F IH]; [constructor|].
  destruct ws as [|w2 ws]; [exact Fw|].
  change (join [SP] (w :: w2 :: ws)) with (w ++ [SP] ++ join [SP] (w2 :: ws)).
  apply Forall_app. split; [exact Fw|]. constructor; [exact PS|exact IH].
Qed.

Lemma enc_normalize_keep s : Forall (fun c => enc_keep c = true) (enc_normalize s).
Proof.
  rewrite enc_normalize_runs. apply Forall_join; [reflexivity|].
  eapply Forall_impl; [|apply runs_Forall]. cbv beta. intros w [_ F].
  eapply Forall_impl; [|exact F]. cbv beta. intros c Hc. unfold enc_keep' in Hc. apply andb_true_iff in Hc. tauto.
Qed.

Lemma mapM_dec_enc s : Forall (fun c => enc_keep c = true) s -> mapM dec_entry (map enc_char s) = Ok (map (fun c => [c]) s).
Proof.
  induction 1 as [|c s Hc F IH]; [reflexivity|]. cbn [map mapM]. rewrite dec_enc_char by exact Hc.
  cbn [bind]. rewrite IH. reflexivity.
Qed.
Lemma concat_singletons {A} (s : list A) : concat (map (fun c => [c]) s) = s.
Proof. induction s as [|c s IH]; simpl; congruence. Qed.

Lemma encoder_roundtrip s : onehot_to_sent (sent_to_onehot s) = Ok (enc_normalize s).
Proof.
  unfold onehot_to_sent, sent_to_onehot. rewrite mapM_dec_enc by apply enc_normalize_keep.
  cbn [bind]. rewrite concat_singletons. reflexivity.
Qed.

Lemma enc_normalize_idem s : enc_normalize (enc_normalize s) = enc_normalize s.
Proof.
  rewrite (enc_normalize_runs s) at 1. rewrite enc_normalize_runs, runs_join; [symmetry; apply enc_normalize_runs|reflexivity|].
  apply runs_Forall.
Qed.

Definition wf_entry (e : list Z) : Prop :=
  (exists i, e = [i] /\ (0 <= i < 79)%Z) \/
  (exists a b d, e = [a; b; d] /\ (0 <= a < 19)%Z /\ (19 <= b < 40)%Z /\ (40 <= d < 68)%Z).

Lemma enc_char_wf c : enc_keep c = true -> wf_entry (enc_char c).
Proof.
  intros K. destruct (enc_keep_cases c K) as [->|[D|[S|[J|M]]]].
  - left. exists 78%Z. split; [reflexivity|lia].
  - left. pose proof (enc_digit_rt c ltac:(unb; lia) ltac:(unb; lia)) as G. apply andb_true_iff in G. destruct G as [_ G].
    destruct (enc_char c) as [|i [|? ?]]; try discriminate. exists i. split; [reflexivity|]. unb; lia.
  - right. destruct (enc_char_syllable c S) as (a & b & d & E & A & B & D & _). exists a, b, d. auto.
  - left. pose proof (enc_jamo_rt c ltac:(unb; lia) ltac:(unb; lia)) as G. apply andb_true_iff in G. destruct G as [_ G].
    destruct (enc_char c) as [|i [|? ?]]; try discriminate. exists i. split; [reflexivity|]. unb; lia.
  - left. pose proof (enc_jamo_rt c ltac:(unb; lia) ltac:(unb; lia)) as G. apply andb_true_iff in G. destruct G as [_ G].
    destruct (enc_char c) as [|i [|? ?]]; try discriminate. exists i. split; [reflexivity|]. unb; lia.
Qed.

Lemma sent_to_onehot_wf s : length (sent_to_onehot s) = length (enc_normalize s) /\ Forall wf_entry (sent_to_onehot s).
Proof.
  unfold sent_to_onehot. rewrite map_length. split; [reflexivity|].
  rewrite Forall_map. eapply Forall_impl; [|apply enc_normalize_keep]. cbv beta. intros; apply enc_char_wf; assumption.
Qed.

Lemma one_hot_row_wf e : wf_entry e -> exists row, one_hot_row e = Ok row /\ length row = 80%nat /\
  forall j, (j < 80)%nat -> nth_error row j = Some (if in_dec Z.eq_dec (Z.of_nat j) e then 1%Z else 0%Z).
Proof.
  intros W. unfold one_hot_row.
  replace (forallb (fun j : Z => ((0 <=? j) && (j <? enc_dim))%Z) e) with true.
  2:{ symmetry. apply forallb_forall. unfold enc_dim.
      destruct W as [(i & -> & H)|(a & b & d & -> & A & B & D)]; intros x I; simpl in I.
      - destruct I as [<-|[]]. lia.
      - destruct I as [<-|[<-|[<-|[]]]]; lia. }
  eexists. split; [reflexivity|]. split; [rewrite map_length, seq_length; reflexivity|].
  intros j Hj. change (Z.to_nat enc_dim) with 80%nat.
  rewrite nth_error_map.
  assert (E : nth_error (seq 0 80) j = Some j).
  { rewrite (nth_error_nth' _ 0%nat) by (rewrite seq_length; exact Hj). rewrite seq_nth by exact Hj. reflexivity. }
  rewrite E. cbn [option_map]. f_equal.
  destruct (in_dec Z.eq_dec (Z.of_nat j) e) as [I|I].
  - replace (existsb (Z.eqb (Z.of_nat j)) e) with true; [reflexivity|]. symmetry. apply existsb_exists.
    exists (Z.of_nat j). split; [exact I|apply Z.eqb_refl].
  - destruct (existsb (Z.eqb (Z.of_nat j)) e) eqn:X; [|reflexivity]. apply existsb_exists in X.
    destruct X as (y & Iy & Ey). apply Z.eqb_eq in Ey. congruence.
Qed.

Lemma encode_wf s : exists m, encode s = Ok m /\ length m = length (enc_normalize s) /\
  Forall2 (fun e row => length row = 80%nat /\
     forall j, (j < 80)%nat -> nth_error row j = Some (if in_dec Z.eq_dec (Z.of_nat j) e then 1%Z else 0%Z))
    (sent_to_onehot s) m.
Proof.
  destruct (sent_to_onehot_wf s) as [L F]. rewrite <- L. unfold encode. clear L.
  induction F as [|e l We F IH]; [exists []; simpl; auto|].
  destruct (one_hot_row_wf e We) as (row & E & H). destruct IH as (m & Em & Lm & Fm).
  exists (row :: m). cbn [mapM]. rewrite E. cbn [bind]. rewrite Em. cbn [bind].
  repeat split; [simpl; congruence|constructor; auto].
Qed.

(** ** validation in onehot_to_sent *)
Definition bad_entry (e : list Z) : Prop :=
  (exists i, e = [i] /\ ~ (0 <= i < 80)%Z) \/
  (exists a b d, e = [a; b; d] /\ ~ ((0 <= a < 19)%Z /\ (19 <= b < 40)%Z /\ (40 <= d < 68)%Z)).

Lemma dec_entry_cases e : (bad_entry e /\ dec_entry e = Err ValueError) \/ (~ bad_entry e /\ exists s, dec_entry e = Ok s).
Proof.
  destruct e as [|a [|b [|d [|x e]]]].
  - right. split; [|simpl; eauto]. intros [(i & E & _)|(?&?&?&E&_)]; discriminate.
  - cbn [dec_entry]. destruct ((0 <=? a) && (a <? enc_dim))%Z eqn:C; unfold enc_dim in C.
    + right. split.
      * intros [(i & E & N)|(?&?&?&E&_)]; [|discriminate]. injection E as <-. apply N. lia.
      * apply enc_at_ok. lia.
    + left. split; [|reflexivity]. left. exists a. split; [reflexivity|]. lia.
  - right. split; [|simpl; eauto]. intros [(i & E & _)|(?&?&?&E&_)]; discriminate.
  - destruct (Z_lt_dec a 0) as [|A1]; [|destruct (Z_lt_dec a 19) as [A2|]; [|]].
    1,3: left; split; [right; exists a, b, d; split; [reflexivity|lia]|cbn [dec_entry]; unfold enc_jung_begin;
       replace (negb ((0 <=? a) && (a <? 19))%Z) with true by lia; reflexivity].
    destruct (Z_lt_dec b 19) as [|B1]; [|destruct (Z_lt_dec b 40) as [B2|]; [|]].
    1,3: left; split; [right; exists a, b, d; split; [reflexivity|lia]|cbn [dec_entry]; unfold enc_jung_begin, enc_jong_begin;
       replace (negb ((0 <=? a) && (a <? 19))%Z) with false by lia;
       replace (negb ((19 <=? b) && (b <? 40))%Z) with true by lia; reflexivity].
    destruct (Z_lt_dec d 40) as [|D1]; [|destruct (Z_lt_dec d 68) as [D2|]; [|]].
    1,3: left; split; [right; exists a, b, d; split; [reflexivity|lia]|cbn [dec_entry]; unfold enc_jung_begin, enc_jong_begin, enc_number_begin;
       replace (negb ((0 <=? a) && (a <? 19))%Z) with false by lia;
       replace (negb ((19 <=? b) && (b <? 40))%Z) with false by lia;
       replace (negb ((40 <=? d) && (d <? 68))%Z) with true by lia; reflexivity].
    right. split.
    + intros [(i & E & N)|(a'&b'&d'&E&N)]; [discriminate|]. injection E as <- <- <-. apply N. lia.
    + rewrite dec_entry_triple by lia. eauto.
  - right. split; [|simpl; eauto]. intros [(i & E & _)|(?&?&?&E&_)]; discriminate.
Qed.

Lemma onehot_to_sent_error_iff l :
  (Exists bad_entry l <-> onehot_to_sent l = Err ValueError) /\
  (~ Exists bad_entry l -> exists chunks, onehot_to_sent l = Ok (concat chunks) /\ Forall2 (fun e s => dec_entry e = Ok s) l chunks).
Proof.
  unfold onehot_to_sent. induction l as [|e l [IH1 IH2]].
  - split; [split; [intro X; inversion X|discriminate]|]. intros _. exists []. simpl; auto.
  - cbn [mapM]. destruct (dec_entry_cases e) as [[B E]|[NB (s & E)]]; rewrite E; cbn [bind].
    + split; [split; [reflexivity|intros _; constructor; exact B]|]. intros X; exfalso; apply X; constructor; exact B.
    + split.
      * rewrite Exists_cons. destruct (mapM dec_entry l) as [ys|e'] eqn:M; cbn [bind] in *.
        -- split; [intros [X|X]; [tauto|apply IH1 in X; discriminate]|discriminate].
        -- split; [intros [X|X]; [tauto|apply IH1 in X; congruence]|].
           intros X. right. apply IH1. congruence.
      * intros X. rewrite Exists_cons in X. destruct IH2 as (ch & Ec & Fc); [tauto|].
        destruct (mapM dec_entry l) as [ys|e'] eqn:M; cbn [bind] in *; [|discriminate].
        exists (s :: ys). split; [reflexivity|]. constructor; [exact E|]. apply mapM_ok. exact M.
Qed.

(** ** Links to the specification vocabulary *)
Lemma syllable_iff c : syllable c <-> character_is_complete_korean c = true.
Proof. unfold syllable. unb. rewrite andb_true_iff, !N.leb_le. tauto. Qed.
Lemma consonant_iff c : consonant c <-> character_is_jaum c = true.
Proof. unfold consonant. unb. rewrite andb_true_iff, !N.leb_le. tauto. Qed.
Lemma vowel_iff c : vowel c <-> character_is_moum c = true.
Proof. unfold vowel. unb. rewrite andb_true_iff, !N.leb_le. tauto. Qed.
Lemma korean_iff c : syllable c \/ consonant c \/ vowel c <-> character_is_korean c = true.
Proof.
  rewrite syllable_iff, consonant_iff, vowel_iff. unfold character_is_korean, character_is_complete_korean, character_is_jaum, character_is_moum.
  rewrite !orb_true_iff. tauto.
Qed.

Lemma C01_compose_decompose_pf : forall c, syllable c ->
  exists cho jung jong, decompose_res c = Ok (Some (cho, jung, jong)) /\ compose cho jung jong = Ok c /\
    In cho initials /\ In jung vowels /\ In jong finals.
Proof.
  intros c S. apply syllable_iff in S. destruct (compose_decompose c S) as (a & b & d & H1 & H2 & H3 & H4 & H5).
  exists a, b, d. rewrite decompose_res_ok, H1. auto.
Qed.

Lemma C01_decompose_compose_pf : forall cho jung jong, In cho initials -> In jung vowels -> In jong finals ->
  exists c, compose cho jung jong = Ok c /\ syllable c /\ decompose_res c = Ok (Some (cho, jung, jong)).
Proof.
  intros a b d A B D. destruct (decompose_compose a b d A B D) as (c & H1 & H2 & H3).
  exists c. rewrite decompose_res_ok, H3, syllable_iff. auto.
Qed.

Lemma C02_decompose_total_pf : forall c,
  (syllable c -> exists a b d, decompose_res c = Ok (Some (a, b, d)) /\ In a initials /\ In b vowels /\ In d finals) /\
  (consonant c -> decompose_res c = Ok (Some (c, 32, 32))) /\
  (vowel c -> decompose_res c = Ok (Some (32, c, 32))) /\
  (~ syllable c -> ~ consonant c -> ~ vowel c -> decompose_res c = Ok None).
Proof.
  intros c. rewrite decompose_res_ok. split; [|split; [|split]].
  - intros S. destruct (C01_compose_decompose_pf c S) as (a & b & d & E & _ & H). rewrite decompose_res_ok in E.
    exists a, b, d. split; [exact E|exact H].
  - intros J. rewrite decompose_jaum by (apply consonant_iff; exact J). reflexivity.
  - intros J. rewrite decompose_moum by (apply vowel_iff; exact J). reflexivity.
  - intros S J M. rewrite decompose_other; [reflexivity|].
    destruct (character_is_korean c) eqn:K; [|reflexivity]. apply korean_iff in K. tauto.
Qed.

Lemma C02_decompose_injective_pf : forall c1 c2 t,
  decompose_res c1 = Ok (Some t) -> decompose_res c2 = Ok (Some t) -> c1 = c2.
Proof. intros c1 c2 t E1 E2. rewrite decompose_res_ok in E1, E2. apply (decompose_inj c1 c2 t); congruence. Qed.

Lemma C03_compose_error_iff_pf : forall cho jung jong,
  (compose cho jung jong = Err ValueError <-> ~ (In cho initials /\ In jung vowels /\ In jong finals)) /\
  ((In cho initials /\ In jung vowels /\ In jong finals) <-> exists c, compose cho jung jong = Ok c /\ syllable c).
Proof.
  intros a b d. split; [split|split].
  - intros E. apply compose_error_iff. eauto.
  - intros N. apply compose_error_iff in N. destruct N as (e & E). rewrite E. f_equal. eapply compose_error_kind; eauto.
  - intros (A & B & D). destruct (C01_decompose_compose_pf a b d A B D) as (c & H1 & H2 & _). exists c. split; assumption.
  - intros (c & E & _). destruct (compose_error_iff a b d) as [_ G].
    assert (DD : forall x l, In x l \/ ~ In x l) by (intros x l; destruct (in_dec N.eq_dec x l); auto).
    destruct (DD a initials) as [A|A]; [|exfalso; destruct G as (e & Ee); [intros (A' & _ & _); exact (A A')|congruence]].
    destruct (DD b vowels) as [B|B]; [|exfalso; destruct G as (e & Ee); [intros (_ & A' & _); exact (B A')|congruence]].
    destruct (DD d finals) as [D|D]; [|exfalso; destruct G as (e & Ee); [intros (_ & _ & A'); exact (D A')|congruence]].
    split; [exact A|split; [exact B|exact D]].
Qed.

Lemma C06_encode_matrix_pf : forall s, exists m, encode s = Ok m /\
  Forall2 (fun e row => length row = 80%nat /\
     forall j, (j < 80)%nat -> nth_error row j = Some (if in_dec Z.eq_dec (Z.of_nat j) e then 1%Z else 0%Z))
    (sent_to_onehot s) m.
Proof. intros s. destruct (encode_wf s) as (m & E & _ & F). exists m. auto. Qed.


Lemma C04_character_classes_pf : forall c,
  (character_is_korean c = true <-> syllable c \/ consonant c \/ vowel c) /\
  (character_is_complete_korean c = true <-> syllable c) /\
  (character_is_jaum c = true <-> consonant c) /\
  (character_is_moum c = true <-> vowel c) /\
  (character_is_number c = true <-> In c (u "0123456789")) /\
  (character_is_english c = true <-> In c (u "abcdefghijklmnopqrstuvwxyzABCDEFGHIJKLMNOPQRSTUVWXYZ")) /\
  (character_is_punctuation c = true <-> In c [33; 34; 39; 44; 46; 63; 96]) /\
  (jaum_list = map (fun k => 12593 + N.of_nat k) (seq 0 30)) /\
  (moum_list = map (fun k => 12623 + N.of_nat k) (seq 0 21)) /\
  (length (filter (fun b : bool => b) [character_is_complete_korean c; character_is_jaum c; character_is_moum c;
      character_is_number c; character_is_english c; character_is_punctuation c]) <= 1)%nat.
Proof.
  intros c. rewrite <- korean_iff, <- syllable_iff, <- consonant_iff, <- vowel_iff.
  split; [tauto|]. split; [tauto|]. split; [tauto|]. split; [tauto|].
  split; [split|split; [split|split; [split|split; [vm_compute; reflexivity|split; [vm_compute; reflexivity|]]]]].
  - intros H. apply mem_In. apply (range_forall (fun c => mem c (u "0123456789")) 48 10); [vm_compute; reflexivity| |]; unb; lia.
  - intros I. assert (F : forallb character_is_number (u "0123456789") = true) by (vm_compute; reflexivity).
    rewrite forallb_forall in F. auto.
  - intros H. apply mem_In. assert (97 <= c <= 122 \/ 65 <= c <= 90) as [X|X] by (unb; lia).
    + apply (range_forall (fun c => mem c (u "abcdefghijklmnopqrstuvwxyzABCDEFGHIJKLMNOPQRSTUVWXYZ")) 97 26); [vm_compute; reflexivity|lia|lia].
    + apply (range_forall (fun c => mem c (u "abcdefghijklmnopqrstuvwxyzABCDEFGHIJKLMNOPQRSTUVWXYZ")) 65 26); [vm_compute; reflexivity|lia|lia].
  - intros I. assert (F : forallb character_is_english (u "abcdefghijklmnopqrstuvwxyzABCDEFGHIJKLMNOPQRSTUVWXYZ") = true) by (vm_compute; reflexivity).
    rewrite forallb_forall in F. auto.
  - intros H. cbn [In]. unb. lia.
  - cbn [In]. intros H. unb. lia.
  - assert (D01 : character_is_complete_korean c && character_is_jaum c = false) by (unb; lia).
    assert (D02 : character_is_complete_korean c && character_is_moum c = false) by (unb; lia).
    assert (D03 : character_is_complete_korean c && character_is_number c = false) by (unb; lia).
    assert (D04 : character_is_complete_korean c && character_is_english c = false) by (unb; lia).
    assert (D05 : character_is_complete_korean c && character_is_punctuation c = false) by (unb; lia).
    assert (D12 : character_is_jaum c && character_is_moum c = false) by (unb; lia).
    assert (D13 : character_is_jaum c && character_is_number c = false) by (unb; lia).
    assert (D14 : character_is_jaum c && character_is_english c = false) by (unb; lia).
    assert (D15 : character_is_jaum c && character_is_punctuation c = false) by (unb; lia).
    assert (D23 : character_is_moum c && character_is_number c = false) by (unb; lia).
    assert (D24 : character_is_moum c && character_is_english c = false) by (unb; lia).
    assert (D25 : character_is_moum c && character_is_punctuation c = false) by (unb; lia).
    assert (D34 : character_is_number c && character_is_english c = false) by (unb; lia).
    assert (D35 : character_is_number c && character_is_punctuation c = false) by (unb; lia).
    assert (D45 : character_is_english c && character_is_punctuation c = false) by (unb; lia).
    destruct (character_is_complete_korean c), (character_is_jaum c), (character_is_moum c), (character_is_number c), (character_is_english c), (character_is_punctuation c);
    try discriminate; cbn [filter length]; lia.
Qed.

Lemma enc_keep'_text c : enc_keep' c = enc_text c.
Proof. unfold enc_keep', enc_keep, enc_text. unb. unfold SP. lia. Qed.
Lemma runs_ext k1 k2 s : (forall c, k1 c = k2 c) -> runs k1 s = runs k2 s.
Proof.
  intros E. induction s as [|c s IH]; [reflexivity|]. cbn [runs]. rewrite E, IH.
  destruct s as [|d s]; [reflexivity|]. rewrite E. reflexivity.
Qed.
Lemma cleaned_iff s t : cleaned s t <-> t = enc_normalize s.
Proof.
  unfold cleaned. rewrite enc_normalize_runs, (runs_ext enc_keep' enc_text) by apply enc_keep'_text. split.
  - intros (ws & M & ->). apply runs_MaxRuns_iff in M. subst. reflexivity.
  - intros ->. exists (runs enc_text s). split; [apply runs_MaxRuns_iff|]; reflexivity.
Qed.

Lemma C05_encoder_roundtrip_pf : forall s, exists t, cleaned s t /\ onehot_to_sent (sent_to_onehot s) = Ok t.
Proof. intros s. exists (enc_normalize s). rewrite cleaned_iff. split; [reflexivity|apply encoder_roundtrip]. Qed.

Lemma C05_clean_text_unchanged_pf : forall t, (exists s, cleaned s t) -> onehot_to_sent (sent_to_onehot t) = Ok t.
Proof. intros t (s & C). apply cleaned_iff in C. subst. rewrite encoder_roundtrip, enc_normalize_idem. reflexivity. Qed.

Lemma C06_onehot_layout_pf : forall s, exists t, cleaned s t /\
  Forall2 (fun c e => wf_onehot e /\ (length e = 3%nat <-> syllable c)) t (sent_to_onehot s).
Proof.
  intros s. exists (enc_normalize s). rewrite cleaned_iff. split; [reflexivity|].
  unfold sent_to_onehot. induction (enc_normalize_keep s) as [|c t Hc F IH]; [constructor|].
  constructor; [|exact IH]. rewrite syllable_iff. split.
  - destruct (enc_char_wf c Hc) as [(i & E & L)|H]; [left; exists i; split; [exact E|lia]|right; exact H].
  - split; intros H.
    + destruct (character_is_complete_korean c) eqn:K; [reflexivity|].
      exfalso. unfold enc_char, enc_decompose in H. unfold character_is_complete_korean in K. rewrite K in H.
      destruct (c =? 32); [discriminate|]. destruct (between 48 c 57); discriminate.
    + destruct (enc_char_syllable c H) as (a & b & d & E & _). rewrite E. reflexivity.
Qed.

Lemma enc_at_single z : (0 <= z < 79)%Z -> exists c, enc_at z = Ok [c].
Proof.
  intros H. unfold enc_at, enc_idx_to_char.
  rewrite nth_error_app1 by (rewrite map_length; change (length (chosung_list ++ jungsung_list ++ jongsung_list ++ enc_num ++ [SP])) with 79%nat; lia).
  rewrite nth_error_map.
  destruct (nth_error (chosung_list ++ jungsung_list ++ jongsung_list ++ enc_num ++ [SP]) (Z.to_nat z)) eqn:E; [simpl; eauto|].
  apply nth_error_None in E. change (length (chosung_list ++ jungsung_list ++ jongsung_list ++ enc_num ++ [SP])) with 79%nat in E. lia.
Qed.

Lemma C07_onehot_to_sent_validation_pf : forall l,
  (Exists invalid_onehot l <-> onehot_to_sent l = Err ValueError) /\
  (~ Exists invalid_onehot l -> exists chunks, onehot_to_sent l = Ok (concat chunks) /\
     Forall2 (fun e s =>
        (length e = 3%nat -> exists c, s = [c] /\ syllable c /\ enc_char c = e) /\
        (length e = 1%nat -> (exists c, s = [c]) \/ (e = [79%Z] /\ s = u "<unk>")) /\
        (length e <> 1%nat -> length e <> 3%nat -> s = u "<unk>")) l chunks).
Proof.
  intros l. destruct (onehot_to_sent_error_iff l) as [A B]. split; [exact A|].
  intros N. destruct (B N) as (ch & E & F). exists ch. split; [exact E|]. clear A B E.
  induction F as [|e s l ch He F IH]; [constructor|].
  assert (NB : ~ invalid_onehot e) by (intro; apply N; constructor; assumption).
  constructor; [|apply IH; intro; apply N; right; assumption].
  destruct e as [|a [|b [|d [|x e]]]]; cbn [length]; (split; [|split]); try lia.
  - intros _ _. simpl in He. congruence.
  - intros _. cbn [dec_entry] in He. destruct ((0 <=? a) && (a <? enc_dim))%Z eqn:C; [|discriminate].
    unfold enc_dim in C. destruct (Z.eq_dec a 79) as [->|Na].
    + right. split; [reflexivity|]. vm_compute in He. vm_compute. congruence.
    + left. destruct (enc_at_single a) as (c & Ec); [lia|]. exists c. congruence.
  - intros _ _. simpl in He. congruence.
  - intros _. assert (R : (0 <= a < 19)%Z /\ (19 <= b < 40)%Z /\ (40 <= d < 68)%Z).
    { destruct (Z_lt_dec a 0), (Z_lt_dec a 19), (Z_lt_dec b 19), (Z_lt_dec b 40), (Z_lt_dec d 40), (Z_lt_dec d 68); try lia;
      exfalso; apply NB; right; exists a, b, d; split; try reflexivity; lia. }
    rewrite dec_entry_triple in He by tauto.
    assert (Es : s = [kor_begin + chosung_base * Z.to_N a + jungsung_base * Z.to_N (b - 19) + Z.to_N (d - 40)]) by congruence.
    exists (kor_begin + chosung_base * Z.to_N a + jungsung_base * Z.to_N (b - 19) + Z.to_N (d - 40)).
    split; [exact Es|]. clear He Es.
    assert (K : character_is_complete_korean (kor_begin + chosung_base * Z.to_N a + jungsung_base * Z.to_N (b - 19) + Z.to_N (d - 40)) = true)
      by (unb; lia).
    split; [apply syllable_iff; exact K|].
    destruct (enc_char_syllable _ K) as (a' & b' & d' & -> & A' & B' & D' & Eq).
    assert (a = a' /\ b = b' /\ d = d') as (-> & -> & ->) by (unb; lia). reflexivity.
  - intros _ _. simpl in He. congruence.
Qed.
