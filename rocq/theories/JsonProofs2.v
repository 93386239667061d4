(** * The JSON reader accepts exactly the grammar: numbers and values *)
From Coq Require Import QArith.
From Verif Require Import PyBase PyDict PyText PyFile JsonModel JsonSpec JsonProofs.
Open Scope N_scope.

(** what may follow a number inside a document *)
Definition ended (r : str) : Prop := forall c t, r = c :: t -> is_ws c = true \/ c = 44 \/ c = 93 \/ c = 125.
Lemma ended_not r c t : ended r -> r = c :: t -> is_digit c = false /\ c <> 46 /\ c <> 101 /\ c <> 69.
Proof.
  intros H E. assert (K : c = 32 \/ c = 9 \/ c = 10 \/ c = 13 \/ c = 44 \/ c = 93 \/ c = 125). { destruct (H c t E) as [W|W]; [apply is_ws_iff in W|]; tauto. }
  repeat (destruct K as [->|K]; [split; [reflexivity|split; [discriminate|split; discriminate]]|]). subst c. split; [reflexivity|split; [discriminate|split; discriminate]].
Qed.
Lemma numerals_digits s : numerals s -> Forall (fun c => is_digit c = true) s.
Proof. intros [_ F]. eapply Forall_impl; [|exact F]. intros c. apply digit_iff. Qed.
Lemma digits_numerals s : s <> [] -> Forall (fun c => is_digit c = true) s -> numerals s.
Proof. intros N F. split; [exact N|]. eapply Forall_impl; [|exact F]. intros c. apply digit_iff. Qed.
(** ** exponent and fraction *)
Lemma exponent_complete e r : exp_part e -> ended r -> exponent (e ++ r) = (e, r).
Proof.
  intros [->|(x & sg & d & -> & X & SG & D)] ER.
  - cbn [app]. unfold exponent. destruct r as [|c t]; [reflexivity|]. destruct (ended_not _ _ _ ER eq_refl) as (_ & _ & A & B). destruct (N.eqb_spec c 101); [congruence|]. destruct (N.eqb_spec c 69); [congruence|]. reflexivity.
  - assert (XX : (x =? 101) || (x =? 69) = true) by (destruct X as [->| ->]; reflexivity). cbn [app]. unfold exponent. rewrite XX, <- app_assoc.
    pose proof (numerals_digits _ D) as FD. destruct D as [ND _]. destruct d as [|y d]; [congruence|]. inversion FD as [|? ? PY FD']; subst.
    assert (DN : forall c t, r = c :: t -> is_digit c = false) by (intros c t E; apply (ended_not _ _ _ ER E)).
    pose proof (takewhile_app is_digit (y :: d) r FD DN) as TW. pose proof (dropwhile_app is_digit (y :: d) r FD DN) as DW.
    destruct SG as [->|[->| ->]].
    + cbn [app]. pose proof (proj1 (digit_iff y) PY). destruct (N.eqb_spec y 43); [lia|]. destruct (N.eqb_spec y 45); [lia|]. cbn [orb]. rewrite PY. cbn [app] in *. rewrite TW, DW. reflexivity.
    + cbn [app]. change (43 =? 43) with true. cbn [orb]. rewrite PY. cbn [app] in *. rewrite TW, DW. reflexivity.
    + cbn [app]. change (45 =? 43) with false. change (45 =? 45) with true. cbn [orb]. rewrite PY. cbn [app] in *. rewrite TW, DW. reflexivity.
Qed.
Lemma exponent_sound s e r : exponent s = (e, r) -> exp_part e /\ s = e ++ r.
Proof.
  unfold exponent. destruct s as [|x s]; [intros E; injection E as <- <-; split; [left|]; reflexivity|].
  destruct ((x =? 101) || (x =? 69)) eqn:X; [|intros E; injection E as <- <-; split; [left|]; reflexivity].
  assert (XX : x = 101 \/ x = 69) by (apply orb_true_iff in X as [X|X]; apply N.eqb_eq in X; auto).
  destruct (match s with [] => ([], s) | c :: q => if (c =? 43) || (c =? 45) then ([c], q) else ([], s) end) as [sg r'] eqn:SG.
  assert (G : (sg = [] \/ sg = [43] \/ sg = [45]) /\ s = sg ++ r').
  { destruct s as [|c q]; [injection SG as <- <-; auto|]. destruct ((c =? 43) || (c =? 45)) eqn:C; injection SG as <- <-; [|auto]. apply orb_true_iff in C as [C|C]; apply N.eqb_eq in C; subst c; auto. }
  destruct G as [G1 G2]. destruct r' as [|d r']; [intros E; injection E as <- <-; split; [left|]; reflexivity|].
  destruct (is_digit d) eqn:D; [|intros E; injection E as <- <-; split; [left|]; reflexivity].
  destruct (while_split is_digit (d :: r')) as (A & B & _). intros E. assert (E1 : e = x :: sg ++ takewhile is_digit (d :: r')) by congruence. assert (E2 : r = dropwhile is_digit (d :: r')) by congruence. split.
  - right. exists x, sg, (takewhile is_digit (d :: r')). split; [exact E1|]. split; [exact XX|]. split; [exact G1|]. apply digits_numerals; [cbn [takewhile]; rewrite D; discriminate|exact B].
  - rewrite E1, E2, G2. cbn [app]. rewrite <- app_assoc, <- A. reflexivity.
Qed.
Lemma fraction_complete f e r : frac_part f -> exp_part e -> ended r -> fraction (f ++ e ++ r) = (f, e ++ r).
Proof.
  intros F EP ER. assert (H : forall c t, e ++ r = c :: t -> is_digit c = false /\ c <> 46).
  { intros c t E. destruct EP as [->|(x & sg & d & -> & X & _)]; [cbn [app] in E; destruct (ended_not _ _ _ ER E) as (A & B & _); auto|]. cbn [app] in E. injection E as <- _. destruct X as [->| ->]; split; [reflexivity|discriminate|reflexivity|discriminate]. }
  destruct F as [->|(d & -> & D)].
  - cbn [app]. unfold fraction. destruct (e ++ r) as [|c [|y t]] eqn:E; [reflexivity|reflexivity|]. destruct (H c (y :: t) eq_refl) as [_ X]. destruct (N.eqb_spec c 46); [congruence|]. reflexivity.
  - pose proof (numerals_digits _ D) as FD. destruct D as [ND _]. destruct d as [|y d]; [congruence|]. inversion FD as [|? ? PY FD']; subst. cbn [app]. unfold fraction. change (46 =? 46) with true. rewrite PY. cbn [andb].
    assert (DN : forall c t, e ++ r = c :: t -> is_digit c = false) by (intros c t E; apply (H _ _ E)).
    pose proof (takewhile_app is_digit (y :: d) (e ++ r) FD DN) as TW. pose proof (dropwhile_app is_digit (y :: d) (e ++ r) FD DN) as DW. cbn [app] in *. rewrite TW, DW. reflexivity.
Qed.
Lemma fraction_sound s f r : fraction s = (f, r) -> frac_part f /\ s = f ++ r.
Proof.
  unfold fraction. destruct s as [|p [|d q]]; try (intros E; injection E as <- <-; split; [left|]; reflexivity).
  destruct ((p =? 46) && is_digit d) eqn:PD; [|intros E; injection E as <- <-; split; [left|]; reflexivity]. apply andb_true_iff in PD as [P D]. apply N.eqb_eq in P. subst p.
  destruct (while_split is_digit (d :: q)) as (A & B & _). intros E. assert (E1 : f = 46 :: takewhile is_digit (d :: q)) by congruence. assert (E2 : r = dropwhile is_digit (d :: q)) by congruence. rewrite E1, E2. split.
  - right. eexists. split; [reflexivity|]. apply digits_numerals; [cbn [takewhile]; rewrite D; discriminate|exact B].
  - cbn [app]. rewrite <- A. reflexivity.
Qed.
(** ** numbers *)
Lemma int_digits ds rest : int_part ds -> (forall c t, rest = c :: t -> is_digit c = false) -> exists c t, ds ++ rest = c :: t /\ is_digit c = true /\
  (if c =? 48 then ([48], t) else (takewhile is_digit (ds ++ rest), dropwhile is_digit (ds ++ rest))) = (ds, rest).
Proof.
  intros [D [->|(c & r & -> & N0)]] H.
  - exists 48, rest. repeat split; reflexivity.
  - pose proof (numerals_digits _ D) as FD. exists c, (r ++ rest). split; [reflexivity|]. split; [inversion FD; assumption|]. destruct (N.eqb_spec c 48); [congruence|]. rewrite (takewhile_app is_digit (c :: r) rest FD H), (dropwhile_app is_digit (c :: r) rest FD H). reflexivity.
Qed.
Definition signed (sg : str) (z : Z) : Z := match sg with [] => z | _ => - z end.
Lemma number_complete sg ds f e r : sg = [] \/ sg = [45] -> int_part ds -> frac_part f -> exp_part e -> ended r ->
  number (sg ++ ds ++ f ++ e ++ r) = Some (match f ++ e with [] => JInt (signed sg (digits_value ds)) | _ => JFloat (sg ++ ds ++ f ++ e) end, r).
Proof.
  intros SG I F EP ER.
  assert (H : forall c t, f ++ e ++ r = c :: t -> is_digit c = false).
  { intros c t E. destruct F as [->|(d & -> & D)]; [|cbn [app] in E; injection E as <- _; reflexivity]. cbn [app] in E. destruct EP as [->|(x & s0 & d & -> & X & _)]; [apply (ended_not _ _ _ ER E)|]. cbn [app] in E. injection E as <- _. destruct X as [->| ->]; reflexivity. }
  destruct (int_digits ds (f ++ e ++ r) I H) as (c & t & E & DC & SP).
  assert (ST : (match sg ++ ds ++ f ++ e ++ r with c0 :: q0 => if c0 =? 45 then ([45], q0) else ([], sg ++ ds ++ f ++ e ++ r) | [] => ([], sg ++ ds ++ f ++ e ++ r) end) = (sg, ds ++ f ++ e ++ r)).
  { destruct SG as [->| ->]; [|reflexivity]. cbn [app]. rewrite E. destruct (N.eqb_spec c 45) as [->|]; [discriminate DC|reflexivity]. }
  unfold number. rewrite ST. rewrite E in SP |- *. rewrite DC. cbn [negb]. rewrite SP, (fraction_complete f e r F EP ER), (exponent_complete e r EP ER).
  destruct (f ++ e); [|reflexivity]. destruct SG as [->| ->]; reflexivity.
Qed.
Lemma numeric_complete v t r : numeric v t -> ended r -> number (t ++ r) = Some (v, r).
Proof.
  intros N ER. inversion N as [ds I E1 E2|ds I E1 E2|sg ds f e SG I F EP NE E1 E2]; subst.
  - pose proof (number_complete [] t [] [] r (or_introl eq_refl) I (or_introl eq_refl) (or_introl eq_refl) ER) as X. exact X.
  - pose proof (number_complete [45] ds [] [] r (or_intror eq_refl) I (or_introl eq_refl) (or_introl eq_refl) ER) as X. exact X.
  - pose proof (number_complete sg ds f e r SG I F EP ER) as X. rewrite <- !app_assoc. rewrite X. destruct (f ++ e) eqn:FE; [congruence|reflexivity].
Qed.
Lemma number_sound s v r : number s = Some (v, r) -> exists t, numeric v t /\ s = t ++ r.
Proof.
  unfold number. destruct (match s with [] => ([], s) | c :: r => if c =? 45 then ([45], r) else ([], s) end) as [sg t] eqn:SG.
  assert (G : (sg = [] \/ sg = [45]) /\ s = sg ++ t).
  { destruct s as [|c q]; [injection SG as <- <-; auto|]. destruct (N.eqb_spec c 45) as [->|]; injection SG as <- <-; auto. }
  destruct G as [G1 G2]. destruct t as [|c t]; [discriminate|]. destruct (is_digit c) eqn:DC; cbn [negb]; [|discriminate].
  destruct (if c =? 48 then ([48], t) else (takewhile is_digit (c :: t), dropwhile is_digit (c :: t))) as [ds r1] eqn:SP.
  assert (I : int_part ds /\ c :: t = ds ++ r1).
  { destruct (N.eqb_spec c 48) as [->|N0].
    - injection SP as <- <-. split; [|reflexivity]. split; [|left; reflexivity]. apply digits_numerals; [discriminate|]. repeat constructor.
    - destruct (while_split is_digit (c :: t)) as (A & B & _). assert (E1 : ds = takewhile is_digit (c :: t)) by congruence. assert (E2 : r1 = dropwhile is_digit (c :: t)) by congruence. rewrite E1, E2. split; [|exact A].
      assert (E : takewhile is_digit (c :: t) = c :: takewhile is_digit t) by (cbn [takewhile]; rewrite DC; reflexivity). split; [apply digits_numerals; [rewrite E; discriminate|exact B]|]. right. rewrite E. eauto. }
  destruct I as [I ES]. destruct (fraction r1) as [f r2] eqn:FR. destruct (exponent r2) as [e r3] eqn:EX. apply fraction_sound in FR as [F ->]. apply exponent_sound in EX as [EP ->].
  destruct (f ++ e) as [|y q] eqn:FE.
  - apply app_eq_nil in FE as [-> ->]. cbn [app] in ES. intros E. assert (E1 : v = JInt (signed sg (digits_value ds))) by (unfold signed; congruence). assert (E2 : r = r3) by congruence. subst v r. exists (sg ++ ds). rewrite <- app_assoc, <- ES. split; [|exact G2].
    destruct G1 as [->| ->]; [exact (num_int ds I)|exact (num_neg ds I)].
  - rewrite <- FE. intros E. assert (E1 : v = JFloat (sg ++ ds ++ f ++ e)) by congruence. assert (E2 : r = r3) by congruence. subst v r. exists (sg ++ ds ++ f ++ e). split; [apply num_float; auto; rewrite FE; discriminate|].
    rewrite G2, ES, <- !app_assoc. reflexivity.
Qed.
(** ** literals *)
Lemma starts_iff p s r : starts p s = Some r <-> s = p ++ r.
Proof.
  revert s. induction p as [|a p IH]; intros s; [cbn; split; congruence|]. destruct s as [|b s]; [cbn; split; discriminate|]. cbn [starts app]. destruct (N.eqb_spec a b) as [->|N0].
  - rewrite IH. split; [intros ->; reflexivity|intros E; congruence].
  - split; [discriminate|intros E; congruence].
Qed.
Lemma literal_complete t v r : In (t, v) literals -> literal literals (t ++ r) = Some (v, r).
Proof. unfold literals. cbn [In]. intros H. repeat (destruct H as [H|H]; [injection H as <- <-; reflexivity|]). destruct H. Qed.
Lemma literal_sound ls s v r : literal ls s = Some (v, r) -> exists t, In (t, v) ls /\ s = t ++ r.
Proof.
  induction ls as [|[t w] ls IH]; [discriminate|]. cbn [literal]. destruct (starts t s) as [q|] eqn:E.
  - intros X. injection X as <- <-. apply starts_iff in E. exists t. split; [left; reflexivity|exact E].
  - intros X. destruct (IH X) as (t' & I & E'). exists t'. split; [right; exact I|exact E'].
Qed.
Lemma numeric_head v t : numeric v t -> exists c r, t = c :: r /\ (is_digit c = true \/ c = 45 /\ exists d q, r = d :: q /\ is_digit d = true).
Proof.
  assert (K : forall ds, int_part ds -> exists d q, ds = d :: q /\ is_digit d = true).
  { intros ds [D _]. pose proof (numerals_digits _ D) as FD. destruct D as [ND _]. destruct ds as [|d q]; [congruence|]. inversion FD; subst. eauto. }
  intros N. inversion N as [ds I E1 E2|ds I E1 E2|sg ds f e SG I F EP NE E1 E2]; subst; destruct (K _ I) as (d & q & -> & D).
  - eauto.
  - eauto 10.
  - destruct SG as [->| ->]; cbn [app]; eauto 10.
Qed.
Lemma atom_complete v t r : numeric v t -> ended r -> atom (t ++ r) = Some (v, r).
Proof.
  intros N ER. unfold atom. rewrite (numeric_complete v t r N ER). destruct (literal literals (t ++ r)) as [[w q]|] eqn:L; [|reflexivity]. exfalso.
  apply literal_sound in L as (l & I & E). destruct (numeric_head v t N) as (c & z & -> & H). cbn [app] in E. unfold literals in I. cbn [In] in I.
  repeat (destruct I as [I|I]; [injection I as <- <-; cbn [app] in E; injection E as -> E; destruct H as [H|(H & d & y & -> & D)]; [discriminate H|try discriminate H; cbn [app] in E; injection E as -> _; discriminate D]|]). destruct I.
Qed.
Lemma atom_sound s v r : atom s = Some (v, r) -> exists t, renders v t /\ s = t ++ r.
Proof.
  unfold atom. destruct (literal literals s) as [[w q]|] eqn:L.
  - intros E. injection E as <- <-. apply literal_sound in L as (t & I & ->). exists t. split; [apply r_literal, I|reflexivity].
  - intros E. apply number_sound in E as (t & N & ->). exists t. split; [apply r_number, N|reflexivity].
Qed.
(** ** the first character of a value *)
Definition opener (c : N) : Prop := is_ws c = false /\ c <> 44 /\ c <> 93 /\ c <> 125 /\ c <> 58.
Lemma renders_head v t : renders v t -> exists c r, t = c :: r /\ opener c.
Proof.
  assert (O : forall c, is_ws c = false -> c <> 44 -> c <> 93 -> c <> 125 -> c <> 58 -> opener c) by (unfold opener; tauto).
  intros R. destruct R as [t v I|v t N|s t (b & _ & ->)|b B|l t R|b B|l t R]; try (eexists; eexists; split; [reflexivity|]; apply O; [reflexivity|discriminate..]).
  - unfold literals in I. cbn [In] in I. repeat (destruct I as [I|I]; [injection I as <- <-; eexists; eexists; split; [reflexivity|]; apply O; [reflexivity|discriminate..]|]). destruct I.
  - destruct (numeric_head v t N) as (c & r & -> & H). exists c, r. split; [reflexivity|]. destruct H as [H|[-> _]]; [|apply O; [reflexivity|discriminate..]]. apply digit_iff in H.
    apply O; try lia. destruct (is_ws c) eqn:W; [|reflexivity]. apply is_ws_iff in W. lia.
Qed.
Lemma skip_value a v t r : blank a -> renders v t -> skip (a ++ t ++ r) = t ++ r.
Proof. intros A R. apply skip_blank; [exact A|]. destruct (renders_head v t R) as (c & q & -> & O). cbn [app]. intros c' t' E. injection E as <- _. apply O. Qed.
Lemma blank_ended b r : blank b -> ended r -> ended (b ++ r).
Proof. intros B ER. destruct b as [|c b]; [exact ER|]. cbn [app]. intros c' t' E. injection E as <- _. left. apply is_ws_iff. inversion B; assumption. Qed.
Lemma quoted_head k q : quoted k q -> exists r, q = 34 :: r.
Proof. intros (b & _ & ->). eauto. Qed.

(** ** completeness *)
Definition dict_from (acc : dict str json) (l : list (str * json)) : dict str json := fold_left (fun d kv => dset d (fst kv) (snd kv)) l acc.
Definition number_like (v : json) : Prop := match v with JInt _ | JFloat _ => True | _ => False end.
Lemma numeric_like v t : numeric v t -> number_like v.
Proof. intros N. inversion N; exact Logic.I. Qed.
Lemma complete_all :
  (forall v t, renders v t -> forall fuel r, (2 * length t <= fuel)%nat -> (number_like v -> ended r) -> value fuel (t ++ r) = Some (v, r)) /\
  (forall l t, renders_list l t -> forall fuel r, (2 * length t < fuel)%nat -> elements fuel (skip (t ++ 93 :: r)) = Some (l, r)) /\
  (forall l t, renders_members l t -> forall fuel acc r, (2 * length t < fuel)%nat -> members fuel acc (skip (t ++ 125 :: r)) = Some (dict_from acc l, r)).
Proof.
  apply renders_all.
  - intros t v I fuel r L ER. destruct fuel as [|fuel]. { unfold literals in I. cbn [In] in I. repeat (destruct I as [I|I]; [injection I as <- <-; cbn [length] in L; lia|]). destruct I. }
    unfold literals in I. cbn [In] in I. repeat (destruct I as [I|I]; [injection I as <- <-; reflexivity|]). destruct I.
  - intros v t N fuel r L ER. destruct (numeric_head v t N) as (c & z & E & H). pose proof (atom_complete v t r N (ER (numeric_like _ _ N))) as A. rewrite E in A, L |- *. destruct fuel as [|fuel]; [cbn [length] in L; lia|]. cbn [app value] in *.
    assert (X : c <> 34 /\ c <> 91 /\ c <> 123). { destruct H as [H|[-> _]]; [apply digit_iff in H; lia|repeat split; discriminate]. }
    destruct (N.eqb_spec c 34); [tauto|]. destruct (N.eqb_spec c 91); [tauto|]. destruct (N.eqb_spec c 123); [tauto|]. exact A.
  - intros s t Q fuel r L ER. destruct (string_complete s t r Q) as (b & E & SO). destruct fuel as [|fuel]; [destruct (quoted_head _ _ Q) as (z & ->); cbn [length] in L; lia|]. rewrite E. cbn [value]. change (34 =? 34) with true. cbv iota. rewrite SO. reflexivity.
  - intros b B fuel r L ER. destruct fuel as [|fuel]; [cbn [length] in L; lia|]. cbn [app value]. change (91 =? 34) with false. change (91 =? 91) with true. cbv iota. rewrite <- app_assoc, (skip_blank b); [|exact B|cbn [app]; intros c t E; injection E as <- _; reflexivity]. cbn [app]. reflexivity.
  - intros l t R IH fuel r L ER. destruct fuel as [|fuel]; [cbn [length] in L; lia|]. cbn [length] in L. rewrite app_length in L. cbn [length] in L. cbn [app value]. change (91 =? 34) with false. change (91 =? 91) with true. cbv iota. rewrite <- app_assoc. cbn [app].
    specialize (IH fuel r ltac:(lia)). assert (K : exists c q, skip (t ++ 93 :: r) = c :: q /\ c <> 93).
    { destruct R as [v a t b A B R|v l a t b t' A B R R']; rewrite <- !app_assoc, (skip_value a v t) by assumption; destruct (renders_head v t R) as (c & q & -> & O); cbn [app]; eexists; eexists; (split; [reflexivity|]); apply O. }
    destruct K as (c & q & E & N0). rewrite E in *. destruct (N.eqb_spec c 93); [congruence|]. rewrite IH. reflexivity.
  - intros b B fuel r L ER. destruct fuel as [|fuel]; [cbn [length] in L; lia|]. cbn [app value]. change (123 =? 34) with false. change (123 =? 91) with false. change (123 =? 123) with true. cbv iota. rewrite <- app_assoc, (skip_blank b); [|exact B|cbn [app]; intros c t E; injection E as <- _; reflexivity]. cbn [app]. reflexivity.
  - intros l t R IH fuel r L ER. destruct fuel as [|fuel]; [cbn [length] in L; lia|]. cbn [length] in L. rewrite app_length in L. cbn [length] in L. cbn [app value]. change (123 =? 34) with false. change (123 =? 91) with false. change (123 =? 123) with true. cbv iota. rewrite <- app_assoc. cbn [app].
    specialize (IH fuel [] r ltac:(lia)). assert (K : exists q, skip (t ++ 125 :: r) = 34 :: q).
    { destruct R as [k v a q b c t d A B C D Q R|k v a q b c t d l t' A B C D Q R R']; destruct (quoted_head _ _ Q) as (z & ->); rewrite <- !app_assoc, (skip_blank a); try assumption; cbn [app]; eauto; intros c' t'' E; injection E as <- _; reflexivity. }
    destruct K as (q & E). rewrite E in *. change (34 =? 125) with false. cbv iota. rewrite IH. reflexivity.
  - intros v a t b A B R IH fuel r L. rewrite !app_length in L. rewrite <- !app_assoc, (skip_value a v t) by assumption. destruct fuel as [|fuel]; [lia|]. cbn [elements]. rewrite (IH fuel (b ++ 93 :: r)); [|lia|intros _; apply blank_ended; [exact B|intros c q E; injection E as <- _; auto]].
    rewrite (skip_blank b); [|exact B|intros c q E; injection E as <- _; reflexivity]. reflexivity.
  - intros v l a t b t' A B R IH R' IH' fuel r L. rewrite !app_length in L. cbn [length] in L. rewrite <- !app_assoc, (skip_value a v t) by assumption. destruct fuel as [|fuel]; [lia|]. cbn [elements app]. rewrite (IH fuel (b ++ 44 :: t' ++ 93 :: r)); [|lia|intros _; apply blank_ended; [exact B|intros c q E; injection E as <- _; auto]].
    rewrite (skip_blank b); [|exact B|intros c q E; injection E as <- _; reflexivity]. change (44 =? 93) with false. change (44 =? 44) with true. cbv iota. rewrite IH' by lia. reflexivity.
  - intros k v a q b c t d A B C D Q R IH fuel acc r L. rewrite !app_length in L. cbn [length] in L. rewrite !app_length in L. destruct (quoted_head _ _ Q) as (z & EQ). repeat (rewrite <- ?app_assoc; cbn [app]). rewrite (skip_blank a); [|exact A|rewrite EQ; cbn [app]; intros c' t' E; injection E as <- _; reflexivity].
    destruct (string_complete k q (b ++ 58 :: c ++ t ++ d ++ 125 :: r) Q) as (s & E & SO). rewrite E. destruct fuel as [|fuel]; [lia|]. cbn [members]. change (34 =? 34) with true. cbn [negb]. rewrite SO, (skip_blank b); [|exact B|intros c' t' E'; injection E' as <- _; reflexivity].
    change (58 =? 58) with true. cbn [negb]. rewrite (skip_value c v t) by assumption. rewrite (IH fuel (d ++ 125 :: r)); [|lia|intros _; apply blank_ended; [exact D|intros c' t' E'; injection E' as <- _; auto]].
    rewrite (skip_blank d); [|exact D|intros c' t' E'; injection E' as <- _; reflexivity]. reflexivity.
  - intros k v a q b c t d l t' A B C D Q R IH R' IH' fuel acc r L. rewrite !app_length in L. cbn [length] in L. rewrite !app_length in L. cbn [length] in L. destruct (quoted_head _ _ Q) as (z & EQ). repeat (rewrite <- ?app_assoc; cbn [app]). rewrite (skip_blank a); [|exact A|rewrite EQ; cbn [app]; intros c' t'' E; injection E as <- _; reflexivity].
    destruct (string_complete k q (b ++ 58 :: c ++ t ++ d ++ 44 :: t' ++ 125 :: r) Q) as (s & E & SO). rewrite E. destruct fuel as [|fuel]; [lia|]. cbn [members]. change (34 =? 34) with true. cbn [negb]. rewrite SO, (skip_blank b); [|exact B|intros c' t'' E'; injection E' as <- _; reflexivity].
    change (58 =? 58) with true. cbn [negb]. rewrite (skip_value c v t) by assumption. rewrite (IH fuel (d ++ 44 :: t' ++ 125 :: r)); [|lia|intros _; apply blank_ended; [exact D|intros c' t'' E'; injection E' as <- _; auto]].
    rewrite (skip_blank d); [|exact D|intros c' t'' E'; injection E' as <- _; reflexivity]. change (44 =? 125) with false. change (44 =? 44) with true. cbv iota. rewrite IH' by lia. reflexivity.
Qed.
(** ** soundness *)
Lemma sound_all fuel :
  (forall s v r, value fuel s = Some (v, r) -> exists t, renders v t /\ s = t ++ r) /\
  (forall s l r, elements fuel s = Some (l, r) -> exists t, renders_list l t /\ s = t ++ 93 :: r) /\
  (forall s acc m r, members fuel acc s = Some (m, r) -> exists l t, renders_members l t /\ m = dict_from acc l /\ s = t ++ 125 :: r).
Proof.
  induction fuel as [|fuel (IV & IE & IM)]; [repeat split; discriminate|]. split; [|split].
  - intros s v r E. cbn [value] in E. destruct s as [|c s]; [discriminate|]. destruct (N.eqb_spec c 34) as [->|N1].
    { destruct (string_of s) as [[t q]|] eqn:SO; [|discriminate]. injection E as <- <-. apply string_sound in SO as (b & Q & ->). exists b. split; [apply r_string, Q|reflexivity]. }
    destruct (N.eqb_spec c 91) as [->|N2].
    { destruct (skip_cut s) as (b & B & ES & _). destruct (skip s) as [|d q]; [discriminate|]. destruct (N.eqb_spec d 93) as [->|N3].
      - injection E as <- <-. exists (91 :: b ++ [93]). split; [apply r_no_elements, B|]. rewrite ES. cbn [app]. rewrite <- app_assoc. reflexivity.
      - destruct (elements fuel (d :: q)) as [[l z]|] eqn:EL; [|discriminate]. injection E as <- <-. apply IE in EL as (t & R & E'). exists (91 :: (b ++ t) ++ [93]). split.
        + apply r_array. clear - R B. inversion R as [v a x y A Y RV E1 E2|v l0 a x y t' A Y RV RL E1 E2]; subst; rewrite app_assoc.
          * apply rl_one; [apply Forall_app; auto|assumption..].
          * apply rl_more; [apply Forall_app; auto|assumption..].
        + rewrite ES, E'. cbn [app]. rewrite <- !app_assoc. reflexivity. }
    destruct (N.eqb_spec c 123) as [->|N3].
    { destruct (skip_cut s) as (b & B & ES & _). destruct (skip s) as [|d q]; [discriminate|]. destruct (N.eqb_spec d 125) as [->|N4].
      - injection E as <- <-. exists (123 :: b ++ [125]). split; [apply r_no_members, B|]. rewrite ES. cbn [app]. rewrite <- app_assoc. reflexivity.
      - destruct (members fuel [] (d :: q)) as [[l z]|] eqn:EL; [|discriminate]. injection E as <- <-. apply IM in EL as (l0 & t & R & -> & E'). exists (123 :: (b ++ t) ++ [125]). split.
        + apply (r_object l0). clear - R B. inversion R as [k v a x y c0 t0 d0 A Y C D Q RV E1 E2|k v a x y c0 t0 d0 l1 t' A Y C D Q RV RL E1 E2]; subst; rewrite app_assoc.
          * apply rm_one; [apply Forall_app; auto|assumption..].
          * apply rm_more; [apply Forall_app; auto|assumption..].
        + rewrite ES, E'. cbn [app]. rewrite <- !app_assoc. reflexivity. }
    apply atom_sound in E. exact E.
  - intros s l r E. cbn [elements] in E. destruct (value fuel s) as [[v r1]|] eqn:EV; [|discriminate]. apply IV in EV as (t & R & ->). destruct (skip_cut r1) as (b & B & ES & _). destruct (skip r1) as [|d r2]; [discriminate|].
    destruct (N.eqb_spec d 93) as [->|N1].
    + injection E as <- <-. exists ([] ++ t ++ b). split; [apply rl_one; [constructor|assumption..]|]. rewrite ES. cbn [app]. rewrite <- app_assoc. reflexivity.
    + destruct (N.eqb_spec d 44) as [->|N2]; [|discriminate]. destruct (elements fuel (skip r2)) as [[l2 z]|] eqn:EL; [|discriminate]. injection E as <- <-. apply IE in EL as (t' & R' & E'). destruct (skip_cut r2) as (b2 & B2 & ES2 & _).
      exists ([] ++ t ++ b ++ 44 :: (b2 ++ t')). split.
      * apply rl_more; [constructor|assumption|assumption|]. inversion R' as [v0 a x y A Y RV E1 E2|v0 l0 a x y t0 A Y RV RL E1 E2]; subst; rewrite app_assoc; [apply rl_one|apply rl_more]; try assumption; apply Forall_app; auto.
      * rewrite ES, ES2, E'. cbn [app]. rewrite <- !app_assoc. cbn [app]. rewrite <- !app_assoc. reflexivity.
  - intros s acc m r E. cbn [members] in E. destruct s as [|q0 s]; [discriminate|]. destruct (N.eqb_spec q0 34) as [->|N1]; cbn [negb] in E; [|discriminate]. destruct (string_of s) as [[k r1]|] eqn:SO; [|discriminate]. apply string_sound in SO as (q & Q & EQ). rewrite EQ.
    destruct (skip_cut r1) as (b & B & ES & _). destruct (skip r1) as [|d r2]; [discriminate|]. destruct (N.eqb_spec d 58) as [->|N2]; cbn [negb] in E; [|discriminate].
    destruct (skip_cut r2) as (c & C & ES2 & _). destruct (value fuel (skip r2)) as [[v r3]|] eqn:EV; [|discriminate]. apply IV in EV as (t & R & ET). destruct (skip_cut r3) as (d & D & ES3 & _). destruct (skip r3) as [|e r4]; [discriminate|].
    destruct (N.eqb_spec e 125) as [->|N3].
    + injection E as <- <-. exists [(k, v)], ([] ++ q ++ b ++ 58 :: c ++ t ++ d). split; [apply rm_one; [constructor|assumption..]|]. split; [reflexivity|]. rewrite ES, ES2, ET, ES3. repeat (rewrite <- ?app_assoc; cbn [app]). reflexivity.
    + destruct (N.eqb_spec e 44) as [->|N4]; [|discriminate]. apply IM in E as (l & t' & R' & -> & E'). destruct (skip_cut r4) as (b4 & B4 & ES4 & _).
      exists ((k, v) :: l), ([] ++ q ++ b ++ 58 :: c ++ t ++ d ++ 44 :: (b4 ++ t')). split.
      * apply rm_more; try assumption; [constructor|]. inversion R' as [k0 v0 a x y c0 t0 d0 A Y C0 D0 Q0 RV E1 E2|k0 v0 a x y c0 t0 d0 l1 t1 A Y C0 D0 Q0 RV RL E1 E2]; subst; rewrite app_assoc; [apply rm_one|apply rm_more]; try assumption; apply Forall_app; auto.
      * split; [reflexivity|]. rewrite ES, ES2, ET, ES3, ES4, E'. repeat (rewrite <- ?app_assoc; cbn [app]). reflexivity.
Qed.
(** ** documents *)
Lemma document_head v s : document v s -> forall c t, s = c :: t -> c <> 65279.
Proof.
  intros (a & t & b & A & B & R & ->) c q E. destruct a as [|x a].
  - destruct (renders_head v t R) as (y & z & -> & O). cbn [app] in E. injection E as <- _. intros ->. inversion R as [t0 v0 I E1 E2|v0 t0 N E1 E2|s t0 Q E1 E2|b0 B0 E1 E2|l t0 R0 E1 E2|b0 B0 E1 E2|l t0 R0 E1 E2].
    + subst. unfold literals in I. cbn [In] in I. repeat (destruct I as [I|I]; [discriminate I|]). destruct I.
    + subst. destruct (numeric_head _ _ N) as (c & r & E & [H|[H _]]); injection E as <- _; discriminate.
    + subst. destruct Q as (b0 & _ & Q). discriminate.
  - cbn [app] in E. injection E as <- _. inversion A as [|? ? W _]; subst. intros ->. lia.
Qed.
Theorem loads_iff s v : loads s = Some v <-> document v s.
Proof.
  assert (M : (forall c t, s = c :: t -> c <> 65279) -> loads s = match value (2 * length s + 1) (skip s) with Some (v, r) => match skip r with [] => Some v | _ => None end | None => None end).
  { intros H. unfold loads. destruct s as [|c s]; [reflexivity|]. specialize (H c s eq_refl). destruct c as [|p]; [reflexivity|]. do 17 (destruct p as [p|p|]; try reflexivity). }
  split.
  - intros E. assert (H : forall c t, s = c :: t -> c <> 65279) by (intros c t X Y; subst s; subst c; discriminate E). rewrite (M H) in E.
    destruct (value (2 * length s + 1) (skip s)) as [[w r]|] eqn:EV; [|discriminate]. apply (proj1 (sound_all _)) in EV as (t & R & ET). destruct (skip_cut s) as (a & A & ES & _). destruct (skip_cut r) as (b & B & EB & _). destruct (skip r); [|discriminate]. injection E as ->.
    rewrite app_nil_r in EB. subst b. exists a, t, r. rewrite <- ET. auto.
  - intros D. rewrite (M (document_head v s D)). destruct D as (a & t & b & A & B & R & ->). rewrite (skip_value a v t) by assumption. rewrite ((proj1 complete_all) v t R); [| |].
    + rewrite <- (app_nil_r b), (skip_blank b []); [reflexivity|exact B|discriminate].
    + rewrite !app_length. lia.
    + intros _. rewrite <- (app_nil_r b). apply blank_ended; [exact B|]. intros c q E. discriminate.
Qed.
