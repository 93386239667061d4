(** * What json.dump writes is a JSON text of the value *)
From Coq Require Import QArith.
From Verif Require Import PyBase PyDict PyText PyFile CrashProofs JsonModel JsonSpec JsonProofs JsonProofs2.
Open Scope N_scope.

Lemma hex_digit_value n : n < 16 -> hex_value (hex_digit n) = Some n.
Proof.
  intros L. unfold hex_digit, hex_value. destruct (N.ltb_spec n 10).
  - destruct (N.leb_spec 48 (48 + n)); [|lia]. destruct (N.leb_spec (48 + n) 57); [|lia]. cbn [andb]. f_equal. lia.
  - destruct (N.leb_spec 48 (87 + n)); [|lia]. destruct (N.leb_spec (87 + n) 57); [lia|]. cbn [andb]. destruct (N.leb_spec 97 (87 + n)); [|lia]. destruct (N.leb_spec (87 + n) 102); [|lia]. cbn [andb]. f_equal. lia.
Qed.
Lemma escape_chars c s t : chars s t -> chars (c :: s) (escape c ++ t).
Proof.
  intros C. unfold escape.
  repeat (match goal with |- context [c =? ?k] => destruct (N.eqb_spec c k) as [->|] end; [apply chars_escape; [cbn [escapes In]; tauto|exact C]|]).
  destruct (N.ltb_spec c 32) as [L|L]; [|apply chars_plain; assumption].
  apply (chars_unit c [48; 48; hex_digit (c / 16); hex_digit (c mod 16)]); [| |exact C].
  - assert (c / 16 < 16) by (apply N.div_lt_upper_bound; lia). assert (c mod 16 < 16) by (apply N.mod_lt; lia). exists 48, 48, (hex_digit (c / 16)), (hex_digit (c mod 16)), 0, 0, (c / 16), (c mod 16).
    repeat (split; [first [reflexivity|apply hex_digit_value; assumption]|]). pose proof (N.div_mod c 16). lia.
  - unfold high. intros H. lia.
Qed.
Lemma dump_str_quoted s : quoted s (dump_str s).
Proof. exists (concat (map escape s)). split; [|reflexivity]. induction s as [|c s IH]; [constructor|]. cbn [map concat]. apply escape_chars, IH. Qed.
Lemma newline_blank lv : blank (newline lv).
Proof. unfold newline. constructor; [auto|]. induction (2 * lv)%nat as [|k IH]; [constructor|]. cbn [repeat]. constructor; [auto|exact IH]. Qed.
Lemma format_numeric z : numeric (JInt z) (format_int z).
Proof.
  assert (P : forall n, (0 <= n)%Z -> int_part (format_int n) /\ digits_value (format_int n) = n).
  { intros n H. pose proof (val_format n H) as V. split; [|exact V]. split.
    - split; [apply format_int_nonempty|]. exact (format_pos_digits n H).
    - destruct (Z.eq_dec n 0) as [->|NZ]; [left; reflexivity|]. right. destruct (format_int n) as [|c r] eqn:E; [exfalso; exact (format_int_nonempty n E)|]. exists c, r. split; [reflexivity|]. apply (format_head n c r); [lia|exact E]. }
  destruct (Z.le_gt_cases 0 z) as [H|H].
  - destruct (P z H) as [I V]. rewrite <- V at 1. apply num_int, I.
  - destruct z as [|p|p]; try lia. destruct (P (Zpos p) ltac:(lia)) as [I V]. change (format_int (Zneg p)) with (45 :: format_int (Zpos p)). change (Zneg p) with (- Zpos p)%Z. rewrite <- V at 1. apply num_neg, I.
Qed.
(** values json.dump can be given: floats are given by their numerals, the keys of a dict are different *)
Fixpoint writable (v : json) : Prop :=
  match v with
  | JFloat t => renders v t
  | JArr l => fold_right (fun x P => writable x /\ P) True l
  | JObj l => NoDup (map fst l) /\ fold_right (fun (kv : str * json) P => writable (snd kv) /\ P) True l
  | _ => True
  end.
Lemma list_text (l : list json) ts a b sep : Forall2 renders l ts -> l <> [] -> blank a -> blank b -> blank sep -> renders_list l (a ++ join (44 :: sep) ts ++ b).
Proof.
  intros F NE A B S. revert a A. induction F as [|v t l ts R F IH]; intros a A; [congruence|]. destruct F as [|v2 t2 l ts R2 F].
  - apply rl_one; assumption.
  - cbn [join]. rewrite <- app_assoc. cbn [app]. change (a ++ t ++ 44 :: ?x) with (a ++ t ++ [] ++ 44 :: x). rewrite <- app_assoc. apply rl_more; [exact A|constructor|exact R|]. apply IH; [discriminate|exact S].
Qed.
Lemma members_text (l : list (str * json)) ts a b sep : Forall2 (fun kv t => renders (snd kv) t) l ts -> l <> [] -> blank a -> blank b -> blank sep ->
  renders_members l (a ++ join (44 :: sep) (map (fun kt => dump_str (fst kt) ++ [58; 32] ++ snd kt) (combine (map fst l) ts)) ++ b).
Proof.
  intros F NE A B S. revert a A. induction F as [|[k v] t l ts R F IH]; intros a A; [congruence|]. cbn [snd] in R. destruct F as [|[k2 v2] t2 l ts R2 F].
  - cbn [map combine join fst snd]. rewrite <- !app_assoc. change ([58; 32] ++ t ++ b) with ([] ++ 58 :: [32] ++ t ++ b). apply rm_one; try assumption; [constructor|repeat constructor|apply dump_str_quoted].
  - cbn [map combine fst snd]. cbn [map combine fst snd] in IH. set (rest := (dump_str k2 ++ [58; 32] ++ t2) :: _) in *.
    assert (J : join (44 :: sep) ((dump_str k ++ [58; 32] ++ t) :: rest) = (dump_str k ++ [58; 32] ++ t) ++ (44 :: sep) ++ join (44 :: sep) rest) by reflexivity. rewrite J.
    replace (a ++ ((dump_str k ++ [58; 32] ++ t) ++ (44 :: sep) ++ join (44 :: sep) rest) ++ b) with (a ++ dump_str k ++ [] ++ 58 :: [32] ++ t ++ [] ++ 44 :: (sep ++ join (44 :: sep) rest ++ b)) by (repeat (rewrite <- ?app_assoc; cbn [app]); reflexivity).
    apply rm_more; try assumption; try constructor; [auto|constructor|apply dump_str_quoted|]. apply IH; [discriminate|exact S].
Qed.
Lemma dump_renders : forall v, writable v -> forall lv, renders v (dump lv v).
Proof.
  fix IH 1. intros v W lv. destruct v as [|b|z|t|s|l|l].
  - apply r_literal. left. reflexivity.
  - apply r_literal. destruct b; [right; left|right; right; left]; reflexivity.
  - apply r_number, format_numeric.
  - exact W.
  - apply r_string, dump_str_quoted.
  - cbn [dump]. assert (F : Forall2 renders l (map (dump (S lv)) l)). { cbn [writable] in W. induction l as [|x l IL]; [constructor|]. destruct W as [W1 W2]. cbn [map]. constructor; [apply IH, W1|apply IL, W2]. }
    clear W. unfold items. destruct l as [|x l]; [apply (r_no_elements []); constructor|]. cbn [map]. cbn [map] in F.
    replace (91 :: newline (S lv) ++ join (44 :: newline (S lv)) (dump (S lv) x :: map (dump (S lv)) l) ++ newline lv ++ [93]) with (91 :: (newline (S lv) ++ join (44 :: newline (S lv)) (dump (S lv) x :: map (dump (S lv)) l) ++ newline lv) ++ [93]) by (rewrite <- !app_assoc; reflexivity).
    apply r_array, list_text; try apply newline_blank; [exact F|discriminate].
  - cbn [dump]. assert (F : Forall2 (fun kv t => renders (snd kv) t) l (map (fun kv => dump (S lv) (snd kv)) l)). { cbn [writable] in W. destruct W as [_ W]. induction l as [|[k x] l IL]; [constructor|]. destruct W as [W1 W2]. cbn [map snd]. constructor; [apply IH, W1|apply IL, W2]. }
    assert (ND : NoDup (map fst l)) by apply W. clear W.
    assert (E : map (fun kv : str * json => dump_str (fst kv) ++ [58; 32] ++ dump (S lv) (snd kv)) l = map (fun kt => dump_str (fst kt) ++ [58; 32] ++ snd kt) (combine (map fst l) (map (fun kv => dump (S lv) (snd kv)) l))).
    { clear. induction l as [|[k x] l IL]; [reflexivity|]. cbn [map combine fst snd]. f_equal. exact IL. }
    rewrite E. unfold items. destruct l as [|[k x] l]; [apply (r_no_members []); constructor|].
    pose proof (members_text ((k, x) :: l) _ (newline (S lv)) (newline lv) (newline (S lv)) F ltac:(discriminate) (newline_blank _) (newline_blank _) (newline_blank _)) as M.
    destruct (map (fun kt => dump_str (fst kt) ++ [58; 32] ++ snd kt) (combine (map fst ((k, x) :: l)) (map (fun kv => dump (S lv) (snd kv)) ((k, x) :: l)))) as [|y ys] eqn:EY; [discriminate EY|].
    replace (123 :: newline (S lv) ++ join (44 :: newline (S lv)) (y :: ys) ++ newline lv ++ [125]) with (123 :: (newline (S lv) ++ join (44 :: newline (S lv)) (y :: ys) ++ newline lv) ++ [125]) by (rewrite <- !app_assoc; reflexivity).
    pose proof (r_object _ _ M) as RO. change (fold_left (fun d kv => dset d (fst kv) (snd kv)) ((k, x) :: l) []) with (dict_of ((k, x) :: l)) in RO. rewrite (dict_of_wf ((k, x) :: l) ND) in RO. exact RO.
Qed.
(** no carriage return is written *)
Lemma escape_no_cr c : Forall (fun c => c <> 13) (escape c).
Proof.
  unfold escape. repeat (match goal with |- context [c =? ?k] => destruct (N.eqb_spec c k) as [->|] end; [repeat constructor; discriminate|]). destruct (N.ltb_spec c 32); [|repeat constructor; assumption].
  assert (H0 : forall m, m < 16 -> hex_digit m <> 13) by (intros m L; unfold hex_digit; destruct (m <? 10); lia).
  repeat constructor; try discriminate; apply H0; [apply N.div_lt_upper_bound; lia|apply N.mod_lt; lia].
Qed.
Lemma newline_no_cr lv : Forall (fun c => c <> 13) (newline lv).
Proof. unfold newline. constructor; [discriminate|]. induction (2 * lv)%nat as [|k IH]; [constructor|]. cbn [repeat]. constructor; [discriminate|exact IH]. Qed.
Lemma join_no_cr sep ts : Forall (fun c => c <> 13) sep -> Forall (Forall (fun c => c <> 13)) ts -> Forall (fun c => c <> 13) (join sep ts).
Proof. intros S F. induction F as [|t ts T F IH]; [constructor|]. destruct ts; [exact T|]. cbn [join]. apply Forall_app. split; [exact T|]. apply Forall_app. auto. Qed.
Lemma dump_str_no_cr s : Forall (fun c => c <> 13) (dump_str s).
Proof. unfold dump_str. constructor; [discriminate|]. apply Forall_app. split; [|repeat constructor; discriminate]. induction s as [|c s IH]; [constructor|]. cbn [map concat]. apply Forall_app. split; [apply escape_no_cr|exact IH]. Qed.
Lemma items_no_cr lv a b ts : a <> 13 -> b <> 13 -> Forall (Forall (fun c => c <> 13)) ts -> Forall (fun c => c <> 13) (items lv a b ts).
Proof.
  intros A B F. unfold items. destruct ts; [repeat constructor; assumption|]. constructor; [exact A|]. apply Forall_app. split; [apply newline_no_cr|]. apply Forall_app. split; [apply join_no_cr; [constructor; [discriminate|apply newline_no_cr]|exact F]|].
  apply Forall_app. split; [apply newline_no_cr|repeat constructor; exact B].
Qed.
Fixpoint no_floats (v : json) : Prop :=
  match v with JFloat _ => False | JArr l => fold_right (fun x P => no_floats x /\ P) True l | JObj l => fold_right (fun (kv : str * json) P => no_floats (snd kv) /\ P) True l | _ => True end.
Lemma dump_no_cr : forall v, no_floats v -> forall lv, Forall (fun c => c <> 13) (dump lv v).
Proof.
  fix IH 1. intros v W lv. destruct v as [|b|z|t|s|l|l].
  - repeat constructor; discriminate.
  - destruct b; repeat constructor; discriminate.
  - pose proof (format_int_word z) as [_ F]. eapply Forall_impl; [|exact F]. intros c H ->. discriminate H.
  - destruct W.
  - apply dump_str_no_cr.
  - cbn [dump]. apply items_no_cr; [discriminate|discriminate|]. cbn [no_floats] in W. induction l as [|x l IL]; [constructor|]. destruct W as [W1 W2]. cbn [map]. constructor; [apply IH, W1|apply IL, W2].
  - cbn [dump]. apply items_no_cr; [discriminate|discriminate|]. cbn [no_floats] in W. induction l as [|[k x] l IL]; [constructor|]. destruct W as [W1 W2]. cbn [map snd fst]. constructor; [|apply IL, W2].
    apply Forall_app. split; [apply dump_str_no_cr|]. constructor; [discriminate|]. constructor; [discriminate|]. apply IH, W1.
Qed.
