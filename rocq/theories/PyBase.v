(** * PyBase: the Python values used by the model.

    Characters are Unicode code points ([N]), strings are lists of code points,
    a Python computation that may raise is a value of type [res]. *)
From Coq Require Export List NArith ZArith Arith Lia Bool.
From Coq Require String Ascii.
From Coq Require Decimal DecimalN DecimalZ.
Export ListNotations.
Export String.StringSyntax.

Notation char := N (only parsing).
Notation str := (list N) (only parsing).

(** Exceptions the modelled code can raise. *)
Inductive exn : Set :=
| ValueError | KeyError | IndexError | TypeError | AttributeError
| ZeroDivisionError | UnboundLocalError | NameError | AssertionError.

Inductive res (A : Type) : Type :=
| Ok (a : A)
| Err (e : exn).
Arguments Ok {A} a.
Arguments Err {A} e.

Definition bind {A B} (m : res A) (f : A -> res B) : res B :=
  match m with Ok a => f a | Err e => Err e end.
Notation "'do' x <- m ; k" := (bind m (fun x => k))
  (at level 200, x name, m at level 100, k at level 200, right associativity).

(** [\[f(x) for x in l\]] where [f] may raise: the first exception wins. *)
Fixpoint mapM {A B} (f : A -> res B) (l : list A) : res (list B) :=
  match l with
  | [] => Ok []
  | x :: l' => do y <- f x; do ys <- mapM f l'; Ok (y :: ys)
  end.

(** ** Decidable equality *)
Class EqB (A : Type) := { eqb : A -> A -> bool; eqb_spec : forall x y, reflect (x = y) (eqb x y) }.

#[export] Instance EqB_N : EqB N := {| eqb := N.eqb; eqb_spec := N.eqb_spec |}.
#[export] Instance EqB_nat : EqB nat := {| eqb := Nat.eqb; eqb_spec := Nat.eqb_spec |}.
#[export] Instance EqB_Z : EqB Z := {| eqb := Z.eqb; eqb_spec := Z.eqb_spec |}.

Fixpoint list_eqb {A} (e : A -> A -> bool) (l1 l2 : list A) : bool :=
  match l1, l2 with
  | [], [] => true
  | x :: l1', y :: l2' => e x y && list_eqb e l1' l2'
  | _, _ => false
  end.

Lemma list_eqb_spec {A} `{EqB A} (l1 l2 : list A) : reflect (l1 = l2) (list_eqb eqb l1 l2).
Proof.
  revert l2; induction l1 as [|x l1 IH]; intros [|y l2]; simpl; try (constructor; congruence).
  destruct (eqb_spec x y) as [->|Hn]; simpl.
  - destruct (IH l2) as [->|Hn]; constructor; congruence.
  - constructor; congruence.
Qed.
#[export] Instance EqB_list {A} `{EqB A} : EqB (list A) :=
  {| eqb := list_eqb eqb; eqb_spec := list_eqb_spec |}.

Definition prod_eqb {A B} `{EqB A} `{EqB B} (x y : A * B) : bool :=
  eqb (fst x) (fst y) && eqb (snd x) (snd y).
Lemma prod_eqb_spec {A B} `{EqB A} `{EqB B} (x y : A * B) : reflect (x = y) (prod_eqb x y).
Proof.
  destruct x as [a b], y as [c d]; unfold prod_eqb; simpl.
  destruct (eqb_spec a c) as [->|Hn]; simpl; [|constructor; congruence].
  destruct (eqb_spec b d) as [->|Hn]; constructor; congruence.
Qed.
#[export] Instance EqB_prod {A B} `{EqB A} `{EqB B} : EqB (A * B) :=
  {| eqb := prod_eqb; eqb_spec := prod_eqb_spec |}.

Lemma eqb_refl {A} `{EqB A} (x : A) : eqb x x = true.
Proof. destruct (eqb_spec x x); congruence. Qed.
Lemma eqb_eq {A} `{EqB A} (x y : A) : eqb x y = true <-> x = y.
Proof. destruct (eqb_spec x y); split; congruence. Qed.
Lemma eqb_neq {A} `{EqB A} (x y : A) : eqb x y = false <-> x <> y.
Proof. destruct (eqb_spec x y); split; congruence. Qed.
Lemma eqb_sym {A} `{EqB A} (x y : A) : eqb x y = eqb y x.
Proof. destruct (eqb_spec x y), (eqb_spec y x); congruence. Qed.

Definition mem {A} `{EqB A} (x : A) (l : list A) : bool := existsb (eqb x) l.
Lemma mem_In {A} `{EqB A} (x : A) l : mem x l = true <-> In x l.
Proof.
  unfold mem; rewrite existsb_exists; split.
  - intros (y & Hy & E). apply eqb_eq in E. subst; auto.
  - intros Hx. exists x. rewrite eqb_refl; auto.
Qed.
Lemma mem_In_false {A} `{EqB A} (x : A) l : mem x l = false <-> ~ In x l.
Proof. rewrite <- mem_In. destruct (mem x l); split; congruence. Qed.

Definition eq_dec_of {A} `{EqB A} (x y : A) : {x = y} + {x <> y}.
Proof. destruct (eqb x y) eqn:E; [left; apply eqb_eq|right; apply eqb_neq]; exact E. Defined.

(** ** Strings *)
(** [s\[b:e\]] for [0 <= b], [0 <= e]. *)
Definition slice {A} (b e : nat) (s : list A) : list A := firstn (e - b) (skipn b s).

(** [sep.join(ws)] *)
Fixpoint join (sep : str) (ws : list str) : str :=
  match ws with
  | [] => []
  | [w] => w
  | w :: ws' => w ++ sep ++ join sep ws'
  end.

(** Lexicographic comparison by code points: Python's [<=] on [str]. *)
Fixpoint str_leb (a b : str) : bool :=
  match a, b with
  | [], _ => true
  | _ :: _, [] => false
  | x :: a', y :: b' => if N.ltb x y then true else if N.eqb x y then str_leb a' b' else false
  end.

(** A readable way to write string constants: UTF-8 decoding of a Coq string. *)
Fixpoint bytes_of (s : String.string) : list N :=
  match s with
  | String.EmptyString => []
  | String.String a s' => Ascii.N_of_ascii a :: bytes_of s'
  end.

Fixpoint utf8 (l : list N) : list N :=
  match l with
  | [] => []
  | a :: l1 =>
    if N.ltb a 128 then a :: utf8 l1 else
    match l1 with
    | [] => []
    | b :: l2 =>
      if N.ltb a 224 then (N.land a 31 * 64 + N.land b 63)%N :: utf8 l2 else
      match l2 with
      | [] => []
      | c :: l3 =>
        if N.ltb a 240 then (N.land a 15 * 4096 + N.land b 63 * 64 + N.land c 63)%N :: utf8 l3 else
        match l3 with
        | [] => []
        | d :: l4 => (N.land a 7 * 262144 + N.land b 63 * 4096 + N.land c 63 * 64 + N.land d 63)%N :: utf8 l4
        end
      end
    end
  end.
Definition u (s : String.string) : str := utf8 (bytes_of s).
Definition ch (s : String.string) : N := hd 0%N (u s).
Delimit Scope string_scope with string.
Arguments u s%string.
Arguments ch s%string.

(** ** Decimal numbers: ['{}'.format(n)] and [int(s)] *)
Fixpoint uint_chars (d : Decimal.uint) : str :=
  match d with
  | Decimal.Nil => []
  | Decimal.D0 d => 48%N :: uint_chars d
  | Decimal.D1 d => 49%N :: uint_chars d
  | Decimal.D2 d => 50%N :: uint_chars d
  | Decimal.D3 d => 51%N :: uint_chars d
  | Decimal.D4 d => 52%N :: uint_chars d
  | Decimal.D5 d => 53%N :: uint_chars d
  | Decimal.D6 d => 54%N :: uint_chars d
  | Decimal.D7 d => 55%N :: uint_chars d
  | Decimal.D8 d => 56%N :: uint_chars d
  | Decimal.D9 d => 57%N :: uint_chars d
  end.

(** ['{}'.format(z)] for an int. *)
Definition format_int (z : Z) : str :=
  match Z.to_int z with
  | Decimal.Pos d => uint_chars d
  | Decimal.Neg d => 45%N :: uint_chars d
  end.

(** [int(s)] (Objects/unicodeobject.c:_PyUnicode_TransformDecimalAndSpaceToASCII, Objects/longobject.c:PyLong_FromString): blanks around it, a sign, and
    decimal digits of any script with single underscores between them. The limit of 4300 digits (since CPython 3.11) is not modelled. *)
(** what [int] skips: U+001C-001F are blanks for [str.strip] but not here *)
Definition int_space (c : N) : bool :=
  (((9 <=? c) && (c <=? 13)) || (c =? 32) || (c =? 133) || (c =? 160) || (c =? 5760)
  || ((8192 <=? c) && (c <=? 8202)) || (c =? 8232) || (c =? 8233) || (c =? 8239) || (c =? 8287) || (c =? 12288))%N.
(** the zeros of the scripts (category Nd, Unicode 14); each is followed by its nine other digits *)
Definition zeros : list N :=
  [48; 1632; 1776; 1984; 2406; 2534; 2662; 2790; 2918; 3046; 3174; 3302; 3430; 3558; 3664; 3792; 3872; 4160; 4240; 6112; 6160; 6470; 6608; 6784; 6800; 6992; 7088; 7232; 7248; 42528; 43216; 43264; 43472; 43504; 43600; 44016; 65296; 66720; 68912; 69734; 69872; 69942; 70096; 70384; 70736; 70864; 71248; 71360; 71472; 71904; 72016; 72784; 73040; 73120; 92768; 92864; 93008; 120782; 120792; 120802; 120812; 120822; 123200; 123632; 125264; 130032]%N.
Definition digit_value (c : N) : option Z :=
  match find (fun z => (z <=? c) && (c <=? z + 9))%N zeros with Some z => Some (Z.of_N (c - z)) | None => None end.
Fixpoint drop_blanks (s : str) : str := match s with c :: s' => if int_space c then drop_blanks s' else s | [] => [] end.
(** [need]: a digit has to follow *)
Fixpoint int_digits (acc : Z) (need : bool) (s : str) : option Z :=
  match s with
  | [] => if need then None else Some acc
  | c :: s' =>
      match digit_value c with
      | Some d => int_digits (10 * acc + d)%Z false s'
      | None => if N.eqb c 95 && negb need then int_digits acc true s' else None
      end
  end.
Definition parse_int (s : str) : res Z :=
  let t := rev (drop_blanks (rev (drop_blanks s))) in
  let n := match t with
           | c :: ds => if N.eqb c 45 then option_map Z.opp (int_digits 0%Z true ds) else if N.eqb c 43 then int_digits 0%Z true ds else int_digits 0%Z true t
           | [] => None
           end in
  match n with Some z => Ok z | None => Err ValueError end.
Example parse_int_examples : map parse_int [u "+5"; u "-7"; u " 12 "; u "1_000"; u "_5"; u "5_"; u "5__0"; u "+ 5"; u ""; u "-"; u "5a"; u "５"; [1637%N]; [28%N; 53%N]; [12288%N; 53%N]; [45%N; 1637%N]]
  = [Ok 5%Z; Ok (-7)%Z; Ok 12%Z; Ok 1000%Z; Err ValueError; Err ValueError; Err ValueError; Err ValueError; Err ValueError; Err ValueError; Err ValueError; Ok 5%Z; Ok 5%Z; Err ValueError; Ok 5%Z; Ok (-5)%Z].
Proof. reflexivity. Qed.
Lemma parse_int_error s e : parse_int s = Err e -> e = ValueError.
Proof. unfold parse_int. cbv zeta. destruct (match _ with [] => None | _ => _ end); congruence. Qed.

Lemma uint_chars_digits d : Forall (fun c => (48 <= c <= 57)%N) (uint_chars d).
Proof. induction d; simpl; constructor; auto; lia. Qed.

Lemma uint_chars_nil d : uint_chars d = [] -> d = Decimal.Nil.
Proof. destruct d; simpl; congruence. Qed.

Lemma Z_to_int_nonnil z : match Z.to_int z with Decimal.Pos d => d <> Decimal.Nil | Decimal.Neg d => d <> Decimal.Nil end.
Proof.
  destruct z; simpl; try discriminate;
  intro E; apply (f_equal Pos.of_uint) in E; rewrite DecimalPos.Unsigned.of_to in E; discriminate.
Qed.

(** strings of ASCII digits *)
Lemma digit_value_ascii c : (48 <= c <= 57)%N -> digit_value c = Some (Z.of_N c - 48)%Z.
Proof.
  intros H. unfold digit_value, zeros. cbn [find]. replace ((48 <=? c) && (c <=? 48 + 9))%N with true; [f_equal; lia|]. symmetry. apply andb_true_iff. split; apply N.leb_le; lia.
Qed.
Lemma drop_blanks_digits s : Forall (fun c => (48 <= c <= 57)%N) s -> drop_blanks s = s.
Proof.
  intros F. destruct s as [|c s]; [reflexivity|]. apply Forall_inv in F. cbn [drop_blanks]. replace (int_space c) with false; [reflexivity|].
  assert (X : (c = 48 \/ c = 49 \/ c = 50 \/ c = 51 \/ c = 52 \/ c = 53 \/ c = 54 \/ c = 55 \/ c = 56 \/ c = 57)%N) by lia. repeat (destruct X as [X|X]; [subst c; reflexivity|]); subst c; reflexivity.
Qed.
Lemma int_digits_ascii s : Forall (fun c => (48 <= c <= 57)%N) s -> forall acc need, s <> [] \/ need = false -> int_digits acc need s = Some (fold_left (fun a c => 10 * a + (Z.of_N c - 48))%Z s acc).
Proof.
  induction 1 as [|c s C F IH]; intros acc need NE; [destruct NE as [NE|NE]; [congruence|rewrite NE; reflexivity]|]. cbn [int_digits fold_left]. rewrite (digit_value_ascii c C). apply IH. right. reflexivity.
Qed.
Lemma parse_int_digits s : Forall (fun c => (48 <= c <= 57)%N) s -> s <> [] -> parse_int s = Ok (fold_left (fun a c => 10 * a + (Z.of_N c - 48))%Z s 0%Z).
Proof.
  intros F NE. unfold parse_int. rewrite (drop_blanks_digits s F), (drop_blanks_digits (rev s)) by (apply Forall_rev, F). rewrite rev_involutive. cbv zeta. destruct s as [|c s]; [congruence|]. assert (C : (48 <= c <= 57)%N) by exact (Forall_inv F).
  destruct (N.eqb_spec c 45); [lia|]. destruct (N.eqb_spec c 43); [lia|]. rewrite (int_digits_ascii _ F) by (left; exact NE). reflexivity.
Qed.
Lemma parse_int_negative s : Forall (fun c => (48 <= c <= 57)%N) s -> s <> [] -> parse_int (45%N :: s) = Ok (- fold_left (fun a c => 10 * a + (Z.of_N c - 48))%Z s 0%Z)%Z.
Proof.
  intros F NE. unfold parse_int. cbn [drop_blanks]. change (int_space 45) with false. cbv iota. cbn [rev]. assert (E : drop_blanks (rev s ++ [45%N]) = rev s ++ [45%N]).
  { pose proof (Forall_rev F) as G. pose proof (drop_blanks_digits (rev s) G) as D. destruct (rev s) as [|c r] eqn:R; [reflexivity|]. cbn [app drop_blanks] in *. destruct (int_space c) eqn:I; [|reflexivity]. exfalso. assert (L : (length (drop_blanks r) <= length r)%nat) by (clear; induction r as [|x r IH]; cbn [drop_blanks length]; [lia|]; destruct (int_space x); cbn [length]; lia). apply (f_equal (@length N)) in D. cbn [length] in D. lia. }
  rewrite E. rewrite rev_app_distr, rev_involutive. cbn [rev app]. rewrite N.eqb_refl. rewrite (int_digits_ascii _ F) by (left; exact NE). reflexivity.
Qed.
Lemma of_uint_acc_fold d : forall acc, Zpos (Pos.of_uint_acc d acc) = fold_left (fun a c => 10 * a + (Z.of_N c - 48))%Z (uint_chars d) (Zpos acc).
Proof. induction d; intros acc; cbn [Pos.of_uint_acc uint_chars fold_left]; [reflexivity|..]; rewrite IHd; f_equal; lia. Qed.
Lemma of_uint_fold d : Z.of_uint d = fold_left (fun a c => 10 * a + (Z.of_N c - 48))%Z (uint_chars d) 0%Z.
Proof. unfold Z.of_uint. induction d; cbn [Pos.of_uint uint_chars fold_left]; [reflexivity|exact IHd|..]; cbn [Z.of_N]; rewrite of_uint_acc_fold; reflexivity. Qed.
Lemma parse_format_int z : parse_int (format_int z) = Ok z.
Proof.
  unfold format_int. pose proof (DecimalZ.of_to z) as RT. pose proof (Z_to_int_nonnil z) as NN. destruct (Z.to_int z) as [d|d];
    (assert (U : uint_chars d <> []) by (intros U; apply uint_chars_nil in U; congruence)).
  - rewrite parse_int_digits, <- of_uint_fold by (assumption || apply uint_chars_digits). f_equal. exact RT.
  - rewrite parse_int_negative, <- of_uint_fold by (assumption || apply uint_chars_digits). f_equal. exact RT.
Qed.

Lemma format_int_nonempty z : format_int z <> [].
Proof.
  unfold format_int. pose proof (Z_to_int_nonnil z) as NN.
  destruct (Z.to_int z); [|discriminate].
  intro E; apply uint_chars_nil in E; congruence.
Qed.

Lemma format_int_chars z : Forall (fun c => c = 45%N \/ (48 <= c <= 57)%N) (format_int z).
Proof.
  unfold format_int. destruct (Z.to_int z) as [d|d].
  - eapply Forall_impl; [|apply uint_chars_digits]. simpl; auto.
  - constructor; auto. eapply Forall_impl; [|apply uint_chars_digits]. simpl; auto.
Qed.

(** ** mapM *)
Lemma mapM_ok {A B} (f : A -> res B) l ys :
  mapM f l = Ok ys <-> Forall2 (fun x y => f x = Ok y) l ys.
Proof.
  revert ys; induction l as [|x l IH]; intros ys; simpl.
  - split; intro H; [inversion H; constructor|inversion H; reflexivity].
  - split; intro H.
    + destruct (f x) as [y|e] eqn:Ef; simpl in H; [|discriminate].
      destruct (mapM f l) as [zs|e] eqn:Em; simpl in H; [|discriminate].
      inversion H; subst. constructor; auto. apply IH; auto.
    + inversion H as [|? y ? zs Hy Hr]; subst. rewrite Hy; simpl.
      apply IH in Hr. rewrite Hr. reflexivity.
Qed.

Lemma mapM_pure {A B} (f : A -> res B) (g : A -> B) l :
  (forall x, In x l -> f x = Ok (g x)) -> mapM f l = Ok (map g l).
Proof.
  induction l as [|x l IH]; intros Hf; simpl; [reflexivity|].
  rewrite (Hf x (or_introl eq_refl)); simpl.
  rewrite IH; [reflexivity|]. intros y Hy; apply Hf; right; exact Hy.
Qed.

(** ** list helpers *)
Lemma skipn_skipn {A} (a b : nat) (s : list A) : skipn a (skipn b s) = skipn (a + b) s.
Proof.
  revert s; induction b as [|b IH]; intros s; simpl.
  - rewrite Nat.add_0_r. reflexivity.
  - rewrite <- plus_n_Sm. destruct s; simpl; [apply skipn_nil|apply IH].
Qed.

Lemma firstn_skipn_slice {A} (b e : nat) (s : list A) : slice b e s = skipn b (firstn e s).
Proof.
  unfold slice. rewrite skipn_firstn_comm. reflexivity.
Qed.

Lemma slice_length {A} b e (s : list A) : e <= length s -> length (slice b e s) = e - b.
Proof. intros. unfold slice. rewrite firstn_length, skipn_length. lia. Qed.

Lemma slice_app {A} a b c (s : list A) : a <= b -> b <= c -> slice a b s ++ slice b c s = slice a c s.
Proof.
  intros. unfold slice.
  replace (c - a) with ((b - a) + (c - b)) by lia.
  replace (skipn b s) with (skipn (b - a) (skipn a s)).
  2:{ rewrite skipn_skipn. f_equal. lia. }
  generalize (skipn a s) as t. generalize (b - a) as i, (c - b) as j. clear.
  induction i as [|i IH]; intros j t; simpl; [reflexivity|].
  destruct t; simpl; [destruct j; reflexivity|]. rewrite IH. reflexivity.
Qed.

Lemma slice_all {A} (s : list A) : slice 0 (length s) s = s.
Proof. unfold slice. rewrite Nat.sub_0_r. simpl. apply firstn_all. Qed.
Lemma slice_nil {A} a (s : list A) : slice a a s = [].
Proof. unfold slice. rewrite Nat.sub_diag. reflexivity. Qed.
