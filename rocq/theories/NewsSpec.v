(** * Specification vocabulary for NewsNounExtractor *)
From Coq Require Import QArith.
From Verif Require Import PyBase PyDict PyText UtilsSpec NounModel NounSpec VectorizerSpec NewsModel.
Open Scope Z_scope.

(** the words of the corpus *)
Definition words (sents : list str) : list str := concat (map split sents).
(** distinct elements in the order in which they first appear *)
Definition first_seen (l : list str) : list str := fold_left (fun s x => if mem x s then s else s ++ [x]) l [].
(** x appears before y in the list (first appearances) *)
Definition before (L : list str) (x y : str) : Prop := exists a b, L = a ++ y :: b /\ ~ In y a /\ In x a.
Definition len {A} (l : list A) : Z := Z.of_nat (length l).
Definition zq (z : Z) : Q := inject_Z z.
Definition mean (l : list Q) : Q := match l with [] => 0%Q | _ => (Qsum l / zq (len l))%Q end.
(** more than, at least q of the elements of L satisfy P *)
Definition more_than (q : Q) (P : str -> Prop) (L : list str) : Prop := exists n, how_many P L n /\ (q * zq (len L) < zq (Z.of_nat n))%Q.
Definition at_least (q : Q) (P : str -> Prop) (L : list str) : Prop := exists n, how_many P L n /\ (q * zq (len L) <= zq (Z.of_nat n))%Q.
Definition ends_with (l : str) (ss : list str) : Prop := exists a s, l = a ++ s /\ In s ss.

Section Corpus.
  (** coefficients, josas, verbs and adjectives, limits, the words of the corpus *)
  Variables (coef : dict str Q) (lm rm : Z) (josa verbs : str -> Prop) (W : list str).

  (** the left parts of the words, in the order in which they are met *)
  Definition lefts : list str :=
    first_seen (concat (map (fun w => filter (fun l => in_window lm rm l (skipn (length l) w)) (map (fun k => firstn k w) (seq 1 (length w))))
                         (first_seen (filter (fun w => len w <=? lm + rm) W)))).
  (** the right parts with which l occurs, one for each occurrence *)
  Definition after (l : str) : list str := map (skipn (length l)) (filter (fun w => eqb (l ++ skipn (length l) w) w && in_window lm rm l (skipn (length l) w)) W).
  Definition freq (l : str) : Z := len (after l).
  (** the left parts with which r occurs, one for each occurrence *)
  Definition ahead (r : str) : list str := map (fun w => firstn (length w - length r) w) (filter (fun w => let l := firstn (length w - length r) w in eqb (l ++ r) w && in_window lm rm l r) W).
  (** the occurrences of w as a word; longer words than the limits allow are not counted *)
  Definition alone (w : str) : Z := if len w <=? lm + rm then len (filter (eqb w) W) else 0.
  (** the right parts with a coefficient *)
  Definition features (l : str) : list str := filter (dmem coef) (after l).
  Definition score (l : str) : Q := mean (map (fun r => dgetd coef r 0%Q) (features l)).
  Definition n_positive (l : str) : Z := len (filter (fun r => negb (Qle_bool (dgetd coef r 0%Q) 0)) (first_seen (features l))).
  Definition predicted (l : str) (s : nscore) : Prop :=
    (ns_score s == score l)%Q /\ ns_freq s = freq l /\
    (ns_fprop s == (if alone l <? freq l then zq (len (features l)) / zq (freq l - alone l) else 0))%Q /\
    (ns_eprop s == (if 0 <? freq l then zq (alone l) / zq (freq l) else 0))%Q /\
    ns_npos s = n_positive l /\
    (ns_upos s == (match features l with [] => 0 | _ => zq (n_positive l) / zq (len (first_seen (features l))) end))%Q.

  (** frequent words that nearly always stand alone *)
  Definition stands_alone (mf : Z) (l : str) : Prop := 0 < freq l /\ mf <= freq l /\ (99 # 100 <= zq (alone l) / zq (freq l))%Q.
  (** the nouns of the first step: the two first characters of such a word of at least 4 characters, when the rest is a verb (or, from 5 characters on, the empty string is one) *)
  Definition split_verb (mf : Z) (n : str) : Prop :=
    exists r, stands_alone mf (n ++ r) /\ length n = 2%nat /\ (2 <= length r)%nat /\ (4 # 10 <= score n)%Q /\ (verbs r \/ ((3 <= length r)%nat /\ verbs [])).
  (** the candidates with a good score. Here mfp, called min_feature_proportion, bounds the frequency *)
  Definition good_score (ms : Q) (mf : Z) (cands : list str) (mfp : Q) (l : str) : Prop :=
    In l (match cands with [] => lefts | _ => cands end) /\ mf <= freq l /\ dget coef l = None /\ (ms < score l)%Q /\ (mfp < zq (freq l))%Q /\ (2 <= length l)%nat.

  (** the last one (or, from 4 characters on, two) characters are cut off *)
  Definition tail_cut (l a b : str) : Prop := l = a ++ b /\ (length b = 1%nat \/ (length b = 2%nat /\ (4 <= length l)%nat)).
  (** noun + josa without its end: the rest of most occurrences is a josa after some shorter noun *)
  Definition noun_josa_begin (N : str -> Prop) (l : str) : Prop :=
    let shorter := fun a : str => (exists b, l = a ++ b /\ b <> []) /\ (2 <= length a)%nat /\ (N a \/ (4 # 10 < score a)%Q) in
    exists a, shorter a /\ (forall a', shorter a' -> (length a' <= length a)%nat) /\ 0 < freq a /\ (zq (freq l) / zq (freq a) <= 7 # 10)%Q /\
      more_than (8 # 10) (fun r => exists a' j, shorter a' /\ l ++ r = a' ++ j /\ josa j) (after l).
  (** the noun l0 is the beginning of a noun l that ends like a josa *)
  Definition noun_begin (S N : str -> Prop) (l0 : str) : Prop :=
    exists j, S (l0 ++ j) /\ ~ noun_josa_begin N (l0 ++ j) /\ (2 <= length l0)%nat /\ j <> [] /\ josa j /\ (7 # 10 < score l0)%Q /\ (7 # 10 < zq (freq l0) / zq (freq (l0 ++ j)))%Q.
  (** noun + beginning of a verb: what follows the noun is mostly a word of its own *)
  Definition own_word (w : str) : Prop := 0 < freq w /\ (7 # 10 < zq (alone w) / zq (freq w))%Q.
  Definition noun_verb_begin (S N : str -> Prop) (l : str) : Prop := exists a b, tail_cut l a b /\ S a /\ N a /\ more_than (7 # 10) (fun r => own_word (b ++ r)) (after l).
  Definition rare_extension (K : str -> Prop) (l : str) : Prop := exists a b, tail_cut l a b /\ K a /\ (freq a = 0 \/ (zq (freq l) / zq (freq a) < 1 # 10)%Q).
  Definition compound (K : str -> Prop) (l : str) : Prop := (4 <= length l)%nat /\
    ((exists a b, l = a ++ b /\ (2 <= length a)%nat /\ b <> [] /\ K a /\ K b) \/
     (exists a b c, l = a ++ b ++ c /\ (2 <= length a)%nat /\ (2 <= length b)%nat /\ (2 <= length c)%nat /\ K a /\ K b /\ K c)).
  Definition noun_josa (K : str -> Prop) (l : str) : Prop := exists a b, l = a ++ b /\ (2 <= length a)%nat /\ K a /\ (b = [] \/ (0 < dgetd coef b 0)%Q).
  Definition noun_verb (K : str -> Prop) (l : str) : Prop := exists a b, l = a ++ b /\ (2 <= length a)%nat /\ b <> [] /\ K a /\ verbs b.
  (** a rare word with at most one positive right part is doubtful unless most of its right parts are typical of nouns *)
  Definition typical (K : str -> Prop) (l : str) : Prop :=
    freq l <= 10 -> n_positive l <= 1 -> more_than (1 # 2) (fun r => In (firstn 2 r) news_pass \/ noun_josa K r) (filter (fun r => negb (eqb r [])) (after l)).
  (** 하 to 힣, and ㅎ *)
  Definition h_initial (r : str) : Prop := exists x r', r = x :: r' /\ (x = 12622%N \/ (54616 <= x <= 55203)%N).
  Definition not_hada (K : str -> Prop) (l : str) : Prop :=
    (~ ends_with l [u "당"] /\ exists a x, l = a ++ [x] /\ K a) \/ freq l = 0 \/ ~ at_least (1 # 2) h_initial (after l).
  Definition drops (l : str) : Prop := exists a x, l = a ++ [x] /\ (freq a = 0 \/ (zq (freq l) / zq (freq a) < 8 # 10)%Q).
  Definition bad_suffix (K : str -> Prop) (l : str) : Prop :=
    verbs l \/ ends_with l [u "갔다"; u "이는"; u "겠지"; u "보는"] \/
    (ends_with l [u "으"] /\ more_than (1 # 2) (fun r => In r [u "로"; u "로써"; u "로만"; u "로의"]) (after l)) \/
    (ends_with l [u "지"] /\ more_than (1 # 2) (fun r => In r [u "만"]) (after l)) \/
    (ends_with l [u "없"] /\ more_than (1 # 2) (fun r => In r [u "는"; u "이"; u "다"; u "었다"]) (after l)) \/
    (ends_with l [u "인"; u "은"; u "의"; u "와"; u "과"; u "들이"; u "들은"; u "들도"; u "들을"] /\ drops l) \/
    (exists a, l = a ++ u "으로" /\ (length l = 3%nat \/ K a)).

  (** the nouns P among the words S with a good score: those kept by the filters; the order of the candidates decides about the endings -으로 *)
  Definition kept_nouns (order : list str) (S N P : str -> Prop) : Prop := forall l, P l <->
    S l /\ ~ noun_josa_begin N l /\ ~ noun_begin S N l /\
    ~ (noun_verb_begin S N l /\ rare_extension (fun x => S x \/ N x) l /\ ~ compound (fun x => S x \/ N x) l) /\
    (typical (fun x => S x \/ N x) l \/ compound (fun x => S x \/ N x) l) /\
    ~ bad_suffix (fun x => (P x /\ before order x l) \/ N x) l /\ not_hada (fun x => S x \/ N x) l.
  (** the compounds A among the words that stand alone; those found earlier (in the order of the left parts) are nouns for the later ones *)
  Definition added_compounds (mf : Z) (S N P A : str -> Prop) : Prop := forall l, A l <->
    let N' := fun x => N x \/ (A x /\ before lefts x l) in
    stands_alone mf l /\ ~ P l /\ ~ noun_josa_begin N' l /\ ~ noun_josa (fun x => S x \/ N' x) l /\ ~ noun_verb (fun x => P x \/ N' x) l /\
    ~ bad_suffix (fun x => P x \/ N' x) l /\ compound (fun x => S x \/ N' x) l.
End Corpus.
