(** * Specification vocabulary for LRNounExtractor_v2 *)
From Coq Require Import QArith.
From Verif Require Import PyBase PyDict UtilsModel UtilsSpec NounModel.
Open Scope Z_scope.

(** some non-empty suffix of the word followed by r is a feature: then r is only the tail of a longer feature *)
Definition has_longer (feats : list str) (w r : str) : Prop := exists a s, w = a ++ s /\ s <> [] /\ In (s ++ r) feats.

(** the role of a right part r of the word w *)
Inductive cls := Pos | Common | Neg | Unk | End | Skip.
Inductive class_of (c : nconf) (w : str) : str -> cls -> Prop :=
| class_end : class_of c w [] End
| class_skip r : r <> [] -> has_longer (pos_f c) w r \/ has_longer (neg_f c) w r -> class_of c w r Skip
| class_common r : r <> [] -> ~ has_longer (pos_f c) w r -> ~ has_longer (neg_f c) w r -> In r (common_f c) -> class_of c w r Common
| class_pos r : r <> [] -> ~ has_longer (pos_f c) w r -> ~ has_longer (neg_f c) w r -> ~ In r (common_f c) -> In r (pos_f c) -> class_of c w r Pos
| class_neg r : r <> [] -> ~ has_longer (pos_f c) w r -> ~ has_longer (neg_f c) w r -> ~ In r (common_f c) -> ~ In r (pos_f c) -> In r (neg_f c) -> class_of c w r Neg
| class_unk r : r <> [] -> ~ has_longer (pos_f c) w r -> ~ has_longer (neg_f c) w r -> ~ In r (common_f c) -> ~ In r (pos_f c) -> ~ In r (neg_f c) -> class_of c w r Unk.
Definition cls_eqb (a b : cls) : bool :=
  match a, b with Pos, Pos | Common, Common | Neg, Neg | Unk, Unk | End, End | Skip, Skip => true | _, _ => false end.
(** the total count of the right parts of class k, given the class of each *)
Definition weight (ks : list cls) (fs : list (str * Z)) (k : cls) : Z :=
  fold_right Z.add 0 (map (fun p : cls * (str * Z) => if cls_eqb (fst p) k then snd (snd p) else 0) (combine ks fs)).
(** n elements of the list satisfy P *)
Inductive how_many {A} (P : A -> Prop) : list A -> nat -> Prop :=
| hm_nil : how_many P [] 0
| hm_yes x l n : P x -> how_many P l n -> how_many P (x :: l) (S n)
| hm_no x l n : ~ P x -> how_many P l n -> how_many P (x :: l) n.
(** a right part that speaks for or against the word being a noun *)
Definition informative (c : nconf) (w r : str) : Prop :=
  In r (pos_f c) /\ ~ has_longer (pos_f c) w r \/ In r (neg_f c) /\ ~ has_longer (neg_f c) w r.
(** x is the first character of a right part that is not the tail of a longer positive feature (of an unknown one in any case) *)
Definition first_char_of (c : nconf) (w : str) (fs : list (str * Z)) (x : N) : Prop :=
  exists r n, In (x :: r, n) fs /\ (In (x :: r) (pos_f c) \/ In (x :: r) (common_f c) -> ~ has_longer (pos_f c) w (x :: r)).

(** the two configurations have the same feature sets (in any order) and thresholds *)
Definition same_features (c c' : nconf) : Prop :=
  (forall f, In f (pos_f c) <-> In f (pos_f c')) /\ (forall f, In f (neg_f c) <-> In f (neg_f c')) /\ (forall f, In f (common_f c) <-> In f (common_f c')) /\
  min_nf c = min_nf c' /\ max_eoj c = max_eoj c'.

(** (l, r) is a split of an eojeol the graph can hold *)
Definition in_limits (lm rm : Z) (l r : str) : Prop := l <> [] /\ Z.of_nat (length l) <= lm /\ Z.of_nat (length r) <= rm.
(** the eojeol e begins with the word w, within the limits of the graph *)
Definition begins_with (lm rm : Z) (e w : str) : Prop := exists r, e = w ++ r /\ in_limits lm rm w r.
(** a candidate: some counted eojeol is the word followed by a positive feature *)
Definition noun_candidate (c : nconf) (lm rm : Z) (f : dict str Z) (w : str) : Prop :=
  exists r n, r <> [] /\ In r (pos_f c) /\ in_limits lm rm w r /\ dget f (w ++ r) = Some n.
(** the words of a prediction that reach the threshold *)
Definition accepted (scores : dict str (Z * Q)) (ms : Q) (w : str) : Prop := exists p, dget scores w = Some p /\ (ms <= snd p)%Q.
(** the eojeols begining with w that are left when every longer accepted word has taken its eojeols *)
Definition left_for (scores : dict str (Z * Q)) (ms : Q) (lm rm : Z) (f : dict str Z) (w r : str) (n : Z) : Prop :=
  in_limits lm rm w r /\ dget f (w ++ r) = Some n /\
  forall w', accepted scores ms w' -> (length w < length w')%nat -> ~ begins_with lm rm (w ++ r) w'.
