(** * Specification vocabulary for the predicator extractors *)
From Coq Require Import QArith.
From Verif Require Import PyBase PyDict UtilsModel UtilsSpec NounModel NounSpec VectorizerSpec LemmaModel PredModel.
Open Scope Z_scope.

(** ** endings (EomiExtractor). [surf] are the surface forms of the known stems, [nouns] the known nouns *)
(** the left part can be prolonged into the right part to another stem form: then the right part is not an ending of the left part *)
Definition stem_goes_on (surf : list str) (l r : str) : Prop := exists a b, r = a ++ b /\ a <> [] /\ In (l ++ a) surf.
(** a noun of one character followed by a stem form *)
Definition noun_and_stem (surf nouns : list str) (l : str) : Prop := exists x t, l = x :: t /\ In [x] nouns /\ In t surf.
(** l counts as a stem form *)
Definition stem_like (surf nouns : list str) (l : str) : Prop := In l surf \/ noun_and_stem surf nouns l.
(** something and a stem form *)
Definition ends_in_stem (surf : list str) (l : str) : Prop := exists a b, l = a ++ b /\ a <> [] /\ b <> [] /\ In b surf.
(** what the left part l says about the ending r *)
Inductive ecls := EPos | ENeg | EUnk | ESkip.
Definition ecls_eqb (a b : ecls) : bool := match a, b with EPos, EPos | ENeg, ENeg | EUnk, EUnk | ESkip, ESkip => true | _, _ => false end.
Inductive eclass (surf nouns : list str) (r l : str) : ecls -> Prop :=
| e_skip : In (l ++ r) nouns \/ stem_goes_on surf l r -> eclass surf nouns r l ESkip
| e_pos : ~ In (l ++ r) nouns -> ~ stem_goes_on surf l r -> stem_like surf nouns l -> eclass surf nouns r l EPos
| e_unk : ~ In (l ++ r) nouns -> ~ stem_goes_on surf l r -> ~ stem_like surf nouns l -> ends_in_stem surf l -> eclass surf nouns r l EUnk
| e_neg : ~ In (l ++ r) nouns -> ~ stem_goes_on surf l r -> ~ stem_like surf nouns l -> ~ ends_in_stem surf l -> eclass surf nouns r l ENeg.
Definition eweight (ks : list ecls) (fs : list (str * Z)) (k : ecls) : Z :=
  fold_right Z.add 0 (map (fun p : ecls * (str * Z) => if ecls_eqb (fst p) k then snd (snd p) else 0) (combine ks fs)).

(** the right parts of the stem forms are the candidates, those that end in the given string when there is one *)
Definition wanted (condition : option str) (r : str) : Prop := forall p, condition = Some p -> exists a, r = a ++ p.
Definition ending_candidate (surf : list str) (condition : option str) (lm rm : Z) (f : dict str Z) (r : str) : Prop :=
  wanted condition r /\ exists l n, In l surf /\ in_limits lm rm l r /\ dget f (l ++ r) = Some n.
(** an accepted ending takes the eojeols in which it follows a stem form *)
Definition takes (surf nouns : list str) (lm rm : Z) (r e : str) : Prop := r <> [] /\ exists l, e = l ++ r /\ in_limits lm rm l r /\ stem_like surf nouns l.
(** the eojeols that end in r and have not been taken by a longer accepted ending *)
Definition left_for_ending (surf nouns : list str) (S : dict str (Z * Q)) (ms : Q) (lm rm : Z) (f : dict str Z) (r l : str) (n : Z) : Prop :=
  r <> [] /\ in_limits lm rm l r /\ dget f (l ++ r) = Some n /\
  forall r', accepted S ms r' -> (length r < length r')%nat -> ~ takes surf nouns lm rm r' (l ++ r).
(** the scores of all candidates *)
Definition ending_scores (surf nouns : list str) (condition : option str) (ms : Q) (mnf lm rm : Z) (f : dict str Z) (S : dict str (Z * Q)) : Prop :=
  NoDup (dkeys S) /\ (forall r, dget S r <> None <-> ending_candidate surf condition lm rm f r) /\
  forall r p, dget S r = Some p -> exists fs, NoDup (map fst fs) /\ (forall l n, In (l, n) fs <-> left_for_ending surf nouns S ms lm rm f r l n) /\ eomi_predict surf nouns fs r ms mnf = Ok p.
(** one contribution to the canonical ending e: the accepted surface r with the score q follows l in an eojeol counted n times,
    and (s, e) is an analysis of l + r with a known stem s *)
Definition contributes (stems : list str) (S : dict str (Z * Q)) (ms : Q) (lm rm : Z) (f : dict str Z) (e : str) (x : str * str * str * Z * Q) : Prop :=
  let '(r, l, s, n, q) := x in
  (exists c, dget S r = Some (c, q)) /\ (ms <= q)%Q /\ r <> [] /\ in_limits lm rm l r /\ dget f (l ++ r) = Some n /\ In s stems /\
  exists cs, lemma_candidate [] l r = Ok cs /\ In (s, e) cs.
Definition c_count (x : str * str * str * Z * Q) : Q := inject_Z (snd (fst x)).
Definition c_score (x : str * str * str * Z * Q) : Q := snd x.
