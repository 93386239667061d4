(** * Specification vocabulary for PredicatorExtractor: the table of lemmas, wrong endings, adjectives and verbs *)
From Verif Require Import PyBase PyDict HangleSpec NounSpec LemmaModel LemmaSpec PredModel.
Open Scope Z_scope.

(** ** the table of lemmas *)
(** the word is a known noun followed by a known josa *)
Definition noun_josa (c : pconf) (w : str) : Prop := exists a b, w = a ++ b /\ a <> [] /\ b <> [] /\ In a (p_nouns c) /\ In b (p_josas c).
(** an analysis (LemmaSpec: a proposal at some split that conjugates back to the word) with a known stem and ending *)
Definition known_lemma (c : pconf) (w s m : str) : Prop := In s (p_stems c) /\ In m (p_eomis c) /\ exists l r, w = l ++ r /\ l <> [] /\ lemma_of l r s m.
Definition is_predicate (c : pconf) (w : str) : Prop := ~ noun_josa c w /\ exists s m, known_lemma c w s m.
(** T is the table of the predicates among the candidates, with their frequencies and all their analyses *)
Definition table_of (c : pconf) (cands : dict str Z) (T : dict str (Z * list (str * str))) : Prop :=
  NoDup (dkeys T) /\
  (forall w, dget T w <> None <-> dget cands w <> None /\ is_predicate c w) /\
  forall w n ls, dget T w = Some (n, ls) -> dget cands w = Some n /\ NoDup ls /\ forall s m, In (s, m) ls <-> known_lemma c w s m.

(** ** wrong endings *)
(** the uses of an ending: the words and stems it is analysed with *)
Definition uses (T : dict str (Z * list (str * str))) (m : str) (us : list (str * str)) : Prop :=
  NoDup us /\ forall w s, In (w, s) us <-> exists n ls, dget T w = Some (n, ls) /\ In (s, m) ls.
(** a suspicious ending has at most two characters and at least half of its uses in words of two characters are nouns *)
Definition suspicious (T : dict str (Z * list (str * str))) (nouns : list str) (m : str) : Prop :=
  (length m <= 2)%nat /\ exists us a b, uses T m us /\ how_many (fun x => length (fst x) = 2%nat) us a /\ how_many (fun x => length (fst x) = 2%nat /\ In (fst x) nouns) us b /\ (0 < a <= 2 * b)%nat.
(** all its words have two characters: the ending is no longer known *)
Definition only_short (T : dict str (Z * list (str * str))) (m : str) : Prop := forall w n ls s, dget T w = Some (n, ls) -> In (s, m) ls -> length w = 2%nat.
Definition rejected (T : dict str (Z * list (str * str))) (nouns : list str) (m : str) : Prop := suspicious T nouns m /\ only_short T m.
(** the ending is removed from the analyses of the word *)
Definition wrong_in (T : dict str (Z * list (str * str))) (nouns : list str) (m w : str) : Prop :=
  suspicious T nouns m /\ (only_short T m \/ length w = 2%nat /\ In w nouns \/ length w = 3%nat /\ length m = 2%nat).

(** ** adjectives and verbs *)
Definition adjective_suffixes : list str := map u ["같"; "답"; "롭"; "만하"; "스럽"; "시럽"; "이"; "아니"]%string.
Definition verb_suffixes_ : list str := map u ["거리"; "당하"; "당허"; "시키"]%string.
(** a suffix of one or two characters *)
Definition ends_with (ss : list str) (stem : str) : Prop := exists a b, stem = a ++ b /\ In b ss.
(** the endings that tell a verb: declarative, imperative, propositive *)
Definition test_ending (stem m : str) : Prop :=
  exists p a b f, stem = p ++ [syl a b f] /\ jamo a b f /\
  ((f = " "%ch /\ In m (map u ["ㄴ다"; "ㄴ다고"]%string)) \/ (f <> " "%ch /\ In m (map u ["는다"; "는다고"]%string)) \/ m = u "고있는" \/
   ((b = "ㅓ"%ch \/ b = "ㅕ"%ch) /\ m = u "어라") \/ (b <> "ㅓ"%ch /\ b <> "ㅕ"%ch /\ m = u "아라") \/ In m (map u ["자"; "ㄹ까"; "ㄹ까봐"; "까"; "까봐"; "을까"; "을까봐"]%string)).
Definition test_form (stem x : str) : Prop := exists m, test_ending stem m /\ surface_of stem m x.
Inductive verb_stem (c : pconf) (known : str -> Prop) (stem : str) : Prop :=
| v_dict : In stem (p_verb c) -> verb_stem c known stem
| v_rule : ~ In stem (p_adj c) -> ~ ends_with adjective_suffixes stem -> ends_with verb_suffixes_ stem -> verb_stem c known stem
| v_forms x y : ~ In stem (p_adj c) -> ~ ends_with adjective_suffixes stem -> x <> y -> test_form stem x -> test_form stem y -> known x -> known y -> verb_stem c known stem.

(** ** results *)
(** T' and c' are what remains of T and c without the wrong endings. A word keeps its frequency and exactly the other endings; a word whose
    endings are all different disappears only if nothing remains; a word without wrong endings is unchanged *)
Definition cleaned (c : pconf) (T : dict str (Z * list (str * str))) (c' : pconf) (T' : dict str (Z * list (str * str))) : Prop :=
  (p_josas c' = p_josas c /\ p_adj c' = p_adj c /\ p_verb c' = p_verb c /\ p_stems c' = p_stems c /\ p_nouns c' = p_nouns c) /\
  (forall m, In m (p_eomis c') <-> In m (p_eomis c) /\ ~ rejected T (p_nouns c) m) /\
  NoDup (dkeys T') /\
  (forall w n ls', dget T' w = Some (n, ls') -> exists ls, dget T w = Some (n, ls) /\ forall s m, In (s, m) ls' <-> In (s, m) ls /\ ~ wrong_in T (p_nouns c) m w) /\
  (forall w n ls, dget T w = Some (n, ls) -> NoDup (map snd ls) -> (dget T' w <> None <-> exists s m, In (s, m) ls /\ ~ wrong_in T (p_nouns c) m w)) /\
  (forall w n ls, dget T w = Some (n, ls) -> (forall s m, In (s, m) ls -> ~ wrong_in T (p_nouns c) m w) -> dget T' w = Some (n, ls)).
(** A and V are the parts of P whose stems are adjectives and verbs *)
Definition separated (c : pconf) (P A V : dict str (Z * list (str * str))) : Prop :=
  let verb := verb_stem c (fun w => dget P w <> None) in
  NoDup (dkeys A) /\ NoDup (dkeys V) /\
  (forall w, dget P w = None -> dget A w = None /\ dget V w = None) /\
  forall w n ls, dget P w = Some (n, ls) -> exists la lv, (length la + length lv = length ls)%nat /\
    (forall x, In x la <-> In x ls /\ ~ verb (fst x)) /\ (forall x, In x lv <-> In x ls /\ verb (fst x)) /\
    dget A w = match la with [] => None | _ => Some (n, la) end /\ dget V w = match lv with [] => None | _ => Some (n, lv) end.
(** the eojeols endings and stems are learnt from: at least two characters and no prefix of at least two characters that is a noun *)
Definition without_noun (nouns : list str) (w : str) : Prop := (2 <= length w)%nat /\ forall a b, w = a ++ b -> (2 <= length a)%nat -> ~ In a nouns.
