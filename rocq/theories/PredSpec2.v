(** * Specification vocabulary for the extraction of stems (StemExtractor) *)
From Coq Require Import QArith Reals.
From Verif Require Import PyBase PyDict UtilsModel UtilsSpec NounModel NounSpec WordModel WordSpec VectorizerSpec LemmaModel PredModel.
Open Scope Z_scope.

(** l + r is a counted eojeol that a known stem and a known ending conjugate to; l has the length of the stem *)
Definition known_pair (stems eomis : list str) (lm rm : Z) (f : dict str Z) (l r : str) : Prop :=
  exists stem eomi ws, In stem stems /\ In eomi eomis /\ conjugate stem eomi false = Ok ws /\ In (l ++ r) ws /\ length l = length stem /\ r <> [] /\
    dget f (l ++ r) <> None /\ Z.of_nat (length (l ++ r)) <= lm + rm.
(** endings that are also josa *)
Definition also_josa : list str := map u ["거나"; "게"; "게는"; "게도"; "고"; "고도"; "고만"; "는"; "다"; "다가"; "서는"; "아"; "은"]%string.
(** r consists of a known left part and a known right part *)
Definition is_predicator (L R : list str) (r : str) : Prop := exists a b, r = a ++ b /\ a <> [] /\ b <> [] /\ In a L /\ In b R.
(** a tail of l and r together are a known right part *)
Definition longer_ending (R : list str) (l r : str) : Prop := exists a b, l = a ++ b /\ b <> [] /\ In (b ++ r) R.
Inductive scls := SPos | SNeg | SUnk | SSkip.
Definition scls_eqb (a b : scls) : bool := match a, b with SPos, SPos | SNeg, SNeg | SUnk, SUnk | SSkip, SSkip => true | _, _ => false end.
Inductive sclass (L R : list str) (l : str) : str -> scls -> Prop :=
| s_skip r : In r also_josa -> sclass L R l r SSkip
| s_end : sclass L R l [] SNeg
| s_pos r : ~ In r also_josa -> r <> [] -> In r R -> sclass L R l r SPos
| s_neg r : ~ In r also_josa -> r <> [] -> ~ In r R -> is_predicator L R r \/ longer_ending R l r -> sclass L R l r SNeg
| s_unk r : ~ In r also_josa -> r <> [] -> ~ In r R -> ~ is_predicator L R r -> ~ longer_ending R l r -> sclass L R l r SUnk.
Definition sweight (ks : list scls) (fs : list (str * Z)) (k : scls) : Z :=
  fold_right Z.add 0 (map (fun p : scls * (str * Z) => if scls_eqb (fst p) k then snd (snd p) else 0) (combine ks fs)).
(** the right parts whose entropy counts *)
Definition unambiguous (L R : list str) (l r : str) : Prop := In r R /\ ~ In r also_josa /\ ~ is_predicator L R r /\ ~ longer_ending R l r.
Definition first_char (fs : list (str * Z)) (x : N) : Prop := exists t n, In (x :: t, n) fs.

(** a candidate: a left part of known right parts that occurs often enough with them *)
Definition stem_candidate (L R ignore : list str) (lm rm : Z) (f : dict str Z) (mf : Z) (l : str) : Prop :=
  ~ In l L /\ ~ In l ignore /\ exists xs, NoDup xs /\ (forall r n, In (r, n) xs <-> In r R /\ in_limits lm rm l r /\ dget f (l ++ r) = Some n) /\ xs <> [] /\ mf <= fold_right Z.add 0 (map snd xs).
(** the extracted surfaces: candidates whose prediction reaches both thresholds *)
Definition stem_surface_of (c : sconf) (g : lrg) (ignore : list str) (lm rm : Z) (f : dict str Z) (ms : Q) (mf : Z) (l : str) (p : Q * Z) : Prop :=
  stem_candidate (st_L c) (st_R c) ignore lm rm f mf l /\ ~ In l (st_R c) /\ length l <> 1%nat /\ (forall a, l <> a ++ u "다") /\
  stem_predict c (get_r g l (-1)) l ms mf = Ok p /\ (ms <= fst p)%Q /\ mf <= snd p.
(** those that are removed again: a stem and an ending, or a longer form of another surface *)
Definition removed_surface (c : sconf) (surface : str -> Prop) (l : str) : Prop :=
  (exists a b d, l = a ++ b ++ d /\ a <> [] /\ b <> [] /\ (In a (st_L c) \/ surface a) /\ In b (st_R c)) \/
  (exists a b, l = a ++ b /\ (2 <= length a)%nat /\ b <> [] /\ surface a).
(** one contribution to the stem s: (l, r) occurs, l is a kept surface and (s, e) an analysis of l + r whose ending is NOT known *)
Definition stem_contribution (eomis : list str) (kept : str -> Q * Z -> Prop) (lm rm : Z) (f : dict str Z) (s : str) (x : str * str * str * (Q * Z)) : Prop :=
  let '(l, r, e, p) := x in
  kept l p /\ in_limits lm rm l r /\ dget f (l ++ r) <> None /\ ~ In e eomis /\ exists cs, lemma_candidate [] l r = Ok cs /\ In (s, e) cs.
Definition sc_score (x : str * str * str * (Q * Z)) : Q := fst (snd x).
Definition sc_freq (x : str * str * str * (Q * Z)) : Q := inject_Z (snd (snd x)).
