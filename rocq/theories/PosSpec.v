(** * Specification vocabulary for the part-of-speech extractors *)
From Coq Require Import QArith.
From Verif Require Import PyBase PyDict PyText CountLemmas HangleModel TokenizerModel LemmaModel PredModel PosModel.
Open Scope Z_scope.

(** n is the number of occurrences, in the table E of counts, of the words that satisfy P *)
Definition how_much (P : str -> Prop) (E : dict str Z) (n : Z) : Prop :=
  exists b : str -> bool, (forall w, In w (dkeys E) -> (b w = true <-> P w)) /\ n = Zsum (fun wc : str * Z => if b (fst wc) then snd wc else 0) E.
(** the first cut of w, after at least two characters, into a left and a right part of the given kinds *)
Definition first_split (L R : str -> Prop) (w l r : str) : Prop :=
  w = l ++ r /\ (2 <= length l)%nat /\ r <> [] /\ L l /\ R r /\
  forall l' r', w = l' ++ r' -> (2 <= length l')%nat -> (length l' < length l)%nat -> ~ (L l' /\ R r').
(** a stem that does not fit an ending: ㄹ or ㅂ before ㄴ ㄹ ㅁ ㅂ; ㅡ before 어 or 아; in chats, 업 닿 땋 *)
Definition clash (chat : bool) (stem ending : str) : Prop := exists p c, stem = p ++ [c] /\
  ((chat = true /\ (c = "업"%ch \/ c = "닿"%ch \/ c = "땋"%ch)) \/
   exists e t l0 l1 l2 r0 r1 r2, ending = e :: t /\ decompose c = Some (l0, l1, l2) /\ decompose e = Some (r0, r1, r2) /\
     ((In l2 (u "ㄹㅂ") /\ In r0 (u "ㄴㄹㅁㅂ")) \/ (l1 = "ㅡ"%ch /\ l2 = " "%ch /\ r0 = "ㅇ"%ch /\ In r1 (u "ㅓㅏ")))).
(** the known analyses of a word cut into l and r, and those of the cut with the longest l *)
Definition cut_analysis (stems eomis : str -> Prop) (l r s e : str) : Prop := exists cs, lemma_candidate [] l r = Ok cs /\ In (s, e) cs /\ stems s /\ eomis e.
Definition longest_analysis (stems eomis : str -> Prop) (w s e : str) : Prop := exists l r, w = l ++ r /\ l <> [] /\ cut_analysis stems eomis l r s e /\
  forall l' r' s' e', w = l' ++ r' -> (length l < length l')%nat -> ~ cut_analysis stems eomis l' r' s' e'.
Section Extract.
  Variable chat : bool.
  Variable x : posx.
  Let E := x_eoj x.
  Definition eojeol (w : str) : Prop := In w (dkeys E).
  Definition josa (w : str) : Prop := In w (x_josas x).
  Definition adj (w : str) : Prop := In w (dkeys (x_adj x)).
  Definition verb (w : str) : Prop := In w (dkeys (x_verb x)).
  (** ** words that are known as they are *)
  Definition N1 (w : str) : Prop := eojeol w /\ In w (x_nouns x).
  Definition A1 (w : str) : Prop := eojeol w /\ adj w.
  Definition V1 (w : str) : Prop := eojeol w /\ verb w.
  Definition D1 (w : str) : Prop := eojeol w /\ In w (x_adv x).
  Definition rest1 (w : str) : Prop := eojeol w /\ ~ In w (x_nouns x) /\ ~ adj w /\ ~ verb w /\ ~ In w (x_adv x).
  (** ** a noun, seen alone, and a josa, adjective or verb *)
  Definition nj (w l r : str) : Prop := rest1 w /\ first_split N1 josa w l r.
  Definition na (w l r : str) : Prop := rest1 w /\ first_split N1 A1 w l r.
  Definition nv (w l r : str) : Prop := rest1 w /\ first_split N1 V1 w l r.
  Definition J2 (r : str) : Prop := exists w l, nj w l r.
  Definition rest2 (w : str) : Prop := rest1 w /\ forall l r, ~ nj w l r /\ ~ na w l r /\ ~ nv w l r.
  (** ** a predicator and an adjective or verb: the analyses of the second with a longer stem *)
  Definition raw (base : dict str (Z * list (str * str))) (known : str -> Prop) (w s e : str) : Prop :=
    rest2 w /\ exists l r p s0, first_split (fun l => adj l \/ verb l) (fun r => In r (dkeys base)) w l r /\ dget base r = Some p /\ In (s0, e) (snd p) /\ s = l ++ s0 /\ ~ clash chat s e /\ ~ known s.
  (** in chats, a stem is dropped when at least 90% of its occurrences have an ending that begins with a consonant letter *)
  Definition letter_ending (e : str) : Prop := exists c t, e = c :: t /\ In c jaum_list.
  Definition weight (A : str -> str -> str -> Prop) (Q : str -> Prop) (s : str) (n : Z) : Prop :=
    exists es : list str, NoDup es /\ (forall e, In e es <-> Q e /\ exists w, A w s e) /\
      exists f : str -> Z, (forall e, In e es -> how_much (fun w => A w s e) E (f e)) /\ n = Zsum f es.
  Definition wrong_stem (A : str -> str -> str -> Prop) (s : str) : Prop := (exists w e, A w s e) /\ exists k n, weight A letter_ending s k /\ weight A (fun _ => True) s n /\ 0 < n /\ 9 * n <= 10 * k.
  Definition kept (A : str -> str -> str -> Prop) (w s e : str) : Prop := A w s e /\ (chat = true -> ~ wrong_stem A s).
  Definition ca : str -> str -> str -> Prop := kept (raw (x_adj x) (fun s => In s (x_adjs x) \/ In s (x_verbs x))).
  Definition AS3 (s : str) : Prop := In s (x_adjs x) \/ (chat = false /\ exists w e, ca w s e).
  Definition cv : str -> str -> str -> Prop := kept (raw (x_verb x) (fun s => AS3 s \/ In s (x_verbs x))).
  Definition VS3 (s : str) : Prop := In s (x_verbs x) \/ (chat = false /\ exists w e, cv w s e).
  Definition is_ca (w : str) : Prop := exists s e, ca w s e.
  Definition is_cv (w : str) : Prop := exists s e, cv w s e.
  Definition rest3 (w : str) : Prop := rest2 w /\ ~ is_ca w /\ ~ is_cv w.
  (** in chats, endings with more analyses among these compounds than among the known words are dropped *)
  Definition wrong_ending (base : dict str (Z * list (str * str))) (C : str -> str -> str -> Prop) (e : str) : Prop :=
    exists L M : list (str * str), NoDup L /\ NoDup M /\ (forall w s, In (w, s) L <-> C w s e) /\ (forall w s, In (w, s) M <-> exists p, dget base w = Some p /\ In (s, e) (snd p)) /\ (length M < length L)%nat.
  Definition EO3 (e : str) : Prop := In e (x_eomis x) /\ (chat = true -> ~ wrong_ending (x_adj x) ca e /\ ~ wrong_ending (x_verb x) cv e).
  (** ** inflected words with a known stem and ending *)
  Definition la (w s e : str) : Prop := rest3 w /\ longest_analysis AS3 EO3 w s e.
  Definition lv (w s e : str) : Prop := rest3 w /\ longest_analysis VS3 EO3 w s e.
  Definition is_la (w : str) : Prop := exists s e, la w s e.
  Definition is_lv (w : str) : Prop := exists s e, lv w s e.
  Definition A4 (w : str) : Prop := A1 w \/ is_ca w \/ is_la w.
  Definition V4 (w : str) : Prop := V1 w \/ is_cv w \/ is_lv w.
  Definition rest4 (w : str) : Prop := rest3 w /\ ~ is_la w /\ ~ is_lv w.
  (** ** a noun of one character and an adjective, verb or josa found so far *)
  Definition sa (w l r : str) : Prop := rest4 w /\ w = l ++ r /\ length l = 1%nat /\ A4 r.
  Definition sv (w l r : str) : Prop := rest4 w /\ w = l ++ r /\ length l = 1%nat /\ V4 r.
  Definition sj (w l r : str) : Prop := rest4 w /\ w = l ++ r /\ length l = 1%nat /\ J2 r.
  Definition N5 (n : str) : Prop := N1 n \/ exists w r, sa w n r \/ sv w n r \/ sj w n r.
  Definition rest5 (w : str) : Prop := rest4 w /\ forall l r, ~ sa w l r /\ ~ sv w l r /\ ~ sj w l r.
  (** ** words that are a josa or an ending, and single characters, are forgotten *)
  Definition rest6 (w : str) : Prop := rest5 w /\ ~ josa w /\ ~ EO3 w /\ length w <> 1%nat.
  (** ** compound nouns, cut by the MaxScoreTokenizer with score 1 for the nouns of at least two characters; not in chats *)
  Definition tokens (w : str) (ts : list tok) : Prop := exists scores, (forall n, dget scores n = Some 1%Q <-> N5 n /\ (2 <= length n)%nat) /\ (forall n q, dget scores n = Some q -> q = 1%Q) /\ ms_recursive scores 0%Q 10 w = Ok ts.
  Definition joined (ts : list tok) (n : str) : Prop := exists init t, ts = init ++ [t] /\ (forall k, In k init -> (0 < tsc k)%Q) /\
    let s := (2 <= length init)%nat /\ (N5 (tw t) \/ A4 (tw t) \/ V4 (tw t) \/ J2 (tw t)) in
    (s /\ n = concat (map tw init)) \/ (~ s /\ (0 < tsc t)%Q /\ n = concat (map tw init) ++ tw t).
  Definition cn (w n : str) : Prop := chat = false /\ rest6 w /\ exists ts, tokens w ts /\ joined ts n.
  Definition rest7 (w : str) : Prop := rest6 w /\ forall n, ~ cn w n.
  Definition N7 (n : str) : Prop := N5 n \/ exists w, cn w n.
  (** ** nouns that are also something else; in chats, also those of at least 3 characters that end with a josa, adjective or verb found *)
  Definition confused (n : str) : Prop := N7 n /\ (A4 n \/ V4 n \/ D1 n \/
    (chat = true /\ (3 <= length n)%nat /\ exists l r, n = l ++ r /\ l <> [] /\ r <> [] /\ (J2 r \/ A4 r \/ V4 r))).

  (** ** counts *)
  Definition noun_count (n : str) (k : Z) : Prop := exists k1 k2 k3 k4 k5 k6 k7 k8,
    how_much (fun w => w = n /\ N1 n) E k1 /\ how_much (fun w => exists r, nj w n r) E k2 /\ how_much (fun w => exists r, na w n r) E k3 /\ how_much (fun w => exists r, nv w n r) E k4 /\
    how_much (fun w => exists r, sa w n r) E k5 /\ how_much (fun w => exists r, sv w n r) E k6 /\ how_much (fun w => exists r, sj w n r) E k7 /\ how_much (fun w => cn w n) E k8 /\
    k = k1 + k2 + k3 + k4 + k5 + k6 + k7 + k8.
  Definition adj_count (a : str) (k : Z) : Prop := exists k1 k2 k3,
    how_much (fun w => w = a /\ A4 a) E k1 /\ how_much (fun w => exists l, na w l a) E k2 /\ how_much (fun w => exists l, sa w l a) E k3 /\ k = k1 + k2 + k3.
  Definition verb_count (v : str) (k : Z) : Prop := exists k1 k2 k3,
    how_much (fun w => w = v /\ V4 v) E k1 /\ how_much (fun w => exists l, nv w l v) E k2 /\ how_much (fun w => exists l, sv w l v) E k3 /\ k = k1 + k2 + k3.
  Definition josa_count (j : str) (k : Z) : Prop := exists k1 k2,
    how_much (fun w => exists l, nj w l j) E k1 /\ how_much (fun w => exists l, sj w l j) E k2 /\ k = k1 + k2.
  (** the table of lemmas: the old entries, and the new words with their counts and analyses *)
  Definition lemma_table (base d : dict str (Z * list (str * str))) (C L : str -> str -> str -> Prop) : Prop := forall w,
    (forall p, dget base w = Some p -> dget d w = Some p) /\
    (dget base w = None -> match dget d w with
                           | Some p => dget E w = Some (fst p) /\ forall s e, In (s, e) (snd p) <-> C w s e \/ L w s e
                           | None => forall s e, ~ C w s e /\ ~ L w s e
                           end).
End Extract.
(** c is a dict with the keys K and the values C *)
Definition tabulates {V} (c : dict str V) (K : str -> Prop) (C : str -> V -> Prop) : Prop := NoDup (dkeys c) /\ (forall w, In w (dkeys c) <-> K w) /\ forall w n, dget c w = Some n -> C w n.
(** a trained extractor: dicts, positive counts, words without white space, sets of analyses *)
Definition trained (x : posx) : Prop := NoDup (dkeys (x_eoj x)) /\ NoDup (dkeys (x_adj x)) /\ NoDup (dkeys (x_verb x)) /\
  (forall w n, dget (x_eoj x) w = Some n -> 0 < n /\ w <> [] /\ Forall (fun c => is_space c = false) w) /\
  (forall w p, dget (x_adj x) w = Some p -> NoDup (snd p)) /\ (forall w p, dget (x_verb x) w = Some p -> NoDup (snd p)).
(** the chat extractor takes the josas of its own file *)
Definition is_chat (chat : option (list str)) : bool := match chat with Some _ => true | None => false end.
Definition with_josas (chat : option (list str)) (x : posx) : posx :=
  match chat with Some josas => mkX (x_nouns x) (x_adj x) (x_verb x) (x_adjs x) (x_verbs x) (x_eomis x) josas (x_adv x) (x_eoj x) | None => x end.
(** stems and endings with a Hangul character at the seam *)
Definition decomposable_end (s : str) : Prop := exists p c t, s = p ++ [c] /\ decompose c = Some t.
Definition decomposable_start (e : str) : Prop := exists c t q, e = c :: t /\ decompose c = Some q.
