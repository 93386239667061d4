(** * Properties C91 and C92: the file of a tagger dictionary *)
From Coq Require Import QArith Permutation.
From Verif Require Import PyBase PyDict PyText PyFile TaggerModel TaggerSpec TaggerDictProofs TaggerProofs3 TaggerProps CrashSpec CrashProofs JsonModel JsonSpec JsonProofs JsonProofs2 JsonProofs3.
Open Scope N_scope.

(** ** C91: what load reads *)
(** the reader accepts exactly the JSON documents, however they are laid out *)
Theorem C91_reader : forall s v, loads s = Some v <-> document v s.
Proof. exact loads_iff. Qed.
Print Assumptions C91_reader.
(** a document has one value *)
Theorem C91_reader_deterministic : forall s v w, document v s -> document w s -> v = w.
Proof. intros s v w A B. apply loads_iff in A. apply loads_iff in B. congruence. Qed.
Print Assumptions C91_reader_deterministic.
(** what set() makes of the value of a tag: the listed atoms; the characters of a string; the keys of an object *)
Definition gives_set (v : json) (l : list json) : Prop :=
  (exists xs, v = JArr xs /\ l = xs /\ forall x, In x xs -> match x with JArr _ | JObj _ => False | _ => True end) \/
  (exists s, v = JStr s /\ l = map (fun c => JStr [c]) s) \/ (exists o, v = JObj o /\ l = map (fun kv => JStr (fst kv)) o).
Lemma as_set_iff v l : as_set v = Ok l <-> gives_set v l.
Proof.
  unfold gives_set. split.
  - destruct v as [|b|z|t|s|xs|o]; try discriminate; cbn [as_set].
    + intros E. injection E as <-. right. left. eauto.
    + destruct (forallb hashable xs) eqn:F; [|discriminate]. intros E. injection E as <-. left. exists xs. split; [reflexivity|]. split; [reflexivity|]. rewrite forallb_forall in F. intros x I. specialize (F x I). destruct x; try exact Logic.I; discriminate.
    + intros E. injection E as <-. right. right. eauto.
  - intros [(xs & -> & -> & F)|[(s & -> & ->)|(o & -> & ->)]]; [|reflexivity|reflexivity]. cbn [as_set].
    assert (H : forallb hashable xs = true) by (apply forallb_forall; intros x I; specialize (F x I); destruct x; [reflexivity..|destruct F|destruct F]). rewrite H. reflexivity.
Qed.
Lemma mapM_sets ps r : mapM (fun kv : str * json => do s <- as_set (snd kv); Ok (fst kv, s)) ps = Ok r <-> Forall2 (fun kv kl => fst kl = fst kv /\ gives_set (snd kv) (snd kl)) ps r.
Proof.
  revert r. induction ps as [|[k v] ps IH]; intros r.
  - cbn [mapM]. split; [intros E; injection E as <-; constructor|]. intros F. inversion F. reflexivity.
  - cbn [mapM fst snd]. split.
    + destruct (as_set v) as [l|] eqn:A; [|discriminate]. cbn [bind]. destruct (mapM _ ps) as [r0|] eqn:M; [|discriminate]. cbn [bind]. intros E. injection E as <-. constructor; [|apply IH; reflexivity]. split; [reflexivity|]. apply as_set_iff, A.
    + intros F. inversion F as [|? [k' l] ? r0 [E1 E2] F' X Y]; subst. cbn [fst snd] in *. subst k'. apply as_set_iff in E2. rewrite E2. cbn [bind]. apply IH in F'. rewrite F'. reflexivity.
Qed.
(** load succeeds exactly on an object with a "max_length" and an object "pos_dict" whose values are collections; key order, layout and further keys do not matter *)
Theorem C91_load : forall d content d', load_text d content = (d', None) <->
  exists o ps, document (JObj o) (univ_nl content) /\ dget o (u "max_length") = Some (j_max d') /\ dget o (u "pos_dict") = Some (JObj ps) /\
    Forall2 (fun kv kl => fst kl = fst kv /\ gives_set (snd kv) (snd kl)) ps (j_pos d').
Proof.
  intros d content d'. unfold load_text. split.
  - destruct (loads (univ_nl content)) as [v|] eqn:L; [|discriminate]. apply loads_iff in L. destruct v as [|b|z|t|s|xs|o]; try discriminate.
    destruct (dget o (u "max_length")) as [m|] eqn:M; [|discriminate]. destruct (dget o (u "pos_dict")) as [[| | | | | |ps]|] eqn:P; try discriminate.
    destruct (mapM _ ps) as [r|] eqn:S; [|discriminate]. intros E. injection E as <-. cbn [j_max j_pos]. exists o, ps. split; [exact L|]. split; [exact M|]. split; [exact P|]. apply mapM_sets, S.
  - intros (o & ps & D & M & P & F). apply loads_iff in D. rewrite D, M, P. apply mapM_sets in F. rewrite F. destruct d'. reflexivity.
Qed.
Print Assumptions C91_load.
(** what a failed load leaves: the words as they were; the maximal length too, unless the file has a new one and the failure comes after it *)
Theorem C92_failed_load : forall d content d' e, load_text d content = (d', Some e) ->
  j_pos d' = j_pos d /\ (e = ValueError <-> ~ exists v, document v (univ_nl content)) /\
  (j_max d' = j_max d \/ exists o, document (JObj o) (univ_nl content) /\ dget o (u "max_length") = Some (j_max d')) /\
  (e = ValueError -> d' = d) /\ (e = ValueError \/ e = KeyError \/ e = TypeError \/ e = AttributeError).
Proof.
  intros d content d' e. unfold load_text. destruct (loads (univ_nl content)) as [v|] eqn:L.
  - assert (DV : exists v, document v (univ_nl content)) by (exists v; apply loads_iff, L). apply loads_iff in L.
    assert (K : forall d1 e1, e1 <> ValueError -> e1 = KeyError \/ e1 = TypeError \/ e1 = AttributeError -> j_pos d1 = j_pos d -> (j_max d1 = j_max d \/ exists o, v = JObj o /\ dget o (u "max_length") = Some (j_max d1)) ->
      (d1, Some e1) = (d', Some e) -> j_pos d' = j_pos d /\ (e = ValueError <-> ~ exists v, document v (univ_nl content)) /\
      (j_max d' = j_max d \/ exists o, document (JObj o) (univ_nl content) /\ dget o (u "max_length") = Some (j_max d')) /\ (e = ValueError -> d' = d) /\ (e = ValueError \/ e = KeyError \/ e = TypeError \/ e = AttributeError)).
    { intros d1 e1 NE EE P M E. injection E as <- <-. split; [exact P|]. split; [split; [congruence|intros X; exfalso; exact (X DV)]|]. split; [|split; [congruence|tauto]]. destruct M as [M|(o & -> & M)]; [left; exact M|right; exists o; auto]. }
    destruct v as [|b|z|t|s|xs|o]; try (apply K; [discriminate|auto|reflexivity|left; reflexivity]).
    destruct (dget o (u "max_length")) as [m|] eqn:M; [|apply K; [discriminate|auto|reflexivity|left; reflexivity]].
    destruct (dget o (u "pos_dict")) as [[| | | | | |ps]|] eqn:P; try (apply K; [discriminate|auto|reflexivity|right; exists o; auto]).
    destruct (mapM _ ps) as [r|e1] eqn:S; [discriminate|]. apply K; [| |reflexivity|right; exists o; auto].
    + intros ->. clear - S. induction ps as [|[k v] ps IH]; [discriminate|]. cbn [mapM fst snd] in S. destruct (as_set v) as [l|e] eqn:A; cbn [bind] in S; [|assert (e = ValueError) by congruence; destruct v; try discriminate; cbn [as_set] in A; try congruence; destruct (forallb hashable l); congruence].
      destruct (mapM _ ps); [discriminate|]. cbn [bind] in S. apply IH. congruence.
    + right. left. clear - S. induction ps as [|[k v] ps IH]; [discriminate|]. cbn [mapM fst snd] in S. destruct (as_set v) as [l|e] eqn:A; cbn [bind] in S; [|destruct v; try discriminate; cbn [as_set] in A; try congruence; destruct (forallb hashable l); congruence].
      destruct (mapM _ ps); [discriminate|]. cbn [bind] in S. apply IH. congruence.
  - intros E. injection E as <- <-. split; [reflexivity|]. split; [split; [|reflexivity]|auto]. intros _ (v & D). apply loads_iff in D. congruence.
Qed.
Print Assumptions C92_failed_load.

(** ** C91: save and load *)
Lemma params_ok n (ps : dict str (list str)) : NoDup (map fst ps) -> writable (params_of (n, ps)) /\ no_floats (params_of (n, ps)).
Proof.
  intros ND. unfold params_of. cbn [fst snd writable no_floats map fold_right].
  assert (W : forall ws : list str, writable (JArr (map JStr ws)) /\ no_floats (JArr (map JStr ws))) by (induction ws as [|w ws [A B]]; cbn in *; auto).
  set (l := map (fun tw : str * list str => (fst tw, JArr (map JStr (snd tw)))) ps).
  assert (E : map fst l = map fst ps) by (unfold l; rewrite map_map; reflexivity).
  assert (X : fold_right (fun (kv : str * json) P => writable (snd kv) /\ P) True l /\ fold_right (fun (kv : str * json) P => no_floats (snd kv) /\ P) True l).
  { unfold l. clear. assert (W : forall ws : list str, writable (JArr (map JStr ws)) /\ no_floats (JArr (map JStr ws))) by (induction ws as [|w ws [A B]]; cbn in *; auto).
    induction ps as [|[t ws] ps [A B]]; [split; exact Logic.I|]. cbn [map fold_right fst snd]. destruct (W ws). auto. }
  split; [|tauto]. split; [|rewrite E; tauto]. constructor; [intros [H|[]]; discriminate H|]. constructor; [intros []|constructor].
Qed.
(** the text written for a dictionary is a JSON document of its parameters and reads back as them *)
Theorem C91_text : forall n (ps : dict str (list str)), NoDup (map fst ps) -> loads (dump 0 (params_of (n, ps))) = Some (params_of (n, ps)).
Proof. intros n ps ND. apply loads_iff. exists [], (dump 0 (params_of (n, ps))), []. split; [constructor|]. split; [constructor|]. split; [apply dump_renders, params_ok, ND|]. rewrite app_nil_r. reflexivity. Qed.
Print Assumptions C91_text.
Lemma load_params j n (ps : dict str (list str)) : NoDup (map fst ps) -> load_text j (dump 0 (params_of (n, ps))) = (mkJ (JInt (Z.of_nat n)) (map (fun tw : str * list str => (fst tw, map JStr (snd tw))) ps), None).
Proof.
  intros ND. apply C91_load. rewrite univ_nl_id by (apply dump_no_cr, params_ok, ND). eexists. exists (map (fun tw : str * list str => (fst tw, JArr (map JStr (snd tw)))) ps).
  split; [apply loads_iff, C91_text, ND|]. split; [reflexivity|]. split; [reflexivity|]. cbn [j_pos]. clear. induction ps as [|[t ws] ps IH]; [constructor|]. cbn [map fst snd]. constructor; [|exact IH]. cbn [fst snd]. split; [reflexivity|].
  left. exists (map JStr ws). split; [reflexivity|]. split; [reflexivity|]. intros x I. apply in_map_iff in I as (w & <- & _). exact Logic.I.
Qed.
Lemma save_keys ord d : map fst (snd (save ord d)) = map fst (tags d).
Proof. unfold save. cbn [snd]. rewrite map_map. reflexivity. Qed.
(** A dictionary written to a file and loaded again, over whatever the loading object held: the tags in their order, their words, the maximal length. *)
Theorem C91_roundtrip : forall pd d ops ord j, NoDup (map fst pd) -> tdict_new pd = Ok d -> (forall l, Permutation (ord l) l) -> let d' := dhistory d ops in
  exists j', load_text j (save_text ord d') = (j', None) /\ j_max j' = JInt (Z.of_nat (maxlen d')) /\ map fst (j_pos j') = map fst (tags d') /\ forall w t, j_word_is_tag j' w t = word_is_tag d' w t.
Proof.
  intros pd d ops ord j ND E P d'. destruct (dhistory_good d ops (new_good pd d ND E)) as [G _]. fold d' in G. pose proof G as ((NT & _) & _).
  unfold save_text. rewrite (surjective_pairing (save ord d')). rewrite load_params by (rewrite save_keys; exact NT). eexists. split; [reflexivity|]. cbn [j_max j_pos]. split; [reflexivity|]. split; [rewrite map_map; cbn [fst]; apply save_keys|].
  intros w t. unfold j_word_is_tag, word_is_tag, save. cbn [snd j_pos]. rewrite map_map. cbn [fst snd].
  assert (GT : dget (map (fun kr : str * nat => (fst kr, map JStr match deref d' (snd kr) with OSet s => ord s | OList l => l end)) (tags d')) t =
    match dget (tags d') t with Some r => Some (map JStr (match deref d' r with OSet s => ord s | OList l => l end)) | None => None end).
  { clear. induction (tags d') as [|[k r] l IH]; [reflexivity|]. cbn [map dget fst snd]. destruct (eqb k t); [reflexivity|exact IH]. }
  rewrite GT. destruct (dget (tags d') t) as [r|] eqn:D; [|reflexivity]. destruct (deref d' r) as [s|l] eqn:R; [|exfalso; eapply good_tag; eauto]. cbn [elems].
  apply eq_true_iff_eq. rewrite existsb_exists, mem_In. split.
  - intros (v & I & X). apply in_map_iff in I as (x & <- & I). apply eqb_eq in X. subst x. eapply Permutation_in; [apply P|exact I].
  - intros I. exists (JStr w). split; [apply in_map; eapply Permutation_in; [apply Permutation_sym, P|exact I]|apply eqb_refl].
Qed.
Print Assumptions C91_roundtrip.

(** ** C92: a process that dies while saving leaves an initial piece of the file. Every incomplete piece is rejected, and the loading object stays as it is *)
Theorem C92_interrupted_save : forall ord d p j, NoDup (map fst (tags d)) -> piece p (save_text ord d) -> p <> save_text ord d -> load_text j p = (j, Some ValueError).
Proof.
  intros ord d p j NT [x E] NE. unfold save_text in *. rewrite (surjective_pairing (save ord d)) in *. set (n := fst (save ord d)) in *. set (ps := snd (save ord d)) in *.
  assert (ND : NoDup (map fst ps)) by (unfold ps; rewrite save_keys; exact NT). destruct (params_ok n ps ND) as [W NF]. set (P := params_of (n, ps)) in *.
  assert (XN : x <> []) by (intros ->; rewrite app_nil_r in E; congruence).
  assert (CR : Forall (fun c => c <> 13) p). { pose proof (dump_no_cr P NF 0) as C. rewrite E in C. apply Forall_app in C. apply C. }
  unfold load_text. rewrite (univ_nl_id p CR). destruct (loads p) as [v|] eqn:L; [|reflexivity]. exfalso. apply loads_iff in L as (a & t & b & A & B & R & EP).
  assert (HD : exists q, dump 0 P = 123 :: q) by (eexists; reflexivity). destruct HD as [q HD].
  assert (A0 : a = []). { destruct a as [|y a]; [reflexivity|]. rewrite EP, HD in E. cbn [app] in E. injection E as <- _. inversion A as [|? ? Y _]. lia. }
  subst a. cbn [app] in EP. subst p.
  assert (NL : ~ number_like v).
  { destruct (renders_head v t R) as (y & z & -> & _). rewrite HD in E. cbn [app] in E. injection E as <- _. intros H.
    inversion R as [t0 v0 I E1 E2|v0 t0 N E1 E2|s t0 Q E1 E2|b0 B0 E1 E2|l t0 R0 E1 E2|b0 B0 E1 E2|l t0 R0 E1 E2]; subst; try exact H.
    - unfold literals in I. cbn [In] in I. repeat (destruct I as [I|I]; [discriminate I|]). destruct I.
    - destruct (numeric_head _ _ N) as (c & r & X & [Y|[Y _]]); injection X as <- _; discriminate. }
  set (F := (2 * length (t ++ b ++ x) + 2)%nat).
  assert (V1 : value F (t ++ b ++ x) = Some (v, b ++ x)). { apply (proj1 complete_all v t R); [unfold F; rewrite app_length; lia|]. intros H. exfalso. exact (NL H). }
  assert (V2 : value F (dump 0 P ++ []) = Some (P, [])). { apply (proj1 complete_all P (dump 0 P) (dump_renders P W 0)); [|intros _ c s X; discriminate]. unfold F. rewrite E, <- app_assoc. lia. }
  rewrite app_nil_r, E, <- app_assoc, V1 in V2. assert (Z : b ++ x = []) by congruence. apply app_eq_nil in Z as [_ Z]. contradiction.
Qed.
Print Assumptions C92_interrupted_save.
(** ** examples *)
Definition ex_pd : dict str (list str) := [(u "Noun", [u "아이오아이"; u "너무"]); (u "Josa", [u "는"; u "의"; [34; 92; 10; 7]])].
Example C91_ex : exists d, tdict_new ex_pd = Ok d /\ NoDup (map fst (tags d)) /\
  save_text (fun l => l) d = u "{
  ""max_length"": 5,
  ""pos_dict"": {
    ""Noun"": [
      ""아이오아이"",
      ""너무""
    ],
    ""Josa"": [
      ""는"",
      ""의"",
      ""\""\\\n\u0007""
    ]
  }
}" /\ load_text (mkJ JNull []) (save_text (fun l => l) d) = (mkJ (JInt 5) [(u "Noun", [JStr (u "아이오아이"); JStr (u "너무")]); (u "Josa", [JStr (u "는"); JStr (u "의"); JStr [34; 92; 10; 7]])], None).
Proof.
  exists (mkT [OSet [u "아이오아이"; u "너무"]; OSet [u "는"; u "의"; [34; 92; 10; 7]]] [(u "Noun", 0%nat); (u "Josa", 1%nat)] 5). split; [vm_compute; reflexivity|]. split; [|split; vm_compute; reflexivity].
  cbn [tags map fst]. constructor; [intros [H|[]]; discriminate H|]. constructor; [intros []|constructor].
Qed.
(** another layout, keys in another order, an escaped surrogate pair, a repeated tag: the last one counts *)
Example C91_layout_ex : load_text (mkJ JNull []) (u "{""pos_dict"":{""a"":[1],""b"":""\ud83d\ude00"",""a"":[""x"", -1.5e3]} , ""more"":null,""max_length"" : 7 }") = (mkJ (JInt 7) [(u "a", [JStr (u "x"); JFloat (u "-1.5e3")]); (u "b", [JStr [128512]])], None).
Proof. vm_compute. reflexivity. Qed.
(** A word written without brackets is not that word but its characters. *)
Theorem C91_single_word_refuted : exists content j, load_text (mkJ JNull []) content = (j, None) /\ content = u "{""max_length"": 2, ""pos_dict"": {""Noun"": ""사과""}}" /\ j_word_is_tag j (u "사과") (u "Noun") = false /\ j_word_is_tag j (u "사") (u "Noun") = true.
Proof.
  exists (u "{""max_length"": 2, ""pos_dict"": {""Noun"": ""사과""}}"), (mkJ (JInt 2) [(u "Noun", [JStr (u "사"); JStr (u "과")])]).
  split; [vm_compute; reflexivity|]. split; [reflexivity|]. split; vm_compute; reflexivity.
Qed.
Print Assumptions C91_single_word_refuted.
(** The recorded length is not checked: it need not fit the words, nor be a number. *)
Theorem C91_max_length_refuted : exists content j, load_text (mkJ JNull []) content = (j, None) /\ content = u "{""max_length"": ""?"", ""pos_dict"": {""Noun"": [""사과""]}}" /\ j_max j = JStr (u "?").
Proof.
  exists (u "{""max_length"": ""?"", ""pos_dict"": {""Noun"": [""사과""]}}"), (mkJ (JStr (u "?")) [(u "Noun", [JStr (u "사과")])]). split; [vm_compute; reflexivity|]. split; reflexivity.
Qed.
Print Assumptions C91_max_length_refuted.
(** A failed load may change the dictionary: the new maximal length stays, with the old words. *)
Theorem C92_failed_load_atomic_refuted : exists content d d', load_text d content = (d', Some KeyError) /\ j_max d = JInt 5 /\ j_max d' = JInt 1 /\ j_word_is_tag d' (u "아이오아이") (u "Noun") = true.
Proof. exists (u "{""max_length"": 1}"), (mkJ (JInt 5) [(u "Noun", [JStr (u "아이오아이")])]), (mkJ (JInt 1) [(u "Noun", [JStr (u "아이오아이")])]). split; [vm_compute; reflexivity|]. split; [reflexivity|]. split; vm_compute; reflexivity. Qed.
Print Assumptions C92_failed_load_atomic_refuted.
(** one character less *)
Example C92_ex : load_text (mkJ (JInt 5) []) (u "{
  ""max_length"": 5,
  ""pos_dict"": {}
") = (mkJ (JInt 5) [], Some ValueError).
Proof. vm_compute. reflexivity. Qed.
