From Coq Require Import List ZArith Lia Bool.
Import ListNotations.
From Verif Require Import PyBase PyDict UtilsModel UtilsSpec UtilsProofs AliasModel AliasSpec AliasProofs AliasProofs2.
Open Scope Z_scope.

(** ** the constructor *)
(** [self._lr] is [a]; [self._rl] and the origin are new *)
Lemma finish h a c lm rm : bounded h a -> NoDup (refs h a) -> NoDup (map fst (outv h a)) -> bounded h c ->
  let h2 := fst (alloc h (make_rl (read h a))) in let b := nout h in let h3 := fst (alloc h2 (read h2 a)) in let g := mkObj a b (Some (nout h2)) lm rm in
  owned h3 g /\ denotes (h3, g) = mkLrg (read h a) (make_rl (read h a)) (Some (read h a)) lm rm /\ read h3 c = read h c /\ outv h3 c = outv h c /\ outv h3 a = outv h a /\
  bounded h3 c /\ c <> b /\ c <> nout h2 /\ disj (refs h3 b) (refs h3 c) /\ disj (refs h3 (nout h2)) (refs h3 c).
Proof.
  intros B NR NK C h2 b h3 g. assert (B2 : bounded h2 a) by apply alloc_bounded, B. assert (C2 : bounded h2 c) by apply alloc_bounded, C. assert (Bb : bounded h2 b) by apply alloc_new_bounded.
  assert (R2 : read h2 a = read h a) by apply alloc_old_read, B. assert (La : (a < nout h)%nat) by apply B. assert (Lc : (c < nout h)%nat) by apply C. assert (N2 : nout h2 = S (nout h)) by reflexivity.
  assert (O2 : outv h2 a = outv h a) by apply alloc_old_out, B. assert (O2c : outv h2 c = outv h c) by apply alloc_old_out, C.
  assert (O3 : outv h3 a = outv h a) by (unfold h3; rewrite alloc_old_out by apply B2; exact O2). assert (O3c : outv h3 c = outv h c) by (unfold h3; rewrite alloc_old_out by apply C2; exact O2c).
  assert (O3b : outv h3 b = outv h2 b) by (unfold h3; rewrite alloc_old_out by apply Bb; reflexivity). 
  assert (Db : forall x, bounded h x -> disj (refs h3 x) (refs h3 b)).
  { intros x X. unfold h3. rewrite !alloc_old_refs; [apply alloc_new_disj, X|exact Bb|apply alloc_bounded, X]. }
  assert (Dn : forall x, bounded h2 x -> disj (refs h3 x) (refs h3 (nout h2))) by (intros x X; apply alloc_new_disj, X).
  split; [|repeat split].
  - constructor; cbn [g o_lr o_rl o_or].
    + apply alloc_bounded, B2. + apply alloc_bounded, Bb.
    + unfold refs. rewrite O3. exact NR.
    + unfold refs. rewrite O3b. apply alloc_nd.
    + rewrite O3. exact NK.
    + rewrite O3b. unfold h2, b. rewrite alloc_keys. apply make_rl_wf.
    + unfold b. lia.
    + apply Db, B.
    + split; [apply alloc_new_bounded|]. split; [lia|]. split; [unfold b; lia|]. split; [apply Dn, B2|]. split; [apply Dn, Bb|]. unfold h3. rewrite alloc_keys, R2, read_keys. exact NK.
  - unfold denotes. cbn [g fst snd o_lr o_rl o_or o_lm o_rm option_map]. unfold h3. rewrite alloc_read. rewrite !alloc_old_read by assumption. rewrite R2. f_equal. apply alloc_read.
  - unfold h3. rewrite alloc_old_read by exact C2. unfold h2. apply alloc_old_read, C.
  - exact O3c. - exact O3.
  - unfold h3. rewrite alloc_nout. lia.
  - apply alloc_bounded, C2.
  - unfold b. lia. - lia.
  - apply disj_sym, Db, C.
  - apply disj_sym, Dn, C2.
Qed.
(** where the object stands to the caller's dict after the constructor *)
Record stands (h0 h : heap) (c : nat) (g : obj) : Prop := {
  st_owned : owned h g;
  st_read : read h c = read h0 c; st_out : outv h c = outv h0 c; st_bnd : bounded h c;
  st_nrl : c <> o_rl g; st_drl : disj (refs h (o_rl g)) (refs h c);
  st_or : match o_or g with None => True | Some o => c <> o /\ disj (refs h o) (refs h c) end }.
Lemma construct_spec h c plain kind lm rm h' g : callers_dict h c -> construct h c plain kind lm rm = Ok (h', g) ->
  stands h h' c g /\ 1 < lm /\ 0 < rm /\ denotes (h', g) = mkLrg (read h c) (make_rl (read h c)) (Some (read h c)) lm rm /\ o_or g <> None /\
  ((outv h c = [] \/ kind = KDefaultdict) /\ c <> o_lr g /\ disj (refs h' (o_lr g)) (refs h' c) \/
   kind = KDict /\ outv h c <> [] /\ (if plain then o_lr g = c else c <> o_lr g /\ outv h' (o_lr g) = outv h' c)).
Proof.
  intros (Lc & NK & NR & Bc & _). assert (B : bounded h c) by (split; assumption). unfold construct.
  destruct (Z.gtb_spec lm 1) as [L1|]; [|discriminate]. destruct (Z.gtb_spec rm 0) as [L2|]; [|discriminate]. cbn [negb].
  destruct (outv h c) as [|p d] eqn:D.
  - assert (R0 : read h c = []) by (apply read_nil, D). set (h1 := fst (alloc h [])). rewrite (alloc_eq h []). fold h1. rewrite (alloc_eq h1 []). cbn [bind].
    assert (C1 : bounded h1 c) by apply alloc_bounded, B. assert (N1 : bounded h1 (nout h)) by apply alloc_new_bounded.
    assert (R1 : read h1 (nout h) = []) by apply alloc_read.
    assert (X1 : NoDup (refs h1 (nout h))) by (unfold h1; apply alloc_nd). assert (X2 : NoDup (map fst (outv h1 (nout h)))) by (unfold h1; rewrite alloc_keys; constructor).
    pose proof (finish h1 (nout h) c lm rm N1 X1 X2 C1) as F. cbv zeta in F. rewrite R1 in F. change (make_rl []) with (@nil (str * dict str Z)) in F.
    intros E. rewrite (alloc_eq (fst (alloc h1 []))) in E. assert (Eh : h' = fst (alloc (fst (alloc h1 [])) (read (fst (alloc h1 [])) (nout h)))) by congruence. assert (Eg : g = mkObj (nout h) (nout h1) (Some (nout (fst (alloc h1 [])))) lm rm) by congruence.
    rewrite <- Eh, <- Eg in F. destruct F as (F1 & F2 & F3 & F4 & F5 & F6 & F7 & F8 & F9 & F10). split; [|split; [lia|split; [lia|split; [rewrite F2, R0; reflexivity|split; [subst g; discriminate|]]]]].
    + constructor; [exact F1| | |exact F6|subst g; exact F7|subst g; exact F9|subst g; cbn [o_or]; split; assumption].
      * rewrite F3. unfold h1. apply alloc_old_read, B.
      * rewrite F4. unfold h1. apply alloc_old_out, B.
    + left. split; [left; reflexivity|]. split; [subst g; cbn [o_lr]; lia|]. intros i _. unfold refs. rewrite F4. unfold h1. rewrite alloc_old_out by exact Lc. rewrite D. intros [].
  - assert (NE : outv h c <> []) by congruence. cbv iota. rewrite <- D in NK, NR, Bc |- *.
    (* the outer dict after [dict(lrgraph)] *)
    assert (Q : exists h0 o, (if plain then (h, c) else copy_outer h c) = (h0, o) /\ bounded h0 o /\ bounded h0 c /\ outv h0 o = outv h c /\ outv h0 c = outv h c /\ read h0 c = read h c /\ read h0 o = read h c /\ (if plain then o = c else c <> o)).
    { destruct plain; [exists h, c; repeat split; auto; apply B|]. unfold copy_outer. eexists _, _. split; [reflexivity|].
      assert (OO : outv (mkHeap (rowv h) (fun j => if (j =? nout h)%nat then outv h c else outv h j) (nrow h) (S (nout h))) (nout h) = outv h c) by (cbn [outv]; rewrite Nat.eqb_refl; reflexivity).
      assert (OC : outv (mkHeap (rowv h) (fun j => if (j =? nout h)%nat then outv h c else outv h j) (nrow h) (S (nout h))) c = outv h c) by (cbn [outv]; destruct (Nat.eqb_spec c (nout h)); [lia|reflexivity]).
      unfold bounded, refs, read. rewrite OO, OC. cbn [nout nrow rowv]. repeat split; try lia; try (intros i I; apply Bc, I). }
    destruct Q as (h0 & o & -> & Bo & B0c & Oo & O0c & R0c & R0o & PL).
    destruct kind; cbn [bind]; [| |discriminate].
    + rewrite (alloc_eq h0). cbn [bind].
      assert (X1 : NoDup (refs h0 o)) by (unfold refs; rewrite Oo; exact NR). assert (X2 : NoDup (map fst (outv h0 o))) by (rewrite Oo; exact NK).
      pose proof (finish h0 o c lm rm Bo X1 X2 B0c) as F. cbv zeta in F. set (h2 := fst (alloc h0 (make_rl (read h0 o)))) in *. rewrite (alloc_eq h2). intros E.
      assert (Eh : h' = fst (alloc h2 (read h2 o))) by congruence. assert (Eg : g = mkObj o (nout h0) (Some (nout h2)) lm rm) by congruence.
      rewrite <- Eh, <- Eg in F. destruct F as (F1 & F2 & F3 & F4 & F5 & F6 & F7 & F8 & F9 & F10). split; [|split; [lia|split; [lia|split; [rewrite F2, R0o; reflexivity|split; [subst g; discriminate|]]]]].
      * constructor; [exact F1|congruence|congruence|exact F6|subst g; exact F7|subst g; exact F9|subst g; cbn [o_or]; split; assumption].
      * right. split; [reflexivity|]. split; [exact NE|]. subst g. cbn [o_lr]. destruct plain; [exact PL|]. split; [exact PL|congruence].
    + set (h1 := fst (alloc h0 (read h0 o))). rewrite (alloc_eq h0). cbn [bind]. fold h1. rewrite (alloc_eq h1). cbn [bind].
      assert (C1 : bounded h1 c) by apply alloc_bounded, B0c. assert (N1 : bounded h1 (nout h0)) by apply alloc_new_bounded. assert (R1 : read h1 (nout h0) = read h c) by (unfold h1; rewrite alloc_read; exact R0o).
      assert (X1 : NoDup (refs h1 (nout h0))) by (unfold h1; apply alloc_nd). assert (X2 : NoDup (map fst (outv h1 (nout h0)))) by (unfold h1; rewrite alloc_keys, read_keys, Oo; exact NK).
      pose proof (finish h1 (nout h0) c lm rm N1 X1 X2 C1) as F. cbv zeta in F. set (h2 := fst (alloc h1 (make_rl (read h1 (nout h0))))) in *. rewrite (alloc_eq h2). intros E.
      assert (Eh : h' = fst (alloc h2 (read h2 (nout h0)))) by congruence. assert (Eg : g = mkObj (nout h0) (nout h1) (Some (nout h2)) lm rm) by congruence.
      rewrite <- Eh, <- Eg in F. destruct F as (F1 & F2 & F3 & F4 & F5 & F6 & F7 & F8 & F9 & F10). split; [|split; [lia|split; [lia|split; [rewrite F2, R1; reflexivity|split; [subst g; discriminate|]]]]].
      * constructor; [exact F1| | |exact F6|subst g; exact F7|subst g; exact F9|subst g; cbn [o_or]; split; assumption].
        -- rewrite F3. unfold h1. rewrite alloc_old_read by exact B0c. exact R0c.
        -- rewrite F4. unfold h1. rewrite alloc_old_out by apply B0c. exact O0c.
      * left. split; [right; reflexivity|]. subst g. cbn [o_lr]. split; [destruct B0c; lia|]. unfold refs. rewrite F4, F5. apply disj_sym. unfold h1. apply (alloc_new_disj h0 _ c B0c).
Qed.
