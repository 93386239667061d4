(** * Calling a MaxLRScoreTokenizer, tokenizer/_tokenizer.py:277-284 *)
From Coq Require Import QArith Lia Sorted.
From Verif Require Import PyBase PyDict PySort SortLemmas PyText TokenizerModel TokenizerSpec LRTokProofs LRCallModel.
Open Scope nat_scope.
Definition strip (r : row) : lrw := LRW (r_l r) (r_r r) (r_begin r) (r_mid r) (r_end r) (r_sl r) (r_sr r) (match r_total r with Some q => q | None => 0%Q end).
Lemma strip_word w : strip (word_row w) = w. Proof. destruct w; reflexivity. Qed.
Lemma strip_words (l : list lrw) : map strip (map word_row l) = l. Proof. rewrite map_map. rewrite (map_ext _ (fun x => x)) by exact strip_word. apply map_id. Qed.
Definition fmap (r : res (list row)) : res (list lrw) := do l <- r; Ok (map strip l).
Lemma base_strip Dr t b : fmap (base_rows Dr t b) = lr_base Dr t b.
Proof.
  unfold base_rows, lr_base, fmap. destruct (ms_tokenize_flat Dr 0%Q 10 t) as [ws|e]; [|reflexivity]. cbn [bind]. induction ws as [|w ws IH]; [reflexivity|]. cbn [mapM].
  destruct (dmem Dr w); [reflexivity|]. cbn [bind]. revert IH. destruct (mapM _ ws) as [l|e]; destruct (mapM _ ws) as [l'|e']; cbn [bind]; intros IH; try discriminate; [injection IH as <-|injection IH as <-]; reflexivity.
Qed.
Lemma fmap_app a b : fmap (do x <- a; do y <- b; Ok (x ++ y)) = do x <- fmap a; do y <- fmap b; Ok (x ++ y).
Proof. unfold fmap. destruct a as [x|e]; [|reflexivity]. cbn [bind]. destruct b as [y|e]; [|reflexivity]. cbn [bind]. rewrite map_app. reflexivity. Qed.
Lemma inter_strip Dr t words : fmap (inter_rows Dr t words) = lr_inter Dr t (map strip words).
Proof.
  induction words as [|x [|y l] IH]; [reflexivity|reflexivity|]. cbn [map] in *. change (inter_rows Dr t (x :: y :: l)) with (do a <- (if r_end x =? r_begin y then Ok [] else base_rows Dr (slice (r_end x) (r_begin y) t) (r_end x)); do b <- inter_rows Dr t (y :: l); Ok (a ++ b)).
  change (lr_inter Dr t (strip x :: strip y :: map strip l)) with (do a <- (if p2 (strip x) =? p0 (strip y) then Ok [] else lr_base Dr (slice (p2 (strip x)) (p0 (strip y)) t) (p2 (strip x))); do b <- lr_inter Dr t (strip y :: map strip l); Ok (a ++ b)).
  rewrite fmap_app, IH. cbn [strip p0 p2]. destruct (r_end x =? r_begin y); [reflexivity|]. rewrite base_strip. reflexivity.
Qed.
Lemma insert_map {A B} (le : A -> A -> bool) (le' : B -> B -> bool) (f : A -> B) x l :
  (forall a b, le' (f a) (f b) = le a b) -> map f (insert le x l) = insert le' (f x) (map f l).
Proof. intros H. induction l as [|y l IH]; [reflexivity|]. cbn [insert map]. rewrite H. destruct (le x y); [reflexivity|]. cbn [map]. rewrite IH. reflexivity. Qed.
Lemma sort_map {A B} (le : A -> A -> bool) (le' : B -> B -> bool) (f : A -> B) l :
  (forall a b, le' (f a) (f b) = le a b) -> map f (sort le l) = sort le' (map f l).
Proof. intros H. induction l as [|x l IH]; [reflexivity|]. cbn [sort map]. rewrite (insert_map le le' f) by exact H. rewrite IH. reflexivity. Qed.
Lemma last_map {A B} (f : A -> B) (l : list A) d : last (map f l) (f d) = f (last l d).
Proof. induction l as [|x [|y l] IH]; [reflexivity|reflexivity|]. exact IH. Qed.
Lemma post_strip Dr t words : fmap (post_rows Dr t words) = lr_postprocessing Dr t (map strip words).
Proof.
  destruct words as [|w0 ws]; [reflexivity|]. unfold post_rows, lr_postprocessing. cbn [map]. change (strip w0 :: map strip ws) with (map strip (w0 :: ws)). rewrite last_map. set (wn := last (w0 :: ws) w0). cbv zeta. cbn [strip p0 p1].
  assert (B : forall c s b, fmap (if c : bool then base_rows Dr s b else Ok []) = if c then lr_base Dr s b else Ok []) by (intros [] s b; [apply base_strip|reflexivity]).
  rewrite <- (B (0 <? r_begin w0)), <- (B (r_mid wn <? length t)), <- inter_strip. unfold fmap.
  destruct (if 0 <? r_begin w0 then _ else _) as [a1|e]; [|reflexivity]. cbn [bind]. destruct (if r_mid wn <? length t then _ else _) as [a2|e]; [|reflexivity]. cbn [bind].
  destruct (inter_rows Dr t (w0 :: ws)) as [a3|e]; [|reflexivity]. cbn [bind]. f_equal. rewrite (sort_map r_le le_p0 strip) by reflexivity. rewrite !map_app. reflexivity.
Qed.
Lemma rows_strip Dl Dr Pl Pr a b c d t : fmap (lr_rows Dl Dr Pl Pr a b c d t) = lr_tokenize1 Dl Dr Pl Pr a b c d t.
Proof.
  unfold lr_rows, lr_tokenize1. destruct (lr_best Dl Dr Pl Pr a b c d t) as [best|e]; [|reflexivity]. cbn [bind]. destruct best as [|w0 ws]; [apply base_strip|]. rewrite post_strip, strip_words. reflexivity.
Qed.

(** ** C100 *)
(** the words of a row: its L part, its R part, as far as they are not empty *)
Definition row_words (r : row) : list (str * bool) := filter (fun w => negb (length (fst w) =? 0)) [(r_l r, true); (r_r r, false)].
(** A call fails when tokenize does, with the same exception; otherwise it returns, for every eojeol, rows whose words are what tokenize returns *)
Theorem C100_words : forall Dl Dr Pl Pr a b c d sent, lr_tokenize Dl Dr Pl Pr a b c d sent = (do rows <- lr_call_rows Dl Dr Pl Pr a b c d sent; Ok (map (flat_map row_words) rows)).
Proof.
  intros Dl Dr Pl Pr a b c d sent. unfold lr_tokenize, lr_call_rows. induction (split sent) as [|t ts IH]; [reflexivity|]. cbn [mapM]. rewrite <- rows_strip. unfold fmap.
  destruct (lr_rows Dl Dr Pl Pr a b c d t) as [rows|e]; [|reflexivity]. cbn [bind]. rewrite IH. destruct (mapM (lr_rows Dl Dr Pl Pr a b c d) ts) as [rs|e]; [|reflexivity]. cbn [bind map]. do 2 f_equal.
  unfold lr_flatten. induction rows as [|r rows IHr]; [reflexivity|]. cbn [map flat_map]. rewrite filter_app, IHr. reflexivity.
Qed.
Print Assumptions C100_words.

Definition has_total (r : row) : bool := match r_total r with Some _ => true | None => false end.
Lemma base_rows_plain Dr t b l : base_rows Dr t b = Ok l -> Forall (fun r => has_total r = false /\ r_r r = [] /\ r_begin r = b /\ r_mid r = b + length (r_l r) /\ r_end r = b + length (r_l r)
    /\ r_len_l r = length (r_l r) /\ r_len_r r = 0 /\ r_len r = length (r_l r) /\ (r_sl r = 0 /\ r_sr r = 0)%Q) l.
Proof.
  unfold base_rows. destruct (ms_tokenize_flat Dr 0%Q 10 t) as [ws|e]; [|discriminate]. cbn [bind]. revert l. induction ws as [|w ws IH]; intros l E; cbn [mapM] in E; [injection E as <-; constructor|].
  destruct (dmem Dr w); [discriminate|]. cbn [bind] in E. destruct (mapM _ ws) as [l'|e]; [|discriminate]. cbn [bind] in E. injection E as <-. constructor; [repeat split|]. apply IH. reflexivity.
Qed.
Definition plain_row (r : row) : Prop := has_total r = false /\ r_r r = [] /\ r_mid r = r_begin r + length (r_l r) /\ r_end r = r_begin r + length (r_l r)
    /\ r_len_l r = length (r_l r) /\ r_len_r r = 0 /\ r_len r = length (r_l r) /\ (r_sl r = 0 /\ r_sr r = 0)%Q.
Lemma base_rows_ok Dr t b l : base_rows Dr t b = Ok l -> Forall plain_row l.
Proof. intros E. eapply Forall_impl; [|exact (base_rows_plain _ _ _ _ E)]. intros r (H1 & H2 & H3 & H4 & H5 & H6 & H7 & H8 & H9). unfold plain_row. rewrite H3. repeat split; try assumption; apply H9. Qed.
Lemma inter_rows_ok Dr t words : forall l, inter_rows Dr t words = Ok l -> Forall plain_row l.
Proof.
  induction words as [|x [|y ws] IH]; intros l E; [injection E as <-; constructor|injection E as <-; constructor|].
  change (inter_rows Dr t (x :: y :: ws)) with (do a <- (if r_end x =? r_begin y then Ok [] else base_rows Dr (slice (r_end x) (r_begin y) t) (r_end x)); do b <- inter_rows Dr t (y :: ws); Ok (a ++ b)) in E.
  destruct (if r_end x =? r_begin y then _ else _) as [a|e] eqn:Ea; [|discriminate]. cbn [bind] in E. destruct (inter_rows Dr t (y :: ws)) as [b|e]; [|discriminate]. cbn [bind] in E. injection E as <-.
  apply Forall_app. split; [|apply IH; reflexivity]. destruct (r_end x =? r_begin y); [injection Ea as <-; constructor|exact (base_rows_ok _ _ _ _ Ea)].
Qed.
Lemma filter_none {A} (f : A -> bool) l : Forall (fun x => f x = false) l -> filter f l = [].
Proof. induction 1 as [|x l H F IH]; [reflexivity|]. cbn [filter]. rewrite H. exact IH. Qed.
Lemma filter_all {A} (f : A -> bool) l : Forall (fun x => f x = true) l -> filter f l = l.
Proof. induction 1 as [|x l H F IH]; [reflexivity|]. cbn [filter]. rewrite H, IH. reflexivity. Qed.
(** filtering commutes with the sort *)
Lemma insert_filter {A} (le : A -> A -> bool) (f : A -> bool) x l : (forall a b c, le a b = true -> le b c = true -> le a c = true) -> StronglySorted (fun a b => le a b = true) l ->
  filter f (insert le x l) = if f x then insert le x (filter f l) else filter f l.
Proof.
  intros T. induction 1 as [|y l S IH F]; [cbn [insert filter]; destruct (f x); reflexivity|]. cbn [insert]. destruct (le x y) eqn:L.
  - cbn [filter]. destruct (f x) eqn:Fx; [|reflexivity]. destruct (f y) eqn:Fy; [cbn [insert]; rewrite L; reflexivity|].
    assert (G : Forall (fun z => le x z = true) (filter f l)) by (apply Forall_forall; intros z I; apply filter_In in I as [I _]; rewrite Forall_forall in F; exact (T _ _ _ L (F _ I))).
    destruct (filter f l) as [|z m]; [reflexivity|]. cbn [insert]. rewrite (Forall_inv G). reflexivity.
  - cbn [filter]. rewrite IH. destruct (f y) eqn:Fy; destruct (f x) eqn:Fx; try reflexivity. cbn [insert]. rewrite L. reflexivity.
Qed.
Lemma sort_filter {A} (le : A -> A -> bool) (f : A -> bool) l : (forall a b, le a b = true \/ le b a = true) -> (forall a b c, le a b = true -> le b c = true -> le a c = true) -> filter f (sort le l) = sort le (filter f l).
Proof.
  intros O T. induction l as [|x l IH]; [reflexivity|]. cbn [sort filter]. rewrite insert_filter; [|exact T|apply (sort_sorted le O T)]. rewrite IH. destruct (f x); reflexivity.
Qed.
Lemma r_le_total x y : r_le x y = true \/ r_le y x = true. Proof. unfold r_le. rewrite !Nat.leb_le. lia. Qed.
Lemma r_le_trans x y z : r_le x y = true -> r_le y z = true -> r_le x z = true. Proof. unfold r_le. rewrite !Nat.leb_le. lia. Qed.

Lemma word_has_total (l : list lrw) : Forall (fun r => has_total r = true) (map word_row l).
Proof. induction l; constructor; [reflexivity|assumption]. Qed.
Lemma sort_words_id (l : list lrw) : StronglySorted (fun x y => p0 x <= p0 y) l -> sort r_le (map word_row l) = map word_row l.
Proof.
  intros H. apply sort_id. induction H as [|x l H IH F]; cbn [map]; constructor; [exact IH|]. apply Forall_forall. intros r I. apply in_map_iff in I as (y & <- & I). rewrite Forall_forall in F. specialize (F y I).
  unfold r_le. cbn [word_row r_begin]. apply Nat.leb_le. exact F.
Qed.
(** The rows of an eojeol are in the order of their begin positions. Those of eleven entries are, in order, the selected words of C80, each with its scores and the total it was selected by; its
    positions and lengths are those of its parts in the eojeol. Those of ten entries have no R part, scores 0, and positions and lengths that fit each other. *)
Theorem C100_rows : forall Dl Dr Pl Pr a b c d t best rows, lr_best Dl Dr Pl Pr a b c d t = Ok best -> lr_rows Dl Dr Pl Pr a b c d t = Ok rows ->
  StronglySorted (fun x y => r_begin x <= r_begin y) rows /\
  filter has_total rows = map word_row best /\
  Forall (fun r => r_l r = slice (r_begin r) (r_mid r) t /\ r_r r = slice (r_mid r) (r_end r) t /\ r_begin r < r_mid r <= r_end r /\ r_end r <= length t /\
    r_len_l r = r_mid r - r_begin r /\ r_len_r r = r_end r - r_mid r /\ r_len r = r_end r - r_begin r) (filter has_total rows) /\
  Forall (fun r => r_r r = [] /\ r_mid r = r_begin r + length (r_l r) /\ r_end r = r_mid r /\ r_len_l r = length (r_l r) /\ r_len_r r = 0 /\ r_len r = length (r_l r) /\ (r_sl r = 0 /\ r_sr r = 0)%Q)
    (filter (fun r => negb (has_total r)) rows).
Proof.
  intros Dl Dr Pl Pr a b c d t best rows Eb E. destruct (lr_best_ok _ _ _ _ _ _ _ _ _ _ Eb) as [F SB].
  assert (SB' : StronglySorted (fun x y => p0 x <= p0 y) best).
  { clear -F SB. induction SB as [|x l SB IH Fx]; constructor; [apply IH; exact (Forall_inv_tail F)|]. apply Forall_forall. intros y I. rewrite Forall_forall in Fx. specialize (Fx y I). pose proof (Forall_inv F) as (H1 & H2 & _). lia. }
  assert (X : exists plain, Forall plain_row plain /\ StronglySorted (fun x y => r_begin x <= r_begin y) rows /\ filter has_total rows = map word_row best /\ forall r, In r (filter (fun r => negb (has_total r)) rows) -> In r plain).
  { unfold lr_rows in E. rewrite Eb in E. cbn [bind] in E. destruct best as [|w0 ws].
    - exists rows. pose proof (base_rows_ok _ _ _ _ E) as P. pose proof (base_rows_plain _ _ _ _ E) as P'. split; [exact P|]. split; [|split].
      + clear -P'. induction P' as [|r rows (_ & _ & H & _) P' IH]; constructor; [exact IH|]. eapply Forall_impl; [|exact P']. intros r' (_ & _ & H' & _). lia.
      + apply filter_none. eapply Forall_impl; [|exact P]. intros r H. apply H.
      + intros r I. apply filter_In in I. apply I.
    - revert E. change (map word_row (w0 :: ws)) with (word_row w0 :: map word_row ws). unfold post_rows. change (word_row w0 :: map word_row ws) with (map word_row (w0 :: ws)). set (wn := last _ _). cbv zeta. intros E.
      destruct (if 0 <? r_begin (word_row w0) then _ else _) as [a1|e] eqn:E1; [|discriminate]. cbn [bind] in E. destruct (if r_mid wn <? length t then _ else _) as [a2|e] eqn:E2; [|discriminate]. cbn [bind] in E.
      destruct (inter_rows Dr t (map word_row (w0 :: ws))) as [a3|e] eqn:E3; [|discriminate]. cbn [bind] in E. assert (E' : rows = sort r_le (map word_row (w0 :: ws) ++ a1 ++ a2 ++ a3)) by congruence. clear E.
      assert (P : Forall plain_row (a1 ++ a2 ++ a3)).
      { repeat (apply Forall_app; split).
        - destruct (0 <? r_begin (word_row w0)); [exact (base_rows_ok _ _ _ _ E1)|]. assert (a1 = []) by congruence. subst a1. constructor.
        - destruct (r_mid wn <? length t); [exact (base_rows_ok _ _ _ _ E2)|]. assert (a2 = []) by congruence. subst a2. constructor.
        - exact (inter_rows_ok _ _ _ _ E3). }
      exists (a1 ++ a2 ++ a3). split; [exact P|]. subst rows. split; [|split].
      + pose proof (sort_sorted r_le r_le_total r_le_trans (map word_row (w0 :: ws) ++ a1 ++ a2 ++ a3)) as SS. unfold sorted_le in SS. revert SS. apply StronglySorted_impl. intros x y H. apply Nat.leb_le. exact H.
      + rewrite sort_filter by (exact r_le_total || exact r_le_trans). rewrite filter_app, (filter_none has_total (a1 ++ a2 ++ a3)) by (eapply Forall_impl; [|exact P]; intros r H; apply H).
        rewrite app_nil_r, filter_all by apply word_has_total. apply sort_words_id, SB'.
      + intros r I. apply filter_In in I as [I T]. apply sort_In in I. apply in_app_or in I as [I|I]; [|exact I]. pose proof (word_has_total (w0 :: ws)) as W. rewrite Forall_forall in W. rewrite (W r I) in T. discriminate. }
  destruct X as (plain & P & SS & FT & IP). split; [exact SS|]. split; [exact FT|]. split.
  - rewrite FT. apply Forall_forall. intros r I. apply in_map_iff in I as (w & <- & I). rewrite Forall_forall in F. destruct (F w I) as (H1 & H2 & H3 & H4 & H5 & _). cbn [word_row r_l r_r r_begin r_mid r_end r_len_l r_len_r r_len].
    rewrite H4, H5, !slice_length by lia. repeat split; lia.
  - apply Forall_forall. intros r I. rewrite Forall_forall in P. destruct (P r (IP r I)) as (_ & H1 & H2 & H3 & H4 & H5 & H6 & H7). repeat split; try assumption; try lia; apply H7.
Qed.
Print Assumptions C100_rows.
(** The claim "the positions of a row are those of its word in the eojeol" fails for the words of the base tokenizer: each of them begins, it says, where the text between the selected
    words begins *)
Theorem C100_positions_refuted : exists Dl Dr t rows r, lr_rows Dl Dr [] [] (3 # 10) (1 # 2) (1 # 2) (3 # 10) t = Ok rows /\ In r rows /\ r_l r <> slice (r_begin r) (r_mid r) t.
Proof.
  exists [(u "아이", 1%Q)], [(u "는", 1%Q)], (u "아이가나다라마바사자차카타파"). eexists. exists (Row (u "타파") [] 2 4 4 2 0 2 0%Q 0%Q None).
  split; [vm_compute; reflexivity|]. split; [vm_compute; tauto|]. vm_compute. discriminate.
Qed.
Print Assumptions C100_positions_refuted.
Example C100_example : let Dl := [(u "아이", 1%Q)] in let Dr := [(u "는", 1 # 2)] in
  lr_call Dl Dr [] [] (3 # 10) (1 # 2) (1 # 2) (3 # 10) (u "오아이는 아이") = Err AttributeError /\
  lr_call Dl Dr [] [(u "는", 1%Q)] (3 # 10) (1 # 2) (1 # 2) (3 # 10) (u "오아이 아이") = Ok
    [Row (u "오") [] 0 1 1 1 0 1 0%Q 0%Q None; Row (u "아이") [] 1 3 3 2 0 2 1%Q 0%Q (Some 2%Q); Row (u "아이") [] 0 2 2 2 0 2 1%Q 0%Q (Some 2%Q)].
Proof. vm_compute. split; reflexivity. Qed.
