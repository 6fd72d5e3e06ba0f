(** Lemmas about registers: the bits of every intermediate RegisterBits. *)
From Coq Require Import List NArith ZArith Arith Bool Lia.
From Verif Require Import Words BitArrayModel BitArrayProps RegisterBitsModel RegisterBitsProps MathUtilsModel LayoutModel LayoutProofs
  ArchDataModel StorageModel RegisterModel.
Import ListNotations.
Open Scope N_scope.

(** Bit [i] of a byte string, lowest byte first. *)
Definition bit (l : bytes) (i : N) : bool := N.testbit (wval 8 l) i.

Lemma bit_nth : forall l i, wok 8 l -> bit l i = N.testbit (nth (N.to_nat (i / 8)) l 0) (i mod 8).
Proof. intros. unfold bit. apply wval_bit; [discriminate|auto]. Qed.
Lemma idx_lt : forall i n, i < 8 * N.of_nat n <-> (N.to_nat (i / 8) < n)%nat.
Proof.
  intros i n. pose proof (N.div_mod i 8 ltac:(discriminate)). pose proof (N.mod_lt i 8 ltac:(discriminate)). lia.
Qed.
Lemma bit_high : forall l i, wok 8 l -> 8 * N.of_nat (length l) <= i -> bit l i = false.
Proof. intros l i H L. apply testbit_small with (8 * N.of_nat (length l)); [apply wval_lt|]; auto. Qed.
Lemma bit_firstn : forall l n i, wok 8 l -> bit (firstn n l) i = (i <? 8 * N.of_nat n) && bit l i.
Proof.
  intros l n i H. rewrite !bit_nth by (auto using wok_firstn). destruct (N.ltb_spec i (8 * N.of_nat n)) as [L|L].
  - apply idx_lt in L. rewrite nth_firstn by auto. reflexivity.
  - assert (~ (N.to_nat (i / 8) < n)%nat) by (rewrite <- idx_lt; lia).
    rewrite nth_overflow by (rewrite firstn_length; lia). cbn [andb]. apply N.bits_0.
Qed.
Lemma idx_add : forall i k, N.to_nat ((i + 8 * N.of_nat k) / 8) = (N.to_nat (i / 8) + k)%nat /\ (i + 8 * N.of_nat k) mod 8 = i mod 8.
Proof.
  intros i k. rewrite (N.mul_comm 8). rewrite N.div_add, N.mod_add by discriminate. split; [lia|auto].
Qed.
Lemma bit_skipn : forall l k i, wok 8 l -> bit (skipn k l) i = bit l (i + 8 * N.of_nat k).
Proof.
  intros l k i H. rewrite !bit_nth by (auto using wok_skipn). destruct (idx_add i k) as [-> ->].
  rewrite nth_skipn. f_equal. f_equal. lia.
Qed.
Lemma bit_app : forall a b i, wok 8 a -> wok 8 b ->
  bit (a ++ b) i = if i <? 8 * N.of_nat (length a) then bit a i else bit b (i - 8 * N.of_nat (length a)).
Proof.
  intros a b i HA HB. unfold bit. rewrite wval_app. rewrite testbit_add_mul by (apply wval_lt; auto). auto.
Qed.
Lemma bit_zeros : forall n i, bit (repeat 0 n) i = false.
Proof.
  intros n i. unfold bit. assert (E : wval 8 (repeat 0 n) = 0) by (induction n; cbn [repeat wval fold_right]; auto; fold (wval 8 (repeat 0 n)); rewrite IHn; auto).
  rewrite E. apply N.bits_0.
Qed.
Lemma wok_zeros : forall n, wok 8 (repeat 0 n).
Proof. induction n; constructor; auto. reflexivity. Qed.
Lemma wok_app : forall a b, wok 8 a -> wok 8 b -> wok 8 (a ++ b).
Proof. intros. apply Forall_app. auto. Qed.
#[export] Hint Resolve wok_zeros wok_app wok_firstn wok_skipn wr_ok : wokdb.
Lemma bit_pad : forall l n i, wok 8 l -> bit (l ++ repeat 0 n) i = bit l i.
Proof.
  intros l n i H. rewrite bit_app by auto with wokdb. rewrite bit_zeros. destruct (N.ltb_spec i (8 * N.of_nat (length l))); auto.
  symmetry. apply bit_high; auto.
Qed.
Lemma bits_eq : forall a b, wok 8 a -> wok 8 b -> length a = length b -> (forall i, i < 8 * N.of_nat (length a) -> bit a i = bit b i) -> a = b.
Proof.
  intros a b HA HB L E. apply (wval_inj 8); auto. apply N.bits_inj. intros i. destruct (N.lt_ge_cases i (8 * N.of_nat (length a))).
  - apply E; auto.
  - change (bit a i = bit b i). rewrite !bit_high; auto. rewrite <- L. auto.
Qed.

(* ---------------- the operators ---------------- *)
(** An object of [n] bytes with storage. *)
Definition qok (q : rbits) (n : nat) : Prop := q_n q = n /\ (n <= length (q_buf q))%nat /\ wok 8 (q_buf q).
(** Bits of an object. *)
Definition qbit (q : rbits) (i : N) : bool := bit (q_view q) i.
(** A fresh object: nothing but zeros above its size. *)
Definition qfresh (q : rbits) (n : nat) : Prop := q_n q = n /\ exists l, length l = n /\ wok 8 l /\ q = q_fresh l.

Lemma qfresh_ok : forall q n, qfresh q n -> qok q n.
Proof.
  intros q n [E [l [L [W ->]]]]. unfold qok. cbn [q_n q_buf q_fresh]. split; [auto|]. split; [rewrite app_length; lia|auto with wokdb].
Qed.
Lemma view_fresh : forall l, q_view (q_fresh l) = l.
Proof. intros l. unfold q_view. cbn [q_fresh q_n q_buf]. rewrite firstn_app, Nat.sub_diag, firstn_all. cbn. apply app_nil_r. Qed.
Lemma qfresh_mk : forall l n, length l = n -> wok 8 l -> qfresh (q_fresh l) n.
Proof. intros l n L W. split; [auto|]. exists l. auto. Qed.
Lemma buf_fresh_bit : forall q n i, qfresh q n -> bit (q_buf q) i = qbit q i.
Proof.
  intros q n i [E [l [L [W ->]]]]. unfold qbit. rewrite view_fresh. cbn [q_buf q_fresh]. apply bit_pad; auto.
Qed.
Lemma fresh_len8 : forall q n, qfresh q n -> (8 <= length (q_buf q))%nat /\ length (q_buf q) = Nat.max 8 n.
Proof. intros q n [E [l [L [W ->]]]]. cbn [q_buf q_fresh]. rewrite app_length, repeat_length. lia. Qed.
Lemma view_ok : forall q n, qok q n -> length (q_view q) = n /\ wok 8 (q_view q).
Proof. intros q n [E [L W]]. unfold q_view. rewrite firstn_length, E. split; [lia|auto with wokdb]. Qed.
Lemma qbit_high : forall q n i, qok q n -> 8 * N.of_nat n <= i -> qbit q i = false.
Proof. intros q n i H L. destruct (view_ok q n H) as [E W]. apply bit_high; auto. rewrite E. auto. Qed.
Lemma qbit_buf : forall q n i, qok q n -> qbit q i = (i <? 8 * N.of_nat n) && bit (q_buf q) i.
Proof. intros q n i [E [L W]]. unfold qbit, q_view. rewrite bit_firstn by auto. rewrite E. auto. Qed.

Lemma ba_zip_words : forall f n a b, words n b = words n (firstn (8 * n) b) -> ba_zip f (words n a) (words n b) = ba_zip f (words n a) (words n (firstn (8 * n) b)).
Proof. intros. congruence. Qed.
Lemma words_firstn : forall n b, words n (firstn (8 * n) b) = words n b.
Proof.
  induction n; intros b; [reflexivity|]. cbn [words]. replace (8 * S n)%nat with (8 + 8 * n)%nat by lia.
  rewrite firstn_firstn, Nat.min_l by lia. f_equal. rewrite <- (IHn (skipn 8 b)). f_equal.
  rewrite skipn_firstn_comm. f_equal. lia.
Qed.
Lemma rb_merge_firstn : forall f a b, size_ok (length a) -> (length a <= length b)%nat -> rb_merge f a b = rb_merge f a (firstn (length a) b).
Proof.
  intros f a b S L. unfold rb_merge. rewrite firstn_length, Nat.min_l by auto. rewrite Nat.ltb_irrefl.
  destruct (Nat.ltb_spec (length b) (length a)); [lia|]. rewrite firstn_firstn, Nat.min_id.
  destruct S as [S|[B M]]; [rewrite S; auto|]. destruct (big_not_small _ B) as [-> ->]. rewrite M. cbn [Nat.eqb negb orb].
  f_equal. f_equal. rewrite <- (words_firstn (length a / 8) b). f_equal. f_equal. f_equal.
  pose proof (Nat.div_mod (length a) 8 ltac:(discriminate)). lia.
Qed.

Lemma q_land : forall a b n, qok a n -> size_ok n -> (n <= length (q_buf b))%nat -> wok 8 (q_buf b) ->
  exists r, q_merge N.land a b = Some r /\ qfresh r n /\ forall i, qbit r i = qbit a i && bit (q_buf b) i.
Proof.
  intros a b n A S L W. destruct (view_ok a n A) as [E1 E2].
  destruct (C34_logic (q_view a) (firstn n (q_buf b))) as [r1 [r2 [H1 [H2 [L1 [L2 [W1 [W2 [V1 V2]]]]]]]]]; auto with wokdb.
  { rewrite firstn_length. lia. } { rewrite E1. auto. }
  unfold q_merge. rewrite rb_merge_firstn by (rewrite E1; auto). rewrite E1, H2. cbn [option_map].
  exists (q_fresh r2). split; [auto|]. split; [apply qfresh_mk; auto; lia|]. intros i. unfold qbit. rewrite view_fresh.
  unfold bit. rewrite V2, N.land_spec. fold (bit (q_view a) i). fold (bit (firstn n (q_buf b)) i). fold (bit (q_buf b) i).
  rewrite bit_firstn by auto. destruct (N.ltb_spec i (8 * N.of_nat n)); auto. cbn [andb].
  rewrite (bit_high (q_view a)) by (auto; rewrite E1; auto). auto.
Qed.
Lemma q_lor : forall a b n, qok a n -> size_ok n -> (n <= length (q_buf b))%nat -> wok 8 (q_buf b) ->
  exists r, q_merge N.lor a b = Some r /\ qfresh r n /\ forall i, qbit r i = qbit a i || ((i <? 8 * N.of_nat n) && bit (q_buf b) i).
Proof.
  intros a b n A S L W. destruct (view_ok a n A) as [E1 E2].
  destruct (C34_logic (q_view a) (firstn n (q_buf b))) as [r1 [r2 [H1 [H2 [L1 [L2 [W1 [W2 [V1 V2]]]]]]]]]; auto with wokdb.
  { rewrite firstn_length. lia. } { rewrite E1. auto. }
  unfold q_merge. rewrite rb_merge_firstn by (rewrite E1; auto). rewrite E1, H1. cbn [option_map].
  exists (q_fresh r1). split; [auto|]. split; [apply qfresh_mk; auto; lia|]. intros i. unfold qbit. rewrite view_fresh.
  unfold bit. rewrite V1, N.lor_spec. fold (bit (q_view a) i). fold (bit (firstn n (q_buf b)) i). fold (bit (q_buf b) i).
  rewrite bit_firstn by auto. auto.
Qed.
Lemma q_or_in_fresh : forall a b n, qfresh a n -> size_ok n -> qfresh b n ->
  exists r, q_or_in a b = Some r /\ qfresh r n /\ forall i, qbit r i = qbit a i || qbit b i.
Proof.
  intros a b n A S B. pose proof (qfresh_ok _ _ B) as [B1 [B2 B3]]. pose proof (qfresh_ok _ _ A) as A'.
  destruct (q_lor a b n A' S B2 B3) as [r [H1 [H2 H3]]].
  unfold q_merge in H1. unfold q_or_in. destruct (rb_merge N.lor (q_view a) (q_buf b)) as [l|]; [|discriminate].
  cbn [option_map] in *. injection H1 as <-. exists (q_fresh l). destruct H2 as [N1 [l' [L' [W' E']]]].
  assert (l' = l). { apply (f_equal q_view) in E'. rewrite !view_fresh in E'. auto. } subst l'.
  split; [|split; [apply qfresh_mk; auto|]].
  - f_equal. destruct A as [A0 [la [LA [WA ->]]]]. cbn [q_n q_buf q_fresh]. unfold q_fresh. rewrite LA, L'. f_equal. f_equal.
    rewrite skipn_app, skipn_all2 by lia. cbn [app]. rewrite LA, Nat.sub_diag. reflexivity.
  - intros i. rewrite H3. rewrite (buf_fresh_bit b n i B). destruct (N.ltb_spec i (8 * N.of_nat n)); auto.
    rewrite (qbit_high b n i) by (auto using qfresh_ok). auto.
Qed.
Lemma compl_bits : forall a k i, a < 2 ^ k -> N.testbit (2 ^ k - 1 - a) i = (i <? k) && negb (N.testbit a i).
Proof.
  intros a k i H. replace (2 ^ k - 1) with (N.ones k) by (rewrite N.ones_equiv, <- N.sub_1_r; reflexivity).
  destruct (N.eq_dec a 0) as [->|NZ].
  { rewrite N.sub_0_r, N.bits_0, andb_true_r. destruct (N.ltb_spec i k); [apply N.ones_spec_low|apply N.ones_spec_high]; auto. }
  rewrite <- N.lnot_sub_low by (apply N.log2_lt_pow2; lia). destruct (N.ltb_spec i k).
  - rewrite N.lnot_spec_low by auto. auto.
  - rewrite N.lnot_spec_high by auto. cbn. apply testbit_small with k; auto.
Qed.
Lemma q_not_spec : forall a n, qok a n -> size_ok n ->
  exists r, q_not a = Some r /\ qfresh r n /\ forall i, qbit r i = (i <? 8 * N.of_nat n) && negb (qbit a i).
Proof.
  intros a n A S. destruct (view_ok a n A) as [E1 E2]. destruct (C34_not (q_view a)) as [r [H1 [L1 [W1 V1]]]]; auto. { rewrite E1; auto. }
  unfold q_not. rewrite H1. cbn [option_map]. exists (q_fresh r). split; [auto|]. split; [apply qfresh_mk; auto; lia|].
  intros i. unfold qbit. rewrite view_fresh. unfold bit. rewrite V1, compl_bits, E1; auto. apply wval_lt; auto.
Qed.
(** The shifts of registers of at most 8 bytes are fine everywhere; larger ones need the processor's int shift. *)
Definition shift_ok (x86 : bool) (n : nat) : Prop := (n <= 8)%nat \/ x86 = true.
Lemma q_shr_spec : forall x86 a n k, qok a n -> size_ok n -> shift_ok x86 n -> k < 8 * N.of_nat n -> k < 2 ^ 32 ->
  exists r, q_shr x86 a k = Some r /\ qfresh r n /\ forall i, qbit r i = qbit a (i + k).
Proof.
  intros x86 a n k A S X K K32. destruct (view_ok a n A) as [E1 E2]. unfold q_shr. rewrite N.mod_small by auto.
  pose proof (C34_shift_right_partial x86 (q_view a) k E2) as H. rewrite E1 in H. specialize (H S).
  destruct (rb_shr x86 (q_view a) k) as [r|].
  - destruct H as [L [W V]]. cbn [option_map]. exists (q_fresh r). split; [auto|]. split; [apply qfresh_mk; auto|].
    intros i. unfold qbit. rewrite view_fresh. unfold bit. rewrite V. rewrite <- N.shiftr_div_pow2, N.shiftr_spec' . auto.
  - exfalso. destruct H as [H|[H1 [H2 H3]]]; [lia|]. destruct X; [lia|congruence].
Qed.
Lemma q_shl_spec : forall a n k, qok a n -> size_ok n -> k < 8 * N.of_nat n -> k < 2 ^ 32 ->
  exists r, q_shl a k = Some r /\ qfresh r n /\ forall i, qbit r i = (i <? 8 * N.of_nat n) && ((k <=? i) && qbit a (i - k)).
Proof.
  intros a n k A S K K32. destruct (view_ok a n A) as [E1 E2]. unfold q_shl. rewrite N.mod_small by auto.
  pose proof (C34_shift_left_partial (q_view a) k E2) as H. rewrite E1 in H. specialize (H S).
  destruct (rb_shl (q_view a) k) as [r|]; [|lia]. destruct H as [L [W V]]. cbn [option_map]. exists (q_fresh r).
  split; [auto|]. split; [apply qfresh_mk; auto|]. intros i. unfold qbit. rewrite view_fresh. unfold bit. rewrite V.
  rewrite <- N.shiftl_mul_pow2. destruct (N.ltb_spec i (8 * N.of_nat n)).
  - rewrite N.mod_pow2_bits_low by auto. cbn [andb]. destruct (N.leb_spec k i); [rewrite N.shiftl_spec_high'; auto|rewrite N.shiftl_spec_low; auto].
  - rewrite N.mod_pow2_bits_high by auto. auto.
Qed.

(* ---------------- <<= of a value in the lowest word ---------------- *)
(** Positions for which <<= moves a single low word correctly. *)
Definition pos_ok (n : nat) (k : N) : Prop := (n <= 8)%nat \/ k < 64 \/ (n / 8 <= 2 * N.to_nat (k / 64))%nat.
Lemma nth_zeros : forall n j, nth j (repeat 0 n) 0 = 0.
Proof. induction n; destruct j; cbn; auto. Qed.
Lemma words_zeros : forall m q, words q (repeat 0 m) = repeat 0 q.
Proof.
  intros m q. revert m. induction q; intros m; cbn [words repeat]; auto.
  assert (S8 : skipn 8 (repeat 0 m) = repeat 0 (m - 8)).
  { do 8 (destruct m as [|m]; [reflexivity|]). cbn [repeat skipn Nat.sub]. rewrite Nat.sub_0_r. reflexivity. }
  rewrite S8, IHq. f_equal. rewrite rd_wval.
  assert (F8 : firstn 8 (repeat 0 m) = repeat 0 (Nat.min 8 m)).
  { do 8 (destruct m as [|m]; [reflexivity|]). reflexivity. }
  rewrite F8. generalize (Nat.min 8 m). intros c. induction c; cbn [repeat wval fold_right]; auto. fold (wval 8 (repeat 0 c)). rewrite IHc. auto.
Qed.
Lemma low_word : forall n v, (8 < n)%nat -> (n mod 8 = 0)%nat -> v < 2 ^ 64 ->
  words (n / 8) (wr 8 v ++ repeat 0 (n - 8)) = v :: repeat 0 (n / 8 - 1).
Proof.
  intros n v B M V. destruct (n / 8)%nat as [|q] eqn:Q; [pose proof (Nat.div_mod n 8 ltac:(discriminate)); lia|].
  cbn [words]. rewrite firstn_app, wr_len, Nat.sub_diag. rewrite firstn_O, app_nil_r, firstn_all2 by (rewrite wr_len; lia).
  rewrite rd_wval, wr_val. change (8 * N.of_nat 8) with 64. rewrite N.mod_small by auto. f_equal.
  rewrite skipn_app, wr_len, Nat.sub_diag. rewrite skipn_all2 by (rewrite wr_len; lia). rewrite skipn_O, app_nil_l, words_zeros.
  f_equal. lia.
Qed.
Lemma rb_shl_in_low : forall n v k, size_ok n -> v < 2 ^ 64 -> (8 < n)%nat -> k < 8 * N.of_nat n -> pos_ok n k ->
  rb_shl_in (wr 8 v ++ repeat 0 (n - 8)) k = rb_shl (wr 8 v ++ repeat 0 (n - 8)) k.
Proof.
  intros n v k SO V B K P. unfold rb_shl_in, rb_shl.
  assert (LA : length (wr 8 v ++ repeat 0 (n - 8)) = n) by (rewrite app_length, wr_len, repeat_length; lia). rewrite LA.
  destruct (big_not_small _ B) as [SM ->]. rewrite SM. destruct SO as [SO|[_ M]]; [congruence|]. rewrite M. cbn [Nat.eqb negb].
  f_equal. f_equal. rewrite low_word by auto. unfold words_shl_in, words_shl. set (ws := v :: repeat 0 (n / 8 - 1)).
  assert (LW : length ws = (n / 8)%nat). { unfold ws. cbn [length]. rewrite repeat_length. pose proof (Nat.div_mod n 8 ltac:(discriminate)). lia. }
  assert (Z : forall j, (j <> 0)%nat -> nth j ws 0 = 0). { intros j J. destruct j; [lia|]. apply nth_zeros. }
  set (d := N.to_nat (k / 64)) in *. f_equal.
  assert (DN : (d < n / 8)%nat).
  { unfold d. pose proof (Nat.div_mod n 8 ltac:(discriminate)). assert (k / 64 < N.of_nat (n / 8)); [|lia].
    apply N.div_lt_upper_bound; [discriminate|]. lia. }
  destruct (Nat.ltb_spec 0 d) as [D|D].
  - assert (E : (n / 8 <= 2 * d)%nat). { destruct P as [P|[P|P]]; [lia| |auto]. assert (k / 64 = 0) by (apply N.div_small; auto). lia. }
    apply nth_ext with (d := 0) (d' := 0).
    + rewrite copy_len, app_length, repeat_length, firstn_length. lia.
    + intros i Hi. rewrite copy_len in Hi. rewrite LW in *. rewrite (Nat.min_l d) by lia. destruct (Nat.lt_ge_cases i d).
      * rewrite app_nth1 by (rewrite repeat_length; auto). rewrite nth_zeros. destruct (Nat.lt_ge_cases (i + d) (n / 8)).
        { apply copy_zero; lia. } { rewrite copy_keep by lia. apply Z. lia. }
      * rewrite copy_move by lia. rewrite app_nth2, repeat_length by (rewrite repeat_length; auto).
        rewrite nth_firstn by lia. auto.
  - replace d with 0%nat by lia. rewrite Nat.min_0_l, Nat.sub_0_r. cbn [repeat app]. symmetry. apply firstn_all.
Qed.
(** <<= in general. *)
Lemma q_shl_in_spec : forall q n k, qok q n -> size_ok n -> k < 8 * N.of_nat n -> k < 2 ^ 32 ->
  ((n <= 8)%nat \/ (exists v, v < 2 ^ 64 /\ q_view q = wr 8 v ++ repeat 0 (n - 8)) /\ pos_ok n k) ->
  exists r, q_shl_in q k = Some r /\ qok r n /\ length (q_buf r) = length (q_buf q)
    /\ (forall i, qbit r i = (i <? 8 * N.of_nat n) && ((k <=? i) && qbit q (i - k)))
    /\ (forall i, 8 * N.of_nat n <= i -> bit (q_buf r) i = bit (q_buf q) i).
Proof.
  intros q n k A S K K32 P. destruct (q_shl_spec q n k A S K K32) as [r [H1 [H2 H3]]].
  destruct (view_ok q n A) as [V1 V2].
  assert (E : rb_shl_in (q_view q) (k mod 2 ^ 32) = rb_shl (q_view q) (k mod 2 ^ 32)).
  { rewrite N.mod_small by auto. destruct P as [P|[[v [V E]] P]].
    - apply C34_shl_assign_partial; rewrite V1; auto.
    - destruct (Nat.le_gt_cases n 8); [apply C34_shl_assign_partial; rewrite V1; auto|]. rewrite E. apply rb_shl_in_low; auto. }
  unfold q_shl_in. rewrite E. unfold q_shl in H1. destruct (rb_shl (q_view q) (k mod 2 ^ 32)) as [l|]; [|discriminate].
  cbn [option_map] in *. injection H1 as <-. destruct H2 as [N1 [l' [L' [W' E']]]].
  assert (l' = l). { apply (f_equal q_view) in E'. rewrite !view_fresh in E'. auto. } subst l'. clear E'.
  destruct A as [A1 [A2 A3]]. rewrite A1.
  exists (mkRB n (l ++ skipn n (q_buf q))). split; [auto|].
  assert (VW : q_view (mkRB n (l ++ skipn n (q_buf q))) = l).
  { unfold q_view. cbn [q_n q_buf]. rewrite firstn_app, L', Nat.sub_diag. cbn [firstn]. rewrite app_nil_r. apply firstn_all2. lia. }
  split; [|split; [|split]].
  - unfold qok. cbn [q_n q_buf]. split; [auto|]. split; [rewrite app_length; lia|auto with wokdb].
  - cbn [q_buf]. rewrite app_length, skipn_length. lia.
  - intros i. rewrite <- H3. unfold qbit. rewrite VW, view_fresh. auto.
  - intros i I. cbn [q_buf]. rewrite bit_app by auto with wokdb. rewrite L'. destruct (N.ltb_spec i (8 * N.of_nat n)); [lia|].
    rewrite bit_skipn by auto. f_equal. lia.
Qed.

(* ---------------- definitions ---------------- *)
(** A register size the constructor accepts. *)
Definition n_ok (n : nat) : Prop := exists k, N.of_nat n = 2 ^ k.
(** A field definition the constructor accepts. *)
Definition fd_ok (n : nat) (f : fdef) : Prop := f_low f <= f_high f /\ f_high f < 8 * N.of_nat n /\ f_high f - f_low f < 64.
(** Bit [i] belongs to the field. *)
Definition in_fd (f : fdef) (i : N) : bool := (f_low f <=? i) && (i <=? f_high f).
(** Bit [i] belongs to a read-only field. *)
Definition ro_bit (l : list fdef) (i : N) : bool := existsb (fun f => f_ro f && in_fd f i) l.

Lemma pow2_n : forall n, n <> 0%nat -> N.of_nat n < 2 ^ 64 -> (pow2_or_0 (N.of_nat n) = true <-> n_ok n).
Proof.
  intros n Z B. pose proof (MathUtilsProofs.is_power_of_2_correct (N.of_nat n) B) as H. unfold is_power_of_2 in H. unfold pow2_or_0, n_ok.
  destruct (N.eqb_spec (N.of_nat n) 0) as [E|E]; [lia|]. cbn [negb andb orb] in *. exact H.
Qed.
Lemma n_ok_pos : forall n, n_ok n -> (0 < n)%nat.
Proof. intros n [k E]. assert (2 ^ k <> 0) by (apply N.pow_nonzero; discriminate). lia. Qed.
Lemma n_ok_size : forall n, n_ok n -> size_ok n.
Proof.
  intros n [k E]. destruct (N.lt_ge_cases k 4) as [L|L].
  - left. assert (k = 0 \/ k = 1 \/ k = 2 \/ k = 3) as [->|[->|[->| ->]]] by lia.
    + replace n with 1%nat by (change (2 ^ 0) with 1 in E; lia). auto.
    + replace n with 2%nat by (change (2 ^ 1) with 2 in E; lia). auto.
    + replace n with 4%nat by (change (2 ^ 2) with 4 in E; lia). auto.
    + replace n with 8%nat by (change (2 ^ 3) with 8 in E; lia). auto.
  - right. replace k with (4 + (k - 4)) in E by lia. rewrite N.pow_add_r in E. change (2 ^ 4) with 16 in E.
    assert (2 ^ (k - 4) <> 0) by (apply N.pow_nonzero; discriminate). set (c := 2 ^ (k - 4)) in *. clearbody c.
    split; [lia|]. replace n with (2 * N.to_nat c * 8)%nat by lia. apply Nat.mod_mul. discriminate.
Qed.

(** A run of ones. *)
Lemma ones_bit : forall w i, N.testbit (2 ^ w - 1) i = (i <? w).
Proof.
  intros w i. replace (2 ^ w - 1) with (N.ones w) by (rewrite N.ones_equiv, <- N.sub_1_r; reflexivity).
  destruct (N.ltb_spec i w); [apply N.ones_spec_low|apply N.ones_spec_high]; auto.
Qed.
Lemma fill_bit : forall n i, bit (rb_fill (repeat 0 n) 255) i = (i <? 8 * N.of_nat n).
Proof.
  intros n i. assert (E : rb_fill (repeat 0 n) 255 = repeat 255 n) by (unfold rb_fill; induction n; cbn [repeat map]; congruence).
  rewrite E. rewrite bit_nth by (clear; induction n; constructor; auto; reflexivity).
  destruct (N.ltb_spec i (8 * N.of_nat n)) as [L|L].
  - apply idx_lt in L. rewrite (nth_indep _ 0 255) by (rewrite repeat_length; auto). rewrite nth_repeat.
    change 255 with (2 ^ 8 - 1). rewrite ones_bit. apply N.ltb_lt, N.mod_lt. discriminate.
  - assert (~ (N.to_nat (i / 8) < n)%nat) by (rewrite <- idx_lt; lia). rewrite nth_overflow by (rewrite repeat_length; lia). apply N.bits_0.
Qed.
Lemma ro_loop_spec : forall x86 n l m, size_ok n -> shift_ok x86 n -> 8 * N.of_nat n <= 2 ^ 32 -> Forall (fd_ok n) l -> qfresh m n ->
  exists r, ro_loop x86 n m l = Done r /\ qfresh r n /\ forall i, qbit r i = qbit m i || ro_bit l i.
Proof.
  intros x86 n l. induction l as [|f l IH]; intros m S X N32 F M; cbn [ro_loop ro_bit existsb].
  { exists m. split; [auto|]. split; [auto|]. intros. rewrite orb_false_r. auto. }
  inversion F as [|? ? [F1 [F2 F3]] F4]; subst. destruct (f_ro f) eqn:R.
  2:{ destruct (IH m S X N32 F4 M) as [r [H1 [H2 H3]]]. exists r. split; [auto|]. split; [auto|]. intros i. rewrite H3. auto. }
  change (2 ^ 64) with 18446744073709551616. change (2 ^ 32) with 4294967296 in N32.
  assert (E1 : w64 (f_high f + 18446744073709551616 - f_low f + 1) = f_high f - f_low f + 1).
  { replace (f_high f + 18446744073709551616 - f_low f + 1) with (f_high f - f_low f + 1 + 1 * 18446744073709551616) by lia.
    unfold w64. change (2 ^ 64) with 18446744073709551616. rewrite N.mod_add by discriminate. apply N.mod_small. lia. }
  rewrite E1. set (w := f_high f - f_low f + 1) in *.
  assert (W : w <= 8 * N.of_nat n) by (unfold w; lia).
  assert (E2 : w64 (8 * N.of_nat n + 18446744073709551616 - w) = 8 * N.of_nat n - w).
  { replace (8 * N.of_nat n + 18446744073709551616 - w) with (8 * N.of_nat n - w + 1 * 18446744073709551616) by lia.
    unfold w64. change (2 ^ 64) with 18446744073709551616. rewrite N.mod_add by discriminate. apply N.mod_small. lia. }
  rewrite E2.
  assert (FF : qfresh (q_fresh (rb_fill (repeat 0 n) 255)) n).
  { apply qfresh_mk; [unfold rb_fill; rewrite map_length, repeat_length; auto|]. clear. induction n; constructor; auto. reflexivity. }
  destruct (q_shr_spec x86 _ n (8 * N.of_nat n - w) (qfresh_ok _ _ FF) S X) as [a [A1 [A2 A3]]]; [unfold w; lia|change (2 ^ 32) with 4294967296; unfold w; lia|].
  rewrite A1. cbn [lift obind].
  destruct (q_shl_spec a n (f_low f) (qfresh_ok _ _ A2) S) as [b [B1 [B2 B3]]]; [lia|change (2 ^ 32) with 4294967296; lia|].
  rewrite B1. cbn [lift obind]. destruct (q_or_in_fresh m b n M S B2) as [m' [M1 [M2 M3]]]. rewrite M1. cbn [lift obind].
  destruct (IH m' S X N32 F4 M2) as [r [H1 [H2 H3]]]. exists r. split; [auto|]. split; [auto|]. intros i. rewrite H3, M3. cbn [andb].
  rewrite <- orb_assoc. f_equal. fold (ro_bit l i). f_equal. rewrite B3, A3. unfold qbit. rewrite view_fresh, fill_bit. unfold in_fd.
  destruct (N.ltb_spec i (8 * N.of_nat n)), (N.leb_spec (f_low f) i), (N.leb_spec i (f_high f)); cbn [andb]; try lia; auto;
    first [apply N.ltb_lt; unfold w; lia|apply N.ltb_ge; unfold w; lia].
Qed.
Lemma write_mask_spec : forall x86 n l, n_ok n -> shift_ok x86 n -> 8 * N.of_nat n <= 2 ^ 32 -> Forall (fd_ok n) l ->
  exists m, write_mask x86 n l = Done m /\ qfresh m n /\ forall i, qbit m i = (i <? 8 * N.of_nat n) && negb (ro_bit l i).
Proof.
  intros x86 n l NO X N32 F. pose proof (n_ok_size n NO) as S. unfold write_mask.
  assert (P : pow2_or_0 (N.of_nat n) = true).
  { apply pow2_n; auto; [pose proof (n_ok_pos n NO); lia|]. change (2 ^ 64) with 18446744073709551616. change (2 ^ 32) with 4294967296 in N32. lia. }
  rewrite P. cbn [negb].
  assert (Z : qfresh (q_fresh (repeat 0 n)) n) by (apply qfresh_mk; [apply repeat_length|apply wok_zeros]).
  destruct (ro_loop_spec x86 n l _ S X N32 F Z) as [r [H1 [H2 H3]]]. rewrite H1. cbn [obind].
  destruct (q_not_spec r n (qfresh_ok _ _ H2) S) as [m [M1 [M2 M3]]]. rewrite M1. exists m. split; [auto|]. split; [auto|].
  intros i. rewrite M3, H3. unfold qbit. rewrite view_fresh, bit_zeros. auto.
Qed.

(** set of eight bytes into fresh storage. *)
Lemma q_set64_zeros : forall n v, exists r, q_set64 (q_fresh (repeat 0 n)) v = Some r /\ qok r n /\ (8 <= length (q_buf r))%nat
  /\ (forall i, bit (q_buf r) i = (i <? 64) && N.testbit v i)
  /\ ((8 < n)%nat -> q_view r = wr 8 v ++ repeat 0 (n - 8)).
Proof.
  intros n v. unfold q_set64, q_fresh. cbn [q_buf q_n]. rewrite repeat_length, <- repeat_app.
  set (b := repeat 0 (n + (8 - n))). unfold rb_set. assert (LB : length b = (n + (8 - n))%nat) by apply repeat_length.
  destruct (Nat.ltb_spec (length b) 8); [lia|]. cbn [option_map].
  assert (SK : skipn 8 b = repeat 0 (n - 8)).
  { unfold b. destruct (Nat.le_gt_cases n 8).
    - rewrite skipn_all2 by (rewrite repeat_length; lia). replace (n - 8)%nat with 0%nat by lia. reflexivity.
    - replace (n + (8 - n))%nat with (8 + (n - 8))%nat by lia. rewrite repeat_app, skipn_app, repeat_length, Nat.sub_diag.
      rewrite skipn_all2 by (rewrite repeat_length; lia). reflexivity. }
  rewrite SK. exists (mkRB n (wr 8 v ++ repeat 0 (n - 8))). split; [auto|]. cbn [q_buf].
  assert (LN : length (wr 8 v ++ repeat 0 (n - 8)) = Nat.max 8 n) by (rewrite app_length, wr_len, repeat_length; lia).
  split; [|split; [lia|split]].
  - unfold qok. cbn [q_n q_buf]. split; [auto|]. split; [lia|auto with wokdb].
  - intros i. rewrite bit_pad by auto with wokdb. unfold bit. rewrite wr_val. change (8 * N.of_nat 8) with 64.
    destruct (N.ltb_spec i 64); [apply N.mod_pow2_bits_low|apply N.mod_pow2_bits_high]; auto.
  - intros B. unfold q_view. cbn [q_n q_buf]. apply firstn_all2. lia.
Qed.
(** Field masks. *)
Lemma field_mask_spec : forall n f, size_ok n -> 8 * N.of_nat n <= 2 ^ 32 -> fd_ok n f -> pos_ok n (f_low f) ->
  exists m, field_mask n f = Done m /\ qok m n /\ (8 <= length (q_buf m))%nat /\ forall i, bit (q_buf m) i = in_fd f i.
Proof.
  intros n f S N32 [F1 [F2 F3]] P. unfold field_mask. change (2 ^ 64) with 18446744073709551616. change (2 ^ 32) with 4294967296 in *.
  rewrite (N.mod_small (f_high f)) by lia. rewrite (N.mod_small (f_low f)) by lia.
  replace (f_high f + 4294967296 - f_low f + 1) with (f_high f - f_low f + 1 + 1 * 4294967296) by lia.
  rewrite N.mod_add by discriminate. rewrite (N.mod_small (f_high f - f_low f + 1)) by lia. set (w := f_high f - f_low f + 1).
  assert (W : 0 < w <= 64) by (unfold w; lia).
  replace (64 + 18446744073709551616 - w) with (64 - w + 1 * 18446744073709551616) by lia.
  unfold w64. change (2 ^ 64) with 18446744073709551616. rewrite N.mod_add by discriminate. rewrite (N.mod_small (64 - w)) by lia.
  destruct (N.leb_spec 64 (64 - w)); [lia|].
  assert (E : N.shiftr 18446744073709551615 (64 - w) = 2 ^ w - 1).
  { apply N.bits_inj. intros i. rewrite N.shiftr_spec'. change 18446744073709551615 with (2 ^ 64 - 1). rewrite !ones_bit.
    destruct (N.ltb_spec (i + (64 - w)) 64), (N.ltb_spec i w); auto; lia. }
  change (18446744073709551616 - 1) with 18446744073709551615. rewrite E.
  destruct (q_set64_zeros n (2 ^ w - 1)) as [z [Z1 [Z2 [Z3 [Z4 Z5]]]]]. rewrite Z1. cbn [lift obind].
  assert (V64 : 2 ^ w - 1 < 2 ^ 64).
  { apply small_testbit. intros i I. rewrite ones_bit. apply N.ltb_ge. lia. }
  destruct (q_shl_in_spec z n (f_low f)) as [m [M1 [M2 [M3 [M4 M5]]]]]; auto; [lia|change (2 ^ 32) with 4294967296; lia| |].
  { destruct (Nat.le_gt_cases n 8); [left; auto|]. right. split; [|auto]. exists (2 ^ w - 1). split; auto. }
  rewrite M1. cbn [lift]. exists m. split; [auto|]. split; [auto|]. split; [lia|]. intros i. unfold in_fd.
  destruct (N.ltb_spec i (8 * N.of_nat n)) as [L|L].
  - assert (Q : qbit m i = bit (q_buf m) i) by (rewrite (qbit_buf m n) by auto; destruct (N.ltb_spec i (8 * N.of_nat n)); auto; lia).
    rewrite <- Q, M4. destruct (N.ltb_spec i (8 * N.of_nat n)); [|lia]. cbn [andb].
    destruct (N.leb_spec (f_low f) i); auto. cbn [andb]. rewrite (qbit_buf z n) by auto. rewrite Z4, ones_bit.
    destruct (N.ltb_spec (i - f_low f) (8 * N.of_nat n)); [|lia]. destruct (N.ltb_spec (i - f_low f) 64), (N.ltb_spec (i - f_low f) w), (N.leb_spec i (f_high f)); auto; unfold w in *; lia.
  - rewrite M5, Z4, ones_bit by auto. destruct (N.leb_spec i (f_high f)); [lia|]. rewrite !andb_false_r.
    destruct (N.ltb_spec i w); [unfold w in *; lia|]. apply andb_false_r.
Qed.

(* ---------------- construction ---------------- *)
(** The sizes for which shift amounts fit their uint32_t parameters. *)
Definition reg_small (n : nat) : Prop := 8 * N.of_nat n <= 2 ^ 32.
Lemma fields_make_inv : forall n l fs, reg_small n -> fields_make n l = Done fs ->
  Forall (fd_ok n) l /\ Forall2 (fun f x => field_make n f = Done x) l fs.
Proof.
  intros n l fs N32. unfold reg_small in N32. revert fs. induction l as [|f l IH]; intros fs H; cbn [fields_make] in H.
  { injection H as <-. auto. }
  destruct (field_make n f) as [x| | | |] eqn:E; try discriminate. cbn [obind] in H.
  destruct (fields_make n l) as [xs| | | |]; try discriminate. cbn [obind] in H. injection H as <-. destruct (IH xs eq_refl) as [A B].
  split; constructor; auto. unfold field_make in E. destruct (field_mask n f); try discriminate. cbn [obind] in E.
  destruct (q_not a); try discriminate. cbn [lift obind] in E. change (2 ^ 32) with 4294967296 in N32.
  rewrite w64_small in E by lia. destruct (N.ltb_spec (f_high f) (f_low f)); [discriminate|].
  destruct (N.leb_spec (8 * N.of_nat n) (f_low f)); [discriminate|]. destruct (N.leb_spec (8 * N.of_nat n) (f_high f)); [discriminate|].
  rewrite w64_small in E by lia. destruct (N.ltb_spec 64 (f_high f - f_low f + 1)); [discriminate|]. unfold fd_ok. lia.
Qed.
Lemma reg_make_inv : forall x86 n off wr init l g, reg_small n -> shift_ok x86 n -> reg_make x86 n off wr init l = Done g ->
  n_ok n /\ Forall (fd_ok n) l /\ Forall2 (fun f x => field_make n f = Done x) l (g_flds g)
  /\ g_n g = n /\ g_off g = off /\ g_writable g = wr /\ g_init g = init
  /\ qfresh (g_mask g) n /\ forall i, qbit (g_mask g) i = (i <? 8 * N.of_nat n) && negb (ro_bit l i).
Proof.
  intros x86 n off wr init l g N32 X H. unfold reg_make in H. destruct (write_mask x86 n l) as [m| | | |] eqn:E; try discriminate.
  cbn [obind] in H. destruct (negb (pow2_or_0 (N.of_nat n)) || (N.of_nat n =? 0)) eqn:C; [discriminate|].
  apply orb_false_iff in C. destruct C as [C1 C2]. apply negb_false_iff in C1. apply N.eqb_neq in C2.
  assert (NO : n_ok n). { apply pow2_n; auto; [lia|]. unfold reg_small in N32. change (2 ^ 32) with 4294967296 in N32. change (2 ^ 64) with 18446744073709551616. lia. }
  destruct (fields_make n l) as [fs| | | |] eqn:FM; try discriminate. cbn [obind] in H. injection H as <-.
  destruct (fields_make_inv n l fs N32 FM) as [F1 F2]. destruct (write_mask_spec x86 n l NO X N32 F1) as [m' [M1 [M2 M3]]].
  assert (m' = m) by congruence. subst m'. cbn. repeat split; auto; apply M2.
Qed.
(** A field whose position <<= handles. *)
Lemma field_make_spec : forall n f x, size_ok n -> reg_small n -> fd_ok n f -> pos_ok n (f_low f) -> field_make n f = Done x ->
  fl_def x = f /\ qok (fl_mask x) n /\ (8 <= length (q_buf (fl_mask x)))%nat /\ (forall i, bit (q_buf (fl_mask x)) i = in_fd f i)
  /\ qfresh (fl_not x) n /\ forall i, qbit (fl_not x) i = (i <? 8 * N.of_nat n) && negb (in_fd f i).
Proof.
  intros n f x S N32 F P H. destruct (field_mask_spec n f S N32 F P) as [m [M1 [M2 [M3 M4]]]]. unfold field_make in H. rewrite M1 in H.
  cbn [obind] in H. destruct (q_not_spec m n M2 S) as [r [R1 [R2 R3]]]. rewrite R1 in H. cbn [lift obind] in H.
  repeat match type of H with (if ?c then _ else _) = _ => destruct c; [discriminate|] end. injection H as <-. cbn [fl_def fl_mask fl_not].
  split; [auto|]. split; [auto|]. split; [auto|]. split; [auto|]. split; [auto|]. intros i. rewrite R3, (qbit_buf m n) by auto. rewrite M4.
  destruct (i <? 8 * N.of_nat n); auto.
Qed.
(** <<= never fails for amounts below the size, even where its result is wrong. *)
Lemma q_shl_in_total : forall z n k, qok z n -> size_ok n -> k < 8 * N.of_nat n -> k < 2 ^ 32 ->
  exists m, q_shl_in z k = Some m /\ qok m n /\ length (q_buf m) = length (q_buf z)
    /\ forall i, 8 * N.of_nat n <= i -> bit (q_buf m) i = bit (q_buf z) i.
Proof.
  intros z n k Z2 S K K32. unfold q_shl_in. destruct Z2 as [Z21 [Z22 Z23]]. rewrite (N.mod_small k) by lia.
  assert (VL : length (q_view z) = n) by (unfold q_view; rewrite Z21, firstn_length; lia).
  assert (VW : wok 8 (q_view z)) by (unfold q_view; auto with wokdb).
  assert (R : exists r, rb_shl_in (q_view z) k = Some r /\ length r = n /\ wok 8 r).
  { destruct (Nat.le_gt_cases n 8) as [L8|G8].
    - rewrite C34_shl_assign_partial by (rewrite VL; auto). pose proof (C34_shift_left_partial (q_view z) k VW) as C.
      rewrite VL in C. specialize (C S). destruct (rb_shl (q_view z) k); [|lia]. destruct C as [C1 [C2 _]]. eauto.
    - unfold rb_shl_in. rewrite VL. destruct (big_not_small _ G8) as [SM ->]. rewrite SM. destruct S as [S|[_ M]]; [congruence|]. rewrite M. cbn [Nat.eqb negb].
      eexists. split; [reflexivity|]. pose proof (Nat.div_mod n 8 ltac:(discriminate)) as DM. rewrite M in DM.
      assert (WW : forall ws, wok 64 ws -> wok 64 (shl_micro ws k)).
      { intros ws. unfold shl_micro. destruct (k mod 64 =? 0) eqn:R; auto. destruct (length ws <=? N.to_nat (k / 64))%nat; auto.
        intros W. apply Forall_rev. apply Forall_rev in W. revert W. generalize (rev ws). intros u W.
        assert (U : forall x, u64 x < 2 ^ 64) by (intros; apply N.mod_lt; discriminate).
        induction W as [|a u A W IH]; cbn [shl_loop]; constructor; auto. apply small_testbit. intros i I. rewrite N.lor_spec.
        rewrite (testbit_small _ 64) by (auto). cbn [orb]. destruct u as [|y u]; [apply N.bits_0|].
        rewrite N.shiftr_spec', N.land_spec. rewrite (testbit_small y 64); auto. inversion W; auto. lia. }
      assert (LM : forall ws, length (shl_micro ws k) = length ws).
      { intros ws. unfold shl_micro. destruct (k mod 64 =? 0); auto. destruct (length ws <=? N.to_nat (k / 64))%nat; auto.
        rewrite rev_length. rewrite <- (rev_length ws). generalize (rev ws). intros u. induction u; cbn [shl_loop length]; auto. }
      assert (CW : forall d fuel ws s, wok 64 ws -> wok 64 (shl_copy ws d s fuel)).
      { intros d fuel. induction fuel; intros ws s W; cbn [shl_copy]; auto. destruct (Nat.ltb_spec (s + d) (length ws)); auto. apply IHfuel.
        assert (WS : forall u i x, wok 64 u -> x < 2 ^ 64 -> wok 64 (wset u i x)).
        { intros u i x U X. unfold wset. apply Forall_app. split; [apply wok_firstn; auto|constructor; auto; apply wok_skipn; auto]. }
        apply WS; [apply WS; auto; apply wok_nth; auto|reflexivity]. }
      destruct (words_spec (n / 8) (q_view z)) as [W1 [W2 W3]]; [lia|auto|].
      assert (WF : wok 64 (words_shl_in (words (n / 8) (q_view z)) k)).
      { unfold words_shl_in. apply WW. destruct (0 <? N.to_nat (k / 64))%nat; auto. }
      destruct (unwords_spec _ WF) as [U1 [U2 U3]]. split; [|auto]. rewrite U1. unfold words_shl_in. rewrite LM.
      destruct (0 <? N.to_nat (k / 64))%nat; rewrite ?copy_len, W1; lia. }
  destruct R as [r [R1 [R2 R3]]]. rewrite R1. cbn [option_map]. eexists. split; [reflexivity|]. unfold qok. cbn [q_n q_buf]. rewrite Z21.
  split; [split; [auto|]; rewrite app_length; split; [lia|auto with wokdb]|]. split; [rewrite app_length, skipn_length; lia|].
  intros i I. rewrite bit_app by auto with wokdb. rewrite R2. destruct (N.ltb_spec i (8 * N.of_nat n)); [lia|]. rewrite bit_skipn by auto. f_equal. lia.
Qed.
Lemma field_mask_total : forall n f, size_ok n -> reg_small n -> fd_ok n f -> exists m, field_mask n f = Done m /\ qok m n.
Proof.
  intros n f S N32 F. unfold field_mask. destruct F as [F1 [F2 F3]]. unfold reg_small in N32. change (2 ^ 64) with 18446744073709551616. change (2 ^ 32) with 4294967296 in *.
  rewrite (N.mod_small (f_high f)) by lia. rewrite (N.mod_small (f_low f)) by lia.
  replace (f_high f + 4294967296 - f_low f + 1) with (f_high f - f_low f + 1 + 1 * 4294967296) by lia.
  rewrite N.mod_add by discriminate. rewrite (N.mod_small (f_high f - f_low f + 1)) by lia. set (w := f_high f - f_low f + 1).
  replace (64 + 18446744073709551616 - w) with (64 - w + 1 * 18446744073709551616) by (unfold w; lia).
  unfold w64. change (2 ^ 64) with 18446744073709551616. rewrite N.mod_add by discriminate. rewrite (N.mod_small (64 - w)) by lia.
  destruct (N.leb_spec 64 (64 - w)); [unfold w in *; lia|].
  destruct (q_set64_zeros n (N.shiftr (18446744073709551616 - 1) (64 - w))) as [z [Z1 [Z2 [Z3 [Z4 Z5]]]]]. rewrite Z1. cbn [lift obind].
  destruct (q_shl_in_total z n (f_low f)) as [m [M1 [M2 _]]]; auto; [lia|change (2 ^ 32) with 4294967296; lia|]. rewrite M1. cbn [lift]. eauto.
Qed.
(** Every legal definition is accepted. *)
Lemma field_make_total : forall n f, size_ok n -> reg_small n -> fd_ok n f ->
  exists x, field_make n f = Done x /\ fl_def x = f /\ qok (fl_mask x) n /\ qfresh (fl_not x) n.
Proof.
  intros n f S N32 F. destruct (field_mask_total n f S N32 F) as [m [M1 M2]]. unfold field_make. rewrite M1. cbn [obind]. destruct (q_not_spec m n M2 S) as [r [R1 [R2 R3]]]. rewrite R1. cbn [lift obind].
  destruct F as [F1 [F2 F3]]. unfold reg_small in N32. change (2 ^ 32) with 4294967296 in *.
  rewrite w64_small by lia. destruct (N.ltb_spec (f_high f) (f_low f)); [lia|].
  destruct (N.leb_spec (8 * N.of_nat n) (f_low f)); [lia|]. destruct (N.leb_spec (8 * N.of_nat n) (f_high f)); [lia|].
  rewrite w64_small by lia. destruct (N.ltb_spec 64 (f_high f - f_low f + 1)); [lia|]. eexists. split; [reflexivity|]. auto.
Qed.
Lemma fields_make_total : forall n l, size_ok n -> reg_small n -> Forall (fd_ok n) l -> exists fs, fields_make n l = Done fs.
Proof.
  intros n l S N32. induction 1 as [|f l F _ IH]; cbn [fields_make]; [eauto|]. destruct (field_make_total n f S N32 F) as [x [X _]].
  rewrite X. cbn [obind]. destruct IH as [fs ->]. cbn [obind]. eauto.
Qed.

(* ---------------- the line ---------------- *)
(** The state of a register's line: bytes, a line of the size it says, the register inside it. *)
Definition rst_ok (n : nat) (off : N) (s : rst) : Prop :=
  wok 8 (l_data (s_line s)) /\ N.of_nat (length (l_data (s_line s))) = s_L s /\ s_L s < 2 ^ 64 /\ off + N.of_nat n <= s_L s.
(** Bit [j] of the line. *)
Definition lbit (s : rst) (j : N) : bool := bit (l_data (s_line s)) j.
(** From [s] to [s'] the [len] bytes at [p] took the bits [b] and the rest of the line stayed; notifications apart, nothing else
    changed. *)
Definition stored (s s' : rst) (p : N) (len : nat) (b : N -> bool) : Prop :=
  s_L s' = s_L s /\ s_debug s' = s_debug s /\ s_robs s' = s_robs s /\ s_wobs s' = s_wobs s
  /\ length (l_data (s_line s')) = length (l_data (s_line s)) /\ wok 8 (l_data (s_line s')) /\ l_dirty (s_line s') = true
  /\ forall j, lbit s' j = if (8 * p <=? j) && (j <? 8 * (p + N.of_nat len)) then b (j - 8 * p) else lbit s j.

Lemma splice_bits : forall d buf p j, wok 8 d -> wok 8 buf -> (p + length buf <= length d)%nat ->
  bit (firstn p d ++ buf ++ skipn (p + length buf) d) j =
  if (8 * N.of_nat p <=? j) && (j <? 8 * (N.of_nat p + N.of_nat (length buf))) then bit buf (j - 8 * N.of_nat p) else bit d j.
Proof.
  intros d buf p j D B L. rewrite bit_app by auto with wokdb. rewrite firstn_length, Nat.min_l by lia.
  destruct (N.ltb_spec j (8 * N.of_nat p)).
  - destruct (N.leb_spec (8 * N.of_nat p) j); [lia|]. cbn [andb]. rewrite bit_firstn by auto. destruct (N.ltb_spec j (8 * N.of_nat p)); [auto|lia].
  - destruct (N.leb_spec (8 * N.of_nat p) j); [|lia]. cbn [andb]. rewrite bit_app by auto with wokdb.
    destruct (N.ltb_spec (j - 8 * N.of_nat p) (8 * N.of_nat (length buf))), (N.ltb_spec j (8 * (N.of_nat p + N.of_nat (length buf)))); try lia; auto.
    rewrite bit_skipn by auto. f_equal. lia.
Qed.
Lemma slice_bits : forall d p s i, wok 8 d -> bit (firstn s (skipn p d)) i = (i <? 8 * N.of_nat s) && bit d (i + 8 * N.of_nat p).
Proof. intros d p s i D. rewrite bit_firstn by auto with wokdb. rewrite bit_skipn by auto. auto. Qed.

Section Acc.
Variables (n : nat) (off : N) (g : reg) (s : rst).
Hypotheses (GN : g_n g = n) (GO : g_off g = off) (OK : rst_ok n off s).

Lemma peek_done : forall size o, o + size <= N.of_nat n ->
  peek_ g s size o = Done (firstn (N.to_nat size) (skipn (N.to_nat (off + o)) (l_data (s_line s)))).
Proof.
  intros size o B. destruct OK as [W [LL [L64 IN]]]. change (2 ^ 64) with 18446744073709551616 in L64.
  unfold peek_, line_read. rewrite GO. rewrite !w64_small by (rewrite ?w64_small; lia).
  destruct (N.ltb_spec (s_L s) (off + o + size)); [lia|]. reflexivity.
Qed.
Lemma in_reg_true : forall size o, o + size <= N.of_nat n -> in_reg g size o = true.
Proof.
  intros size o B. destruct OK as [W [LL [L64 IN]]]. change (2 ^ 64) with 18446744073709551616 in L64.
  unfold in_reg. rewrite GN, w64_small by lia. apply N.leb_le. auto.
Qed.
Lemma in_reg_false : forall size o, N.of_nat n < o + size -> o + size < 2 ^ 64 -> in_reg g size o = false.
Proof.
  intros size o B C. change (2 ^ 64) with 18446744073709551616 in C. unfold in_reg. rewrite GN, w64_small by lia. apply N.leb_gt. auto.
Qed.
Lemma poke_done : forall buf o, may_write g s = true -> wok 8 buf -> o + N.of_nat (length buf) <= N.of_nat n ->
  exists s', poke_ g s buf o = Done s' /\ stored s s' (off + o) (length buf) (bit buf) /\ s_log s' = s_log s.
Proof.
  intros buf o MW WB B. destruct OK as [W [LL [L64 IN]]]. change (2 ^ 64) with 18446744073709551616 in L64.
  unfold poke_, line_write. rewrite MW, GO. cbn [negb]. rewrite !w64_small by (rewrite ?w64_small; lia).
  destruct (N.ltb_spec (s_L s) (off + o + N.of_nat (length buf))); [lia|]. cbn [obind]. eexists. split; [reflexivity|]. split; [|reflexivity].
  assert (PL : (N.to_nat (off + o) + length buf <= length (l_data (s_line s)))%nat) by lia.
  unfold stored. cbn [s_L s_debug s_robs s_wobs s_line with_line l_data l_dirty]. repeat (split; [reflexivity|]).
  split; [rewrite !app_length, firstn_length, skipn_length; lia|]. split; [auto with wokdb|]. split; [auto|].
  intros j. unfold lbit. cbn [s_line with_line l_data]. rewrite splice_bits by (auto; lia). rewrite N2Nat.id. reflexivity.
Qed.
(** The notification of a write with observers. *)
Definition wlog (s' : rst) : list note := if s_wobs s then NWrite (reg_bytes g s) (reg_bytes g s') :: s_log s else s_log s.
Lemma write_done : forall buf o, may_write g s = true -> wok 8 buf -> o + N.of_nat (length buf) <= N.of_nat n ->
  exists s', write_ g s buf o = Done s' /\ stored s s' (off + o) (length buf) (bit buf) /\ s_log s' = wlog s'.
Proof.
  intros buf o MW WB B. destruct (poke_done buf o MW WB B) as [s' [H1 [H2 H3]]]. unfold write_. rewrite MW. cbn [negb]. rewrite H1. cbn [obind].
  eexists. split; [reflexivity|]. unfold wlog. destruct (s_wobs s); [|auto]. split; [exact H2|]. cbn [s_log noted]. rewrite H3. reflexivity.
Qed.
Lemma masked_done : forall x86 l val o, size_ok n -> reg_small n -> shift_ok x86 n -> qfresh (g_mask g) n ->
  (forall i, qbit (g_mask g) i = (i <? 8 * N.of_nat n) && negb (ro_bit l i)) ->
  wok 8 val -> size_ok (length val) -> o + N.of_nat (length val) <= N.of_nat n ->
  exists b, masked x86 g s val o = Done b /\ length b = length val /\ wok 8 b
    /\ forall i, bit b i = (i <? 8 * N.of_nat (length val)) && (if ro_bit l (i + 8 * o) then lbit s (i + 8 * (off + o)) else bit val i).
Proof.
  intros x86 l val o S N32 X MF MB WV SV B. unfold masked. pose proof OK as OK'. destruct OK' as [W [LL [L64 IN]]].
  set (v := length val) in *.
  assert (VP : (0 < v)%nat). { destruct SV as [SV|[SV _]]; [apply small_cases in SV; lia|lia]. }
  unfold reg_small in N32. change (2 ^ 32) with 4294967296 in N32.
  destruct (q_shr_spec x86 (g_mask g) n (8 * o) (qfresh_ok _ _ MF) S X) as [m [M1 [M2 M3]]]; [lia|change (2 ^ 32) with 4294967296; lia|].
  rewrite M1. cbn [lift obind]. rewrite peek_done by auto. cbn [obind]. rewrite Nat2N.id.
  set (p := firstn v (skipn (N.to_nat (off + o)) (l_data (s_line s)))).
  assert (PL : length p = v). { unfold p. rewrite firstn_length, skipn_length. lia. }
  assert (PW : wok 8 p) by (unfold p; auto with wokdb).
  destruct (q_not_spec m n (qfresh_ok _ _ M2) S) as [nm [NM1 [NM2 NM3]]]. rewrite NM1. cbn [lift obind].
  pose proof (qfresh_ok _ _ NM2) as [_ [NML NMW]]. pose proof (qfresh_ok _ _ M2) as [_ [ML MW]].
  destruct (q_land (q_fresh p) nm v) as [a [A1 [A2 A3]]]; auto. { apply qfresh_ok, qfresh_mk; auto. } { lia. }
  rewrite A1. cbn [lift obind].
  destruct (q_land (q_wrap val) m v) as [c [C1 [C2 C3]]]; auto. { unfold qok, q_wrap. cbn [q_n q_buf]. auto. } { lia. }
  rewrite C1. cbn [lift obind]. pose proof (qfresh_ok _ _ C2) as [_ [CL CW]].
  destruct (q_lor a c v) as [r [R1 [R2 R3]]]; auto. { apply qfresh_ok; auto. }
  rewrite R1. cbn [lift obind]. pose proof (qfresh_ok _ _ R2) as [RN [RL RW]]. rewrite RN. rewrite Nat.ltb_irrefl.
  eexists. split; [reflexivity|]. split; [rewrite firstn_length; lia|]. split; [auto with wokdb|]. intros i.
  rewrite bit_firstn by auto. destruct (N.ltb_spec i (8 * N.of_nat v)) as [I|I]; [|auto]. cbn [andb].
  rewrite (buf_fresh_bit r v) by auto. rewrite R3. destruct (N.ltb_spec i (8 * N.of_nat v)); [|lia]. cbn [andb].
  rewrite (buf_fresh_bit c v) by auto. rewrite A3, C3, (buf_fresh_bit nm n), (buf_fresh_bit m n), NM3, M3, MB by auto.
  destruct (N.ltb_spec i (8 * N.of_nat n)); [|lia]. destruct (N.ltb_spec (i + 8 * o) (8 * N.of_nat n)); [|lia]. cbn [andb].
  assert (Q1 : qbit (q_fresh p) i = lbit s (i + 8 * (off + o))).
  { unfold qbit. rewrite view_fresh. unfold p. rewrite slice_bits by auto. rewrite N2Nat.id. destruct (N.ltb_spec i (8 * N.of_nat v)); [reflexivity|lia]. }
  assert (Q2 : qbit (q_wrap val) i = bit val i). { unfold qbit, q_view, q_wrap. cbn [q_n q_buf]. rewrite firstn_all. auto. }
  rewrite Q1, Q2. destruct (ro_bit l (i + 8 * o)); cbn [negb]; rewrite ?andb_true_r, ?andb_false_r, ?orb_false_r; auto.
Qed.
End Acc.
