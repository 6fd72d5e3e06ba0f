(** C33: BitArray operations are those of an n-byte integer. *)
From Coq Require Import List NArith ZArith Arith Bool Lia.
From Verif Require Import Words BitArrayModel.
Import ListNotations.
Open Scope N_scope.

Lemma slide_len : forall f l, length (slide f 0 l) = length l.
Proof. induction l; cbn [slide length]; auto. Qed.
Lemma slide_nth : forall f l i, (i < length l)%nat -> nth i (slide f 0 l) 0 = f (nth i l 0) (nth (S i) l 0).
Proof.
  intros f. induction l as [|x l IH]; intros i H; cbn [length] in H; [lia|]. cbn [slide]. destruct i as [|i].
  - destruct l; reflexivity.
  - change (nth (S i) (?a :: ?b) 0) with (nth i b 0). cbn [nth]. rewrite IH by lia. reflexivity.
Qed.
Lemma nth_skipn : forall {A} (l : list A) k i d, nth i (skipn k l) d = nth (k + i) l d.
Proof. induction l; intros k i d; destruct k; cbn [skipn Nat.add nth]; auto. destruct i; auto. Qed.
Lemma nth_firstn : forall {A} (l : list A) k i d, (i < k)%nat -> nth i (firstn k l) d = nth i l d.
Proof. induction l; intros k i d H; destruct k; cbn [firstn]; try lia; auto. destruct i; cbn [nth]; auto. apply IHl. lia. Qed.
Lemma nth_repeat0 : forall k i, nth i (repeat 0 k) 0 = 0.
Proof. induction k; destruct i; cbn; auto. Qed.

Lemma shl_words_spec : forall l k, match shl_words l k with
  | Some r => (k <= length l)%nat /\ length r = length l /\ forall i, (i < length l)%nat -> nth i r 0 = if (i <? k)%nat then 0 else nth (i - k) l 0
  | None => (length l < k)%nat
  end.
Proof.
  intros l k. unfold shl_words. destruct (Nat.ltb_spec (length l) k); [auto|]. split; [auto|].
  assert (E : skipn k (skipn (length l - k) l ++ firstn (length l - k) l) = firstn (length l - k) l).
  { rewrite skipn_app, skipn_all2, skipn_length by (rewrite skipn_length; lia).
    replace (k - (length l - (length l - k)))%nat with 0%nat by lia. reflexivity. }
  rewrite E. split.
  - rewrite app_length, repeat_length, firstn_length. lia.
  - intros i Hi. destruct (Nat.ltb_spec i k).
    + rewrite app_nth1 by (rewrite repeat_length; auto). apply nth_repeat0.
    + rewrite app_nth2, repeat_length by (rewrite repeat_length; auto). apply nth_firstn. lia.
Qed.
Lemma shr_words_spec : forall l k, match shr_words l k with
  | Some r => (k <= length l)%nat /\ length r = length l /\ forall i, nth i r 0 = nth (i + k) l 0
  | None => (length l < k)%nat
  end.
Proof.
  intros l k. unfold shr_words. destruct (Nat.ltb_spec (length l) k); [auto|]. split; [auto|].
  assert (E : firstn (length l - k) (skipn k l ++ firstn k l) = skipn k l).
  { rewrite firstn_app, skipn_length, Nat.sub_diag. cbn [firstn]. rewrite app_nil_r. apply firstn_all2. rewrite skipn_length. lia. }
  rewrite E. split.
  - rewrite app_length, repeat_length, skipn_length. lia.
  - intros i. destruct (Nat.lt_ge_cases i (length l - k)).
    + rewrite app_nth1 by (rewrite skipn_length; auto). rewrite nth_skipn. f_equal. lia.
    + rewrite app_nth2 by (rewrite skipn_length; auto). rewrite nth_repeat0, nth_overflow by lia. auto.
Qed.
Lemma shl_bits_spec : forall l b, length (shl_bits l b) = length l /\ forall i, (i < length l)%nat ->
  nth i (shl_bits l b) 0 = to_u8 (N.lor (N.shiftl (nth i l 0) b) (N.shiftr (if (i =? 0)%nat then 0 else nth (i - 1) l 0) (8 - b))).
Proof.
  intros l b. unfold shl_bits. split; [rewrite rev_length, slide_len, rev_length; auto|].
  intros i Hi. rewrite rev_nth; rewrite ?slide_len, ?rev_length; [|auto].
  rewrite slide_nth by (rewrite rev_length; lia). rewrite rev_nth by lia. f_equal. f_equal.
  - f_equal. f_equal. lia.
  - f_equal. destruct (Nat.eqb_spec i 0).
    + subst. apply nth_overflow. rewrite rev_length. lia.
    + rewrite rev_nth by lia. f_equal. lia.
Qed.
Lemma to_u8_ok : forall x, to_u8 x < 2 ^ 8.
Proof. intros. apply N.mod_lt. discriminate. Qed.
Lemma to_u8_bit : forall x j, j < 8 -> N.testbit (to_u8 x) j = N.testbit x j.
Proof. intros. unfold to_u8. change 256 with (2 ^ 8). apply N.mod_pow2_bits_low. auto. Qed.
Lemma wok0 : forall w l i, wok w l -> nth i l 0 < 2 ^ w.
Proof. intros. apply wok_nth. auto. Qed.

(** << is multiplication by 2^k modulo 2^(8n), >> is division by 2^k, for every amount of at most n bytes (plus 7
    bits); larger amounts are undefined. *)
Theorem C33_shift_left_partial : forall l k, wok 8 l ->
  match ba_shl l k with
  | Some r => length r = length l /\ wok 8 r /\ wval 8 r = (wval 8 l * 2 ^ k) mod 2 ^ (8 * N.of_nat (length l))
  | None => N.of_nat (length l) < k / 8
  end.
Proof.
  intros l k HL. unfold ba_shl. pose proof (shl_words_spec l (N.to_nat (k / 8))) as K.
  destruct (shl_words l (N.to_nat (k / 8))) as [m|]; cbn [option_map]; [|lia]. destruct K as [K1 [K2 K3]].
  destruct (shl_bits_spec m (k mod 8)) as [L1 L2]. rewrite K2 in *.
  assert (OK : wok 8 (shl_bits m (k mod 8))).
  { apply wok_of_nth. intros i Hi. rewrite L2 by lia. apply to_u8_ok. }
  split; [auto|]. split; [auto|]. rewrite <- N.shiftl_mul_pow2. apply wval_shl; auto; [discriminate|].
  intros i j Hi Hj. rewrite L2 by auto. rewrite to_u8_bit, N.lor_spec by auto.
  pose proof (N.mod_lt k 8 ltac:(discriminate)) as ML. set (b := k mod 8) in *. set (q := N.to_nat (k / 8)) in *.
  assert (E1 : nth i m 0 = if (q <=? i)%nat then nth (i - q) l 0 else 0).
  { rewrite K3 by auto. destruct (Nat.ltb_spec i q), (Nat.leb_spec q i); auto; lia. }
  assert (E2 : (if (i =? 0)%nat then 0 else nth (i - 1) m 0) = if (q <? i)%nat then nth (i - q - 1) l 0 else 0).
  { destruct (Nat.eqb_spec i 0); [destruct (Nat.ltb_spec q i); [lia|auto]|]. rewrite K3 by lia.
    destruct (Nat.ltb_spec (i - 1) q), (Nat.ltb_spec q i); auto; try lia. f_equal. lia. }
  rewrite E1, E2, N.shiftr_spec'. destruct (N.ltb_spec j b) as [L|L].
  - rewrite N.shiftl_spec_low by auto. cbn [orb]. destruct (q <? i)%nat; [|apply N.bits_0]. f_equal. lia.
  - rewrite N.shiftl_spec_high' by auto.
    assert (F : N.testbit (if (q <? i)%nat then nth (i - q - 1) l 0 else 0) (j + (8 - b)) = false).
    { destruct (q <? i)%nat; [|apply N.bits_0]. apply (testbit_small _ 8); [apply wok_nth; auto|lia]. }
    rewrite F, orb_false_r. destruct (q <=? i)%nat; [auto|apply N.bits_0].
Qed.
Example C33_shift_left_ex : wok 8 [0x81; 0xFF; 0x10] /\ ba_shl [0x81; 0xFF; 0x10] 11 = Some [0; 0x08; 0xFC].
Proof. split; [repeat constructor|reflexivity]. Qed.
Print Assumptions C33_shift_left_partial.

Theorem C33_shift_right_partial : forall l k, wok 8 l ->
  match ba_shr l k with
  | Some r => length r = length l /\ wok 8 r /\ wval 8 r = wval 8 l / 2 ^ k
  | None => N.of_nat (length l) < k / 8
  end.
Proof.
  intros l k HL. unfold ba_shr. pose proof (shr_words_spec l (N.to_nat (k / 8))) as K.
  destruct (shr_words l (N.to_nat (k / 8))) as [m|]; cbn [option_map]; [|lia]. destruct K as [K1 [K2 K3]].
  unfold shr_bits. set (f := fun low high => to_u8 (N.lor (N.shiftr low (k mod 8)) (N.shiftl high (8 - k mod 8)))).
  pose proof (slide_len f m) as L1. rewrite K2 in *.
  assert (OK : wok 8 (slide f 0 m)).
  { apply wok_of_nth. intros i Hi. rewrite slide_nth by lia. apply to_u8_ok. }
  split; [auto|]. split; [auto|]. rewrite <- N.shiftr_div_pow2. apply wval_shr; auto; [discriminate|].
  intros i j Hi Hj. rewrite slide_nth by lia. unfold f. rewrite to_u8_bit, N.lor_spec by auto. rewrite !K3.
  pose proof (N.mod_lt k 8 ltac:(discriminate)) as ML. set (b := k mod 8) in *. set (q := N.to_nat (k / 8)) in *.
  rewrite N.shiftr_spec'. replace (S i + q)%nat with (i + q + 1)%nat by lia.
  destruct (N.ltb_spec (j + b) 8) as [L|L].
  - rewrite N.shiftl_spec_low by lia. apply orb_false_r.
  - rewrite (testbit_small (nth (i + q) l 0) 8 (j + b)); [|apply wok_nth; auto|auto]. cbn [orb].
    rewrite N.shiftl_spec_high' by lia. f_equal. lia.
Qed.
Example C33_shift_right_ex : wok 8 [0x81; 0xFF; 0x10] /\ ba_shr [0x81; 0xFF; 0x10] 11 = Some [0x1F; 0x02; 0].
Proof. split; [repeat constructor|reflexivity]. Qed.
Print Assumptions C33_shift_right_partial.

(** Shifting by more than n bytes: the integer result would be 0, the code computes an iterator outside the array. *)
Theorem C33_large_amount_refuted : forall l k, N.of_nat (length l) < k / 8 -> ba_shl l k = None /\ ba_shr l k = None.
Proof.
  intros l k H. unfold ba_shl, ba_shr, shl_words, shr_words.
  destruct (Nat.ltb_spec (length l) (N.to_nat (k / 8))); [|lia]. auto.
Qed.
Example C33_large_amount_ex : ba_shl [1; 2] 24 = None /\ ba_shl [1; 2] 16 = Some [0; 0] /\ ba_shl [1; 2] 23 = Some [0; 0].
Proof. repeat split; reflexivity. Qed.
Print Assumptions C33_large_amount_refuted.

Lemma zip_len : forall f a b, length (ba_zip f a b) = length a.
Proof. induction a; destruct b; cbn [ba_zip length]; auto. Qed.
Lemma zip_nth : forall f a b i, (i < length a)%nat -> (i < length b)%nat -> nth i (ba_zip f a b) 0 = f (nth i a 0) (nth i b 0).
Proof.
  induction a; destruct b; intros i H1 H2; cbn [length] in *; try lia. cbn [ba_zip]. destruct i; cbn [nth]; auto. apply IHa; lia.
Qed.
Lemma zip_firstn : forall f a b, ba_zip f a b = ba_zip f (firstn (length b) a) (firstn (length a) b) ++ skipn (length b) a.
Proof.
  induction a as [|x a IH]; intros b; destruct b as [|y b]; cbn [ba_zip length firstn skipn app]; auto.
  f_equal. apply IH.
Qed.
Lemma land_small : forall a b w, a < 2 ^ w -> N.land a b < 2 ^ w.
Proof. intros. apply small_testbit. intros n Hn. rewrite N.land_spec, (testbit_small a w n); auto. Qed.
Lemma lor_small : forall a b w, a < 2 ^ w -> b < 2 ^ w -> N.lor a b < 2 ^ w.
Proof. intros. apply small_testbit. intros n Hn. rewrite N.lor_spec, (testbit_small a w n), (testbit_small b w n); auto. Qed.

(** & and | of operands of different sizes: the left operand's size; the common bytes are combined, the remaining
    bytes of the left operand are unchanged. For equal sizes this is the operation on the integers. *)
Theorem C33_logic : forall a b, wok 8 a -> wok 8 b ->
  (length a = length b -> wval 8 (ba_and a b) = N.land (wval 8 a) (wval 8 b) /\ wval 8 (ba_or a b) = N.lor (wval 8 a) (wval 8 b))
  /\ length (ba_and a b) = length a /\ length (ba_or a b) = length a
  /\ ba_and a b = ba_and (firstn (length b) a) (firstn (length a) b) ++ skipn (length b) a
  /\ ba_or a b = ba_or (firstn (length b) a) (firstn (length a) b) ++ skipn (length b) a.
Proof.
  intros a b HA HB. split.
  - intros E. split.
    + apply (wval_bitwise 8 a b (ba_and a b) N.land andb); auto; try discriminate.
      * apply wok_of_nth. intros i Hi. unfold ba_and in *. rewrite zip_len in Hi. rewrite zip_nth by lia. apply land_small, wok_nth. auto.
      * apply zip_len.
      * apply N.land_spec.
      * intros i Hi. apply zip_nth; lia.
    + apply (wval_bitwise 8 a b (ba_or a b) N.lor orb); auto; try discriminate.
      * apply wok_of_nth. intros i Hi. unfold ba_or in *. rewrite zip_len in Hi. rewrite zip_nth by lia. apply lor_small; apply wok_nth; auto.
      * apply zip_len.
      * apply N.lor_spec.
      * intros i Hi. apply zip_nth; lia.
  - split; [apply zip_len|]. split; [apply zip_len|]. split; apply zip_firstn.
Qed.
Example C33_logic_ex : ba_and [0xF0; 0x0F; 0xFF] [0x3C; 0xFC] = [0x30; 0x0C; 0xFF] /\ ba_or [0xF0] [0x0F; 0xFC] = [0xFF].
Proof. split; reflexivity. Qed.
Print Assumptions C33_logic.

(** ~ is the complement. *)
Theorem C33_not : forall l, wok 8 l -> length (ba_not l) = length l /\ wok 8 (ba_not l)
  /\ wval 8 (ba_not l) = 2 ^ (8 * N.of_nat (length l)) - 1 - wval 8 l.
Proof.
  intros l H. assert (L : length (ba_not l) = length l) by apply map_length. split; [auto|].
  assert (K : forall i, (i < length l)%nat -> nth i (ba_not l) 0 = 2 ^ 8 - 1 - nth i l 0).
  { intros i Hi. unfold ba_not. rewrite (nth_indep _ 0 (255 - 0)) by (rewrite map_length; auto).
    rewrite (map_nth (fun x => 255 - x)). reflexivity. }
  split; [|apply wval_compl; auto; discriminate].
  apply wok_of_nth. intros i Hi. rewrite K by lia. change (2 ^ 8) with 256. lia.
Qed.
Example C33_not_ex : ba_not [0xF0; 0x01] = [0x0F; 0xFE].
Proof. reflexivity. Qed.
Print Assumptions C33_not.

(** Construction and reading back: zero-extension or truncation of the integer; getValue truncates. *)
Theorem C33_value : forall data n s, wok 8 data -> (n <> 0)%nat ->
  length (ba_make data n) = n /\ wok 8 (ba_make data n)
  /\ wval 8 (ba_make data n) = wval 8 data mod 2 ^ (8 * N.of_nat n)
  /\ ba_get s (ba_make data n) = wval 8 data mod 2 ^ (8 * N.of_nat (Nat.min s n)).
Proof.
  intros data n s H NZ. unfold ba_make. destruct (Nat.eqb_spec n 0); [lia|].
  set (r := firstn n data ++ repeat 0 (n - length data)).
  assert (L : length r = n) by (unfold r; rewrite app_length, firstn_length, repeat_length; lia).
  assert (NR : forall i, (i < n)%nat -> nth i r 0 = nth i data 0).
  { intros i Hi. unfold r. destruct (Nat.lt_ge_cases i (length data)).
    - rewrite app_nth1 by (rewrite firstn_length; lia). apply nth_firstn. auto.
    - rewrite app_nth2 by (rewrite firstn_length; lia). rewrite nth_repeat0, nth_overflow; auto. }
  assert (OK : wok 8 r) by (apply wok_of_nth; intros i Hi; rewrite NR by lia; apply wok_nth; auto).
  assert (V : forall m, (m <= n)%nat -> wval 8 (firstn m r) = wval 8 data mod 2 ^ (8 * N.of_nat m)).
  { intros m Hm. assert (LM : length (firstn m r) = m) by (rewrite firstn_length; lia).
    assert (OM : wok 8 (firstn m r)) by (apply wok_of_nth; intros i Hi; rewrite LM in Hi; rewrite nth_firstn, NR by lia; apply wok_nth; auto).
    apply (word_eq 8 m); [discriminate| | |].
    - rewrite <- LM at 2. apply wval_lt. auto.
    - apply N.mod_lt, N.pow_nonzero. discriminate.
    - intros i j Hi Hj. rewrite N.mod_pow2_bits_low by lia. rewrite !wval_bit_wi by (auto; discriminate).
      rewrite nth_firstn, NR by lia. auto. }
  split; [auto|]. split; [auto|]. split.
  - rewrite <- (V n ltac:(lia)). rewrite <- L at 1. now rewrite firstn_all.
  - assert (LE : forall l, le_value l = wval 8 l) by (induction l as [|a l IHl]; cbn [le_value wval fold_right]; [auto|rewrite IHl; reflexivity]).
    unfold ba_get. rewrite LE. rewrite <- (V (Nat.min s n) ltac:(lia)).
    destruct (Nat.le_gt_cases s n); [rewrite Nat.min_l by auto; auto|].
    rewrite Nat.min_r, (firstn_all2 (n := s)), (firstn_all2 (n := n)) by lia. auto.
Qed.
Example C33_value_ex : ba_make [1; 2; 3] 2 = [1; 2] /\ ba_make [1; 2] 4 = [1; 2; 0; 0] /\ ba_get 2 [1; 2; 3] = 513.
Proof. repeat split; reflexivity. Qed.
Print Assumptions C33_value.

(** fill: byte i of the array is byte i mod s of the value (two's complement of width 8s). *)
Theorem C33_fill : forall s v l i, (s <> 0)%nat -> (i < length l)%nat ->
  length (ba_fill s v l) = length l /\
  nth i (ba_fill s v l) 0 = (Z.to_N (v mod 2 ^ (8 * Z.of_nat s)) / 2 ^ (8 * N.of_nat (i mod s))) mod 256.
Proof.
  intros s v l i HS Hi. unfold ba_fill. split; [rewrite map_length, seq_length; auto|].
  set (f := fun i0 => Z.to_N (Z.land (Z.shiftr v (8 * Z.of_nat (i0 mod s))) 255)).
  rewrite (nth_indep _ 0 (f 0%nat)) by (rewrite map_length, seq_length; auto).
  rewrite (map_nth f (seq 0 (length l)) 0%nat i), seq_nth by auto. cbn [Nat.add]. unfold f. clear f.
  assert (B : (i mod s < s)%nat) by (apply Nat.mod_upper_bound; auto). set (m := (i mod s)%nat) in *.
  change 255%Z with (Z.ones 8). rewrite Z.land_ones by lia. rewrite Z.shiftr_div_pow2 by lia.
  assert (P1 : (0 < 2 ^ (8 * Z.of_nat s))%Z) by (apply Z.pow_pos_nonneg; lia).
  assert (P2 : (0 < 2 ^ (8 * Z.of_nat m))%Z) by (apply Z.pow_pos_nonneg; lia).
  apply N2Z.inj. pose proof (Z.mod_pos_bound v _ P1) as M1.
  rewrite N2Z.inj_mod, N2Z.inj_div, N2Z.inj_pow. rewrite !Z2N.id; [|lia|apply Z.mod_pos_bound; reflexivity].
  rewrite N2Z.inj_mul, nat_N_Z. change (Z.of_N 2) with 2%Z. change (Z.of_N 8) with 8%Z. change (Z.of_N 256) with (2 ^ 8)%Z.
  apply Z.bits_inj'. intros k Hk. destruct (Z.lt_ge_cases k 8).
  - rewrite !Z.mod_pow2_bits_low by lia. rewrite !Z.div_pow2_bits by lia. rewrite Z.mod_pow2_bits_low by lia. auto.
  - rewrite !Z.mod_pow2_bits_high by lia. auto.
Qed.
Example C33_fill_ex : ba_fill 2 (-2)%Z [0; 0; 0] = [0xFE; 0xFF; 0xFE].
Proof. reflexivity. Qed.
Print Assumptions C33_fill.

(** == compares sizes and integers. *)
Theorem C33_equal : forall a b, wok 8 a -> wok 8 b ->
  (bytes_eqb a b = true <-> length a = length b /\ wval 8 a = wval 8 b).
Proof.
  intros a b HA HB. assert (E : bytes_eqb a b = true <-> a = b).
  { clear. revert b. induction a as [|x a IH]; destruct b as [|y b]; cbn [bytes_eqb]; split; intros H; try discriminate; auto.
    - apply andb_true_iff in H. destruct H as [H1 H2]. apply N.eqb_eq in H1. apply IH in H2. congruence.
    - injection H as -> ->. rewrite N.eqb_refl. apply IH. auto. }
  rewrite E. split; [intros ->; auto|]. intros [H1 H2]. apply (wval_inj 8); auto.
Qed.
Example C33_equal_ex : bytes_eqb [1; 2] [1; 2] = true /\ bytes_eqb [1; 2] [1; 2; 0] = false.
Proof. split; reflexivity. Qed.
Print Assumptions C33_equal.

(** Copies made by the copy constructor are independent of their source, ... *)
Theorem C33_copy : forall h o from f, o <> from ->
  bah_read (bah_copy h o from) o = bah_read h from /\
  (bh_ptr h from <> o -> bah_read (bah_modify (bah_copy h o from) o f) from = bah_read h from).
Proof.
  intros h o from f NE. unfold bah_copy, bah_new, bah_read, bah_modify, upf. cbn [bh_store bh_ptr]. rewrite !Nat.eqb_refl.
  split; [auto|]. intros P. destruct (Nat.eqb_spec from o); [congruence|].
  destruct (Nat.eqb_spec (bh_ptr h from) o); [congruence|auto].
Qed.
Definition h33 : baheap := bah_new (bah_new (mkBAH (fun _ => []) (fun i => i)) 0 [1; 2]) 1 [3; 4].
Example C33_copy_ex : bah_read (bah_modify (bah_copy h33 2 1) 2 ba_not) 1 = [3; 4] /\ bh_ptr h33 1 <> 2%nat.
Proof. split; [reflexivity|discriminate]. Qed.
Print Assumptions C33_copy.

(** ... those made by assignment are not: after b = a, modifying b modifies a. *)
Theorem C33_assign_refuted : forall h o from f, o <> from -> bh_ptr h from = from ->
  let h' := bah_modify (bah_assign h o from) o f in bah_read h' from = f (bah_read h from).
Proof.
  intros h o from f NE P. cbn zeta. unfold bah_assign, bah_modify, bah_read, upf. cbn [bh_store bh_ptr]. rewrite !Nat.eqb_refl.
  destruct (Nat.eqb_spec from o); [congruence|]. rewrite P, Nat.eqb_refl.
  destruct (Nat.eqb_spec from o); [congruence|auto].
Qed.
Example C33_assign_ex : bh_ptr h33 1 = 1%nat /\ bah_read (bah_modify (bah_assign h33 0 1) 0 ba_not) 1 = [252; 251].
Proof. split; reflexivity. Qed.
Print Assumptions C33_assign_refuted.
