(** Little-endian words as one integer: a vocabulary for specifications (no code of /repo is modelled here). *)
From Coq Require Import List NArith ZArith Arith Bool Lia.
Import ListNotations.
Open Scope N_scope.

(** The integer whose base-2^w digits are [l], least significant first. *)
Definition wval (w : N) (l : list N) : N := fold_right (fun a acc => a + 2 ^ w * acc) 0 l.
(** Digits in range. *)
Definition wok (w : N) (l : list N) : Prop := Forall (fun a => a < 2 ^ w) l.

Lemma testbit_small : forall a w n, a < 2 ^ w -> w <= n -> N.testbit a n = false.
Proof.
  intros a w n H L. destruct (N.eq_dec a 0) as [->|NZ]; [apply N.bits_0|].
  apply N.bits_above_log2. apply N.log2_lt_pow2; [lia|]. apply N.lt_le_trans with (2 ^ w); auto. apply N.pow_le_mono_r; lia.
Qed.
Lemma small_testbit : forall a w, (forall n, w <= n -> N.testbit a n = false) -> a < 2 ^ w.
Proof.
  intros a w H. destruct (N.eq_dec a 0) as [->|NZ]; [apply N.neq_0_lt_0, N.pow_nonzero; discriminate|].
  apply N.log2_lt_pow2; [lia|]. destruct (N.lt_ge_cases (N.log2 a) w) as [L|L]; auto.
  specialize (H _ L). rewrite N.bit_log2 in H by auto. discriminate.
Qed.
Lemma testbit_add_mul : forall a w b n, a < 2 ^ w ->
  N.testbit (a + 2 ^ w * b) n = if n <? w then N.testbit a n else N.testbit b (n - w).
Proof.
  intros a w b n H. destruct (N.ltb_spec n w) as [L|L].
  - rewrite <- (N.mod_pow2_bits_low _ w n L). rewrite N.mul_comm, N.mod_add by (apply N.pow_nonzero; discriminate).
    rewrite N.mod_small; auto.
  - replace n with (n - w + w) at 1 by lia. rewrite <- N.div_pow2_bits.
    rewrite N.mul_comm, N.div_add by (apply N.pow_nonzero; discriminate). rewrite N.div_small, N.add_0_l; auto.
Qed.
(** Bit n of the integer is bit n mod w of word n / w. *)
Lemma wval_bit : forall w l n, w <> 0 -> wok w l ->
  N.testbit (wval w l) n = N.testbit (nth (N.to_nat (n / w)) l 0) (n mod w).
Proof.
  intros w l n W. revert n. induction l as [|a l IH]; intros n H; cbn [wval fold_right].
  - rewrite N.bits_0. destruct (N.to_nat (n / w)); cbn [nth]; now rewrite N.bits_0.
  - inversion H as [|? ? H1 H2]; subst. fold (wval w l). rewrite testbit_add_mul by auto. destruct (N.ltb_spec n w) as [L|L].
    + rewrite N.div_small, N.mod_small by auto. reflexivity.
    + rewrite IH by auto. replace n with ((n - w) + 1 * w) at 3 4 by lia. rewrite N.div_add, N.mod_add by auto.
      rewrite N2Nat.inj_add. rewrite Nat.add_comm. reflexivity.
Qed.
Lemma wok_nth : forall w l i, wok w l -> nth i l 0 < 2 ^ w.
Proof.
  intros w l i H. destruct (Nat.lt_ge_cases i (length l)).
  - apply (proj1 (Forall_forall _ _) H). apply nth_In. auto.
  - rewrite nth_overflow by auto. apply N.neq_0_lt_0, N.pow_nonzero; discriminate.
Qed.
Lemma wval_lt : forall w l, wok w l -> wval w l < 2 ^ (w * N.of_nat (length l)).
Proof.
  intros w l. induction 1 as [|a l H1 H2 IH]; cbn [wval fold_right length]; [rewrite N.mul_0_r; reflexivity|].
  fold (wval w l). rewrite Nat2N.inj_succ, N.mul_succ_r, N.add_comm, N.pow_add_r.
  assert (2 ^ w * (wval w l + 1) <= 2 ^ w * 2 ^ (w * N.of_nat (length l))) by (apply N.mul_le_mono_l; lia). lia.
Qed.
Lemma wval_inj : forall w l l', wok w l -> wok w l' -> length l = length l' -> wval w l = wval w l' -> l = l'.
Proof.
  intros w l l' H. revert l'. induction H as [|a l H1 H2 IH]; intros [|b l'] K L E; try discriminate; [auto|].
  inversion K as [|? ? K1 K2]; subst. cbn [wval fold_right] in E. fold (wval w l) in E. fold (wval w l') in E.
  assert (P : 2 ^ w <> 0) by (apply N.pow_nonzero; discriminate).
  assert (a = b).
  { rewrite <- (N.mod_small a (2 ^ w)), <- (N.mod_small b (2 ^ w)) by auto.
    rewrite <- (N.mod_add a (wval w l) (2 ^ w)), <- (N.mod_add b (wval w l') (2 ^ w)) by auto.
    rewrite (N.mul_comm (wval w l)), (N.mul_comm (wval w l')). rewrite E. auto. }
  subst b. f_equal. apply IH; auto. assert (M : 2 ^ w * wval w l = 2 ^ w * wval w l') by lia.
  apply N.mul_cancel_l in M; auto.
Qed.
(** Splitting and joining. *)
Lemma wval_app : forall w a b, wval w (a ++ b) = wval w a + 2 ^ (w * N.of_nat (length a)) * wval w b.
Proof.
  intros w a b. induction a as [|x a IH]; cbn [wval fold_right app length].
  { change (N.of_nat 0) with 0. rewrite N.mul_0_r, N.pow_0_r, N.mul_1_l, N.add_0_l. reflexivity. }
  fold (wval w (a ++ b)). fold (wval w a). rewrite IH, Nat2N.inj_succ, N.mul_succ_r, (N.add_comm (w * _) w), N.pow_add_r. ring.
Qed.
(** Two integers below 2^(w*n) are equal if their bits agree below. *)
Lemma word_eq : forall w n a b, w <> 0 -> a < 2 ^ (w * N.of_nat n) -> b < 2 ^ (w * N.of_nat n) ->
  (forall i j, (i < n)%nat -> j < w -> N.testbit a (w * N.of_nat i + j) = N.testbit b (w * N.of_nat i + j)) -> a = b.
Proof.
  intros w n a b W A B H. apply N.bits_inj. intros k.
  destruct (N.lt_ge_cases k (w * N.of_nat n)) as [L|L].
  - pose proof (N.div_mod k w W) as DM. pose proof (N.mod_lt k w W) as ML.
    assert (k / w < N.of_nat n) by (apply N.div_lt_upper_bound; auto).
    specialize (H (N.to_nat (k / w)) (k mod w) ltac:(lia) ML). rewrite N2Nat.id, <- DM in H. auto.
  - rewrite (testbit_small a _ k A L), (testbit_small b _ k B L). auto.
Qed.
Lemma div_wi : forall w i j, w <> 0 -> j < w -> (w * N.of_nat i + j) / w = N.of_nat i.
Proof. intros. rewrite (N.mul_comm w), N.div_add_l, N.div_small by auto. lia. Qed.
Lemma mod_wi : forall w i j, w <> 0 -> j < w -> (w * N.of_nat i + j) mod w = j.
Proof. intros. rewrite (N.mul_comm w), N.add_comm, N.mod_add, N.mod_small; auto. Qed.
Lemma wval_bit_wi : forall w l i j, w <> 0 -> wok w l -> j < w ->
  N.testbit (wval w l) (w * N.of_nat i + j) = N.testbit (nth i l 0) j.
Proof. intros. rewrite wval_bit, div_wi, mod_wi, Nat2N.id by auto. auto. Qed.
Lemma wok_of_nth : forall w l, (forall i, (i < length l)%nat -> nth i l 0 < 2 ^ w) -> wok w l.
Proof.
  intros w l H. apply Forall_forall. intros x Hx. destruct (In_nth l x 0 Hx) as [i [Hi <-]]. auto.
Qed.

(** Word-wise descriptions of shifts. *)
Lemma wval_shl : forall w l r k, w <> 0 -> wok w l -> wok w r -> length r = length l ->
  (forall i j, (i < length l)%nat -> j < w -> N.testbit (nth i r 0) j =
     if j <? k mod w
     then (if (N.to_nat (k / w) <? i)%nat then N.testbit (nth (i - N.to_nat (k / w) - 1) l 0) (j + w - k mod w) else false)
     else (if (N.to_nat (k / w) <=? i)%nat then N.testbit (nth (i - N.to_nat (k / w)) l 0) (j - k mod w) else false)) ->
  wval w r = N.shiftl (wval w l) k mod 2 ^ (w * N.of_nat (length l)).
Proof.
  intros w l r k W HL HR EL H. pose proof (N.div_mod k w W) as DM. pose proof (N.mod_lt k w W) as ML.
  set (q := k / w) in *. set (b := k mod w) in *.
  apply (word_eq w (length l)); auto.
  - rewrite <- EL. apply wval_lt. auto.
  - apply N.mod_lt, N.pow_nonzero. discriminate.
  - intros i j Hi Hj. rewrite wval_bit_wi by auto. rewrite H by auto.
    assert (LT : w * N.of_nat i + j < w * N.of_nat (length l)) by nia.
    rewrite N.mod_pow2_bits_low by auto.
    destruct (N.ltb_spec j b) as [L|L].
    + destruct (Nat.ltb_spec (N.to_nat q) i) as [L2|L2].
      * rewrite N.shiftl_spec_high' by nia.
        replace (w * N.of_nat i + j - k) with (w * N.of_nat (i - N.to_nat q - 1) + (j + w - b)).
        2:{ replace (N.of_nat (i - N.to_nat q - 1)) with (N.of_nat i - q - 1) by lia. nia. }
        rewrite wval_bit_wi by (auto; lia). auto.
      * rewrite N.shiftl_spec_low by nia. auto.
    + destruct (Nat.leb_spec (N.to_nat q) i) as [L2|L2].
      * rewrite N.shiftl_spec_high' by nia.
        replace (w * N.of_nat i + j - k) with (w * N.of_nat (i - N.to_nat q) + (j - b)).
        2:{ replace (N.of_nat (i - N.to_nat q)) with (N.of_nat i - q) by lia. nia. }
        rewrite wval_bit_wi by (auto; lia). auto.
      * rewrite N.shiftl_spec_low by nia. auto.
Qed.
Lemma wval_shr : forall w l r k, w <> 0 -> wok w l -> wok w r -> length r = length l ->
  (forall i j, (i < length l)%nat -> j < w -> N.testbit (nth i r 0) j =
     if j + k mod w <? w then N.testbit (nth (i + N.to_nat (k / w)) l 0) (j + k mod w)
     else N.testbit (nth (i + N.to_nat (k / w) + 1) l 0) (j + k mod w - w)) ->
  wval w r = N.shiftr (wval w l) k.
Proof.
  intros w l r k W HL HR EL H. pose proof (N.div_mod k w W) as DM. pose proof (N.mod_lt k w W) as ML.
  set (q := k / w) in *. set (b := k mod w) in *.
  apply (word_eq w (length l)); auto.
  - rewrite <- EL. apply wval_lt. auto.
  - apply N.le_lt_trans with (wval w l); [|apply wval_lt; auto]. rewrite N.shiftr_div_pow2.
    apply N.div_le_upper_bound; [apply N.pow_nonzero; discriminate|].
    assert (2 ^ k <> 0) by (apply N.pow_nonzero; discriminate). nia.
  - intros i j Hi Hj. rewrite wval_bit_wi by auto. rewrite H by auto. rewrite N.shiftr_spec'.
    destruct (N.ltb_spec (j + b) w) as [L|L].
    + replace (w * N.of_nat i + j + k) with (w * N.of_nat (i + N.to_nat q) + (j + b)).
      2:{ replace (N.of_nat (i + N.to_nat q)) with (N.of_nat i + q) by lia. nia. }
      rewrite wval_bit_wi by auto. auto.
    + replace (w * N.of_nat i + j + k) with (w * N.of_nat (i + N.to_nat q + 1) + (j + b - w)).
      2:{ replace (N.of_nat (i + N.to_nat q + 1)) with (N.of_nat i + q + 1) by lia. nia. }
      rewrite wval_bit_wi by (auto; lia). auto.
Qed.
Lemma wval_bitwise : forall w l l' r (f : N -> N -> N) g, w <> 0 -> wok w l -> wok w l' -> wok w r ->
  length l' = length l -> length r = length l ->
  (forall a b n, N.testbit (f a b) n = g (N.testbit a n) (N.testbit b n)) -> g false false = false ->
  (forall i, (i < length l)%nat -> nth i r 0 = f (nth i l 0) (nth i l' 0)) ->
  wval w r = f (wval w l) (wval w l').
Proof.
  intros w l l' r f g W HL HL' HR E1 E2 HF G0 H. apply (word_eq w (length l)); auto.
  - rewrite <- E2. apply wval_lt. auto.
  - apply small_testbit. intros n Hn. rewrite HF.
    rewrite (testbit_small (wval w l) _ n (wval_lt w l HL) Hn).
    pose proof (wval_lt w l' HL') as K. rewrite E1 in K. rewrite (testbit_small _ _ n K Hn). auto.
  - intros i j Hi Hj. rewrite HF, !wval_bit_wi by auto. rewrite H, HF by auto. auto.
Qed.
Lemma wval_compl : forall w l r, w <> 0 -> wok w l -> length r = length l ->
  (forall i, (i < length l)%nat -> nth i r 0 = 2 ^ w - 1 - nth i l 0) ->
  wval w r = 2 ^ (w * N.of_nat (length l)) - 1 - wval w l.
Proof.
  intros w l. induction l as [|a l IH]; intros r W HL E H; destruct r as [|b r]; try discriminate.
  { cbn [length]. change (N.of_nat 0) with 0. rewrite N.mul_0_r. reflexivity. }
  inversion HL as [|? ? H1 H2]; subst. cbn [wval fold_right length]. fold (wval w l). fold (wval w r).
  rewrite (IH r) by (auto; intros i Hi; apply (H (S i)); cbn [length]; lia).
  pose proof (H 0%nat ltac:(cbn [length]; lia)) as H0. cbn [nth] in H0. subst b.
  pose proof (wval_lt w l H2) as LT. rewrite Nat2N.inj_succ, N.mul_succ_r, (N.add_comm (w * _) w), N.pow_add_r.
  assert (M : 2 ^ w * (wval w l + 1) <= 2 ^ w * 2 ^ (w * N.of_nat (length l))) by (apply N.mul_le_mono_l; lia).
  rewrite !N.mul_sub_distr_l, N.mul_1_r. lia.
Qed.
