(* Properties C28, C29, C30: integer utilities of MathUtils.hpp. *)
Require Import NArith List Bool Lia ZifyN ZifyBool.
Require Import Verif.MathUtilsModel Verif.MathUtilsProofs.
Open Scope N_scope.

(* ---------------- C28: logarithms ---------------- *)

(* floor_log2 of a non-zero 32-bit value is the exponent of the highest power of two
   not above it. *)
Theorem C28_floor_log2_32 : forall x, 0 < x < 2 ^ 32 ->
  2 ^ floor_log2_32 x <= x < 2 ^ (floor_log2_32 x + 1).
Proof.
  intros x [H0 H]. rewrite floor_log2_32_correct by lia. rewrite N.add_1_r.
  apply N.log2_spec. assumption.
Qed.
Example C28_floor_log2_32_ex : 0 < 3000000000 < 2 ^ 32 /\ floor_log2_32 3000000000 = 31.
Proof. vm_compute. repeat split; reflexivity. Qed.
Print Assumptions C28_floor_log2_32.

Theorem C28_floor_log2_64 : forall x, 0 < x < 2 ^ 64 ->
  2 ^ floor_log2_64 x <= x < 2 ^ (floor_log2_64 x + 1).
Proof.
  intros x [H0 H]. rewrite floor_log2_64_correct by lia. rewrite N.add_1_r.
  apply N.log2_spec. assumption.
Qed.
Example C28_floor_log2_64_ex : 0 < 2 ^ 63 + 12345 < 2 ^ 64 /\ floor_log2_64 (2 ^ 63 + 12345) = 63.
Proof. vm_compute. repeat split; reflexivity. Qed.
Print Assumptions C28_floor_log2_64.

(* The generic iterative version used for all other integer types agrees, for
   every type of at most [fuel] value bits. *)
Theorem C28_floor_log2_generic : forall fuel x, 0 < x < 2 ^ N.of_nat fuel ->
  2 ^ floor_log2_iter fuel x 0 <= x < 2 ^ (floor_log2_iter fuel x 0 + 1).
Proof.
  intros fuel x [H0 H]. rewrite floor_log2_iter_correct; [|lia|].
  - rewrite N.add_0_l, N.add_1_r. apply N.log2_spec. assumption.
  - apply N.log2_lt_pow2 in H; lia.
Qed.
Example C28_floor_log2_generic_ex : 0 < 200 < 2 ^ N.of_nat 8 /\ floor_log2_iter 8 200 0 = 7.
Proof. vm_compute. repeat split; reflexivity. Qed.
Print Assumptions C28_floor_log2_generic.

(* ceil_log2 is the least exponent whose power of two reaches x. *)
Theorem C28_ceil_log2 : forall x, 0 < x < 2 ^ 64 ->
  x <= 2 ^ ceil_log2 x /\ forall k, x <= 2 ^ k -> ceil_log2 x <= k.
Proof.
  intros x [H0 H]. rewrite ceil_log2_correct by lia. split.
  - destruct (N.eq_dec x 1) as [->|]; [cbn; lia|]. apply N.log2_up_spec. lia.
  - intros k Hk. apply N.log2_up_le_pow2; assumption.
Qed.
Example C28_ceil_log2_ex : 0 < 1025 < 2 ^ 64 /\ ceil_log2 1025 = 11 /\ ceil_log2 1024 = 10.
Proof. vm_compute. repeat split; reflexivity. Qed.
Print Assumptions C28_ceil_log2.

Theorem C28_is_power_of_2 : forall x, x < 2 ^ 64 ->
  is_power_of_2 x = true <-> exists k, x = 2 ^ k.
Proof. exact is_power_of_2_correct. Qed.
Example C28_is_power_of_2_ex : is_power_of_2 4096 = true /\ is_power_of_2 4097 = false /\ is_power_of_2 0 = false.
Proof. vm_compute. repeat split; reflexivity. Qed.
Print Assumptions C28_is_power_of_2.

(* next_power_of_2 is defined whenever the result fits in 64 bits, and is then the least
   power of two that is not below v. *)
Theorem C28_next_power_of_2 : forall v, v <= 2 ^ 63 ->
  exists p, next_power_of_2 v = Some p /\ v <= p /\ (exists k, p = 2 ^ k) /\
            forall k, v <= 2 ^ k -> p <= 2 ^ k.
Proof.
  intros v Hv. exists (2 ^ N.log2_up v). rewrite next_power_of_2_correct by assumption.
  split; [reflexivity|]. split; [|split; [eexists; reflexivity|]].
  - destruct (N.le_gt_cases v 1) as [H|H].
    + assert (v = 0 \/ v = 1) as [-> | ->] by lia; cbn; lia.
    + apply N.log2_up_spec. assumption.
  - intros k Hk. apply N.pow_le_mono_r; [lia|].
    destruct (N.eq_dec v 0) as [->|]; [cbn; lia|]. apply N.log2_up_le_pow2; [lia|assumption].
Qed.
Example C28_next_power_of_2_ex : 1000 <= 2 ^ 63 /\ next_power_of_2 1000 = Some 1024 /\
  next_power_of_2 (2 ^ 63 + 1) = None.
Proof. vm_compute. repeat split; try reflexivity; discriminate. Qed.
Print Assumptions C28_next_power_of_2.

(* ---------------- C29: least significant bit ---------------- *)

Theorem C29_log2_lsb32 : forall x, 0 < x < 2 ^ 32 ->
  N.testbit x (log2_lsb32 x) = true /\ forall i, i < log2_lsb32 x -> N.testbit x i = false.
Proof.
  intros x [H0 H]. destruct (odd_part x ltac:(lia)) as (k & m & ->).
  rewrite log2_lsb32_odd by assumption. apply odd_part_bits.
Qed.
Example C29_log2_lsb32_ex : 0 < 3 * 2 ^ 20 < 2 ^ 32 /\ log2_lsb32 (3 * 2 ^ 20) = 20.
Proof. vm_compute. repeat split; reflexivity. Qed.
Print Assumptions C29_log2_lsb32.

Theorem C29_log2_lsb64 : forall x, 0 < x < 2 ^ 64 ->
  N.testbit x (log2_lsb64 x) = true /\ forall i, i < log2_lsb64 x -> N.testbit x i = false.
Proof.
  intros x [H0 H]. destruct (odd_part x ltac:(lia)) as (k & m & ->).
  rewrite log2_lsb64_odd by assumption. apply odd_part_bits.
Qed.
Example C29_log2_lsb64_ex : 0 < 5 * 2 ^ 40 < 2 ^ 64 /\ log2_lsb64 (5 * 2 ^ 40) = 40.
Proof. vm_compute. repeat split; reflexivity. Qed.
Print Assumptions C29_log2_lsb64.

(* ---------------- C30: gcd, lcm, safe_power ---------------- *)

Theorem C30_gcd32 : forall u v, u < 2 ^ 32 -> v < 2 ^ 32 ->
  gcd32 u v = Some (N.gcd u v).
Proof. intros. apply gcd_w_correct; auto. exact log2_lsb32_odd. Qed.
Example C30_gcd32_ex : 3000000000 < 2 ^ 32 /\ gcd32 3000000000 123456780 = Some 60.
Proof. vm_compute. split; reflexivity. Qed.
Print Assumptions C30_gcd32.

Theorem C30_gcd64 : forall u v, u < 2 ^ 64 -> v < 2 ^ 64 ->
  gcd64 u v = Some (N.gcd u v).
Proof. intros. apply gcd_w_correct; auto. exact log2_lsb64_odd. Qed.
Example C30_gcd64_ex : 2 ^ 63 < 2 ^ 64 /\ gcd64 (2 ^ 63) (6 ^ 20) = Some (2 ^ 20).
Proof. vm_compute. split; reflexivity. Qed.
Print Assumptions C30_gcd64.

(* lcm is exact whenever the least common multiple fits and the operands are not
   both zero (both zero divides by zero in the code). *)
Theorem C30_lcm32 : forall u v, u < 2 ^ 32 -> v < 2 ^ 32 -> (u <> 0 \/ v <> 0) ->
  N.lcm u v < 2 ^ 32 -> lcm32 u v = Some (N.lcm u v).
Proof. intros. apply lcm_w_correct; auto. exact C30_gcd32. Qed.
Example C30_lcm32_ex : N.lcm 65536 49152 < 2 ^ 32 /\ lcm32 65536 49152 = Some 196608.
Proof. vm_compute. split; reflexivity. Qed.
Print Assumptions C30_lcm32.

Theorem C30_lcm64 : forall u v, u < 2 ^ 64 -> v < 2 ^ 64 -> (u <> 0 \/ v <> 0) ->
  N.lcm u v < 2 ^ 64 -> lcm64 u v = Some (N.lcm u v).
Proof. intros. apply lcm_w_correct; auto. exact C30_gcd64. Qed.
Example C30_lcm64_ex : N.lcm (2 ^ 40) (3 * 2 ^ 39) < 2 ^ 64 /\ lcm64 (2 ^ 40) (3 * 2 ^ 39) = Some (3 * 2 ^ 40).
Proof. vm_compute. split; reflexivity. Qed.
Print Assumptions C30_lcm64.

Theorem C30_lcm_zero_refuted : exists u v, u < 2 ^ 32 /\ v < 2 ^ 32 /\ lcm32 u v = None.
Proof. exists 0, 0. vm_compute. repeat split; reflexivity. Qed.
Print Assumptions C30_lcm_zero_refuted.

(* Full claim for safe_power: it returns b^e when that fits and raises otherwise.
   Only the first half holds. *)
Theorem C30_safe_power_partial : forall w b e, b ^ e < 2 ^ w -> safe_power w b e = Some (b ^ e).
Proof. exact safe_power_exact. Qed.
Example C30_safe_power_ex : 10 ^ 9 < 2 ^ 32 /\ safe_power 32 10 9 = Some (10 ^ 9).
Proof. vm_compute. split; reflexivity. Qed.
Print Assumptions C30_safe_power_partial.

(* The overflow test compares only with the previous partial product, so 2000^3 in
   uint32_t wraps silently. *)
Theorem C30_safe_power_refuted : exists b e r,
  b < 2 ^ 32 /\ 2 ^ 32 <= b ^ e /\ safe_power 32 b e = Some r /\ r <> b ^ e.
Proof. exists 2000, 3, 3705032704. vm_compute. repeat split; try reflexivity; discriminate. Qed.
Print Assumptions C30_safe_power_refuted.

(* abs on unsigned types is the magnitude of the two's complement reading
   (used by Rational's subtraction). *)
Theorem C30_abs_unsigned : forall w x, 0 < w -> x < 2 ^ w ->
  abs_u w x = if x <? 2 ^ (w - 1) then x else 2 ^ w - x.
Proof. intros. apply abs_u_correct; [lia|assumption]. Qed.
Example C30_abs_unsigned_ex : abs_u 32 (2 ^ 32 - 7) = 7 /\ abs_u 8 100 = 100.
Proof. vm_compute. split; reflexivity. Qed.
Print Assumptions C30_abs_unsigned.
