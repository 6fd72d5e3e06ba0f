(** Doubles hold every integer of fewer than 54 bits, and sums and differences of such integers are exact. *)
From Coq Require Import ZArith Bool Lia Floats.SpecFloat.
From Verif Require Import StatInstModel.
Open Scope Z_scope.

Lemma digits_size : forall p, digits2_pos p = Pos.size p.
Proof. induction p; cbn; congruence. Qed.

Lemma size_log2 : forall p, Zpos (Pos.size p) = Z.log2 (Zpos p) + 1.
Proof. destruct p; cbn; lia. Qed.

Lemma size_shift : forall d q j, 0 <= j -> Zpos q = Zpos d * 2 ^ j -> Zpos (Pos.size q) = Zpos (Pos.size d) + j.
Proof. intros d q j J E. rewrite !size_log2, E, Z.log2_mul_pow2 by lia. lia. Qed.

Lemma size_53 : forall d, Zpos d < 2 ^ 53 -> Zpos (Pos.size d) <= 53.
Proof.
  intros d H. rewrite size_log2. assert (Z.log2 (Zpos d) < 53); [|lia]. apply Z.log2_lt_pow2; lia.
Qed.

Lemma shr_double : forall m, 0 < m -> shr_1 (Build_shr_record (2 * m) false false) = Build_shr_record m false false.
Proof. intros m H. destruct m; try lia. reflexivity. Qed.

Lemma pow_pos : forall p, 0 < 2 ^ Zpos p.
Proof. intros. apply Z.pow_pos_nonneg; lia. Qed.

Lemma iter_shr : forall n m, 0 < m ->
  iter_pos shr_1 n (Build_shr_record (m * 2 ^ Zpos n) false false) = Build_shr_record m false false.
Proof.
  induction n as [n IH|n IH|]; intros m H; cbn [iter_pos].
  - replace (m * 2 ^ Zpos n~1) with (2 * ((m * 2 ^ Zpos n) * 2 ^ Zpos n)).
    + rewrite shr_double. { rewrite IH; [apply IH; lia|]. pose proof (pow_pos n). nia. }
      pose proof (pow_pos n). nia.
    + rewrite Pos2Z.inj_xI. rewrite Z.pow_add_r by lia. rewrite Z.pow_mul_r by lia.
      replace ((2 ^ 2) ^ Zpos n) with (2 ^ Zpos n * 2 ^ Zpos n); [ring|].
      rewrite <- Z.pow_mul_r by lia. rewrite <- Z.pow_add_r by lia. f_equal. lia.
  - replace (m * 2 ^ Zpos n~0) with ((m * 2 ^ Zpos n) * 2 ^ Zpos n).
    + rewrite IH; [apply IH; lia|]. pose proof (pow_pos n). nia.
    + rewrite Pos2Z.inj_xO. rewrite <- Z.mul_assoc, <- Z.pow_add_r by lia. f_equal. f_equal. lia.
  - change (2 ^ 1) with 2. rewrite Z.mul_comm. apply shr_double; lia.
Qed.

Lemma shr_exact : forall m e n, 0 < m -> 0 <= n ->
  shr (Build_shr_record (m * 2 ^ n) false false) e n = (Build_shr_record m false false, e + n).
Proof.
  intros m e n H N. destruct n as [|n|n]; try lia.
  - cbn [shr]. rewrite Z.mul_1_r, Z.add_0_r. reflexivity.
  - cbn [shr]. rewrite iter_shr by lia. reflexivity.
Qed.

(** The one double that stands for d, whatever way it was written down. *)
Definition mant (d : positive) : positive := Z.to_pos (Zpos d * 2 ^ (53 - Zpos (Pos.size d))).
Lemma mant_eq : forall d, Zpos d < 2 ^ 53 -> Zpos (mant d) = Zpos d * 2 ^ (53 - Zpos (Pos.size d)).
Proof.
  intros d H. unfold mant. rewrite Z2Pos.id; auto. pose proof (size_53 d H).
  assert (0 < 2 ^ (53 - Zpos (Pos.size d))) by (apply Z.pow_pos_nonneg; lia). nia.
Qed.

Lemma fexp_small : forall d t, Zpos d < 2 ^ 53 -> fexp 53 1024 (Zpos (Pos.size d) + t - t) = Zpos (Pos.size d) - 53.
Proof. intros d t H. unfold fexp, emin. pose proof (size_53 d H). lia. Qed.

Lemma aux_exact : forall s d q t, Zpos d < 2 ^ 53 -> 53 - Zpos (Pos.size d) <= t -> Zpos q = Zpos d * 2 ^ t ->
  binary_round_aux 53 1024 s (Zpos q) (- t) loc_Exact = S754_finite s (mant d) (Zpos (Pos.size d) - 53).
Proof.
  intros s d q t H T E. pose proof (size_53 d H) as S. unfold binary_round_aux.
  assert (A : forall m n, 0 < m -> 0 <= n -> Zpos q = m * 2 ^ n ->
              fexp 53 1024 (Zdigits2 (Zpos q) + - t) - - t = n ->
              shr_fexp 53 1024 (Zpos q) (- t) loc_Exact = (Build_shr_record m false false, - t + n)).
  { intros m n M N Q F. unfold shr_fexp. rewrite F. cbn [shr_record_of_loc]. rewrite Q. apply shr_exact; auto. }
  pose proof (mant_eq d H) as ME. set (k := 53 - Zpos (Pos.size d)) in *.
  rewrite (A (Zpos (mant d)) (t - k)); [|lia|lia| |].
  - cbn [shr_m loc_of_shr_record round_nearest_even].
    assert (B : shr_fexp 53 1024 (Zpos (mant d)) (- t + (t - k)) loc_Exact
                = (Build_shr_record (Zpos (mant d)) false false, - t + (t - k))).
    { unfold shr_fexp. cbn [shr_record_of_loc Zdigits2]. rewrite digits_size, (size_shift d (mant d) k) by (auto; lia).
      replace (fexp 53 1024 (Zpos (Pos.size d) + k + (- t + (t - k))) - (- t + (t - k))) with 0; [reflexivity|].
      replace (Zpos (Pos.size d) + k + (- t + (t - k))) with (Zpos (Pos.size d) + k - k) by lia.
      rewrite fexp_small by auto. unfold k. lia. }
    rewrite B. cbn [shr_m]. replace (- t + (t - k)) with (Zpos (Pos.size d) - 53) by (unfold k; lia).
    destruct (Zpos (Pos.size d) - 53 <=? 1024 - 53) eqn:X; [reflexivity|]. apply Z.leb_gt in X. lia.
  - rewrite ME, E, <- Z.mul_assoc, <- Z.pow_add_r by lia. do 2 f_equal. lia.
  - cbn [Zdigits2]. rewrite digits_size, (size_shift d q t) by (auto; lia).
    replace (Zpos (Pos.size d) + t + - t) with (Zpos (Pos.size d) + t - t) by lia.
    rewrite fexp_small by auto. unfold k. lia.
Qed.

Lemma shift_pos_eq : forall p q, Zpos (shift_pos p q) = Zpos q * 2 ^ Zpos p.
Proof. intros. rewrite Zpower.shift_pos_correct, Zpower.Zpower_pos_nat, Zpower.Zpower_nat_Z, positive_nat_Z. lia. Qed.

Lemma align_eq : forall q e e', e' <= e -> Zpos (fst (shl_align q e e')) = Zpos q * 2 ^ (e - e') /\ snd (shl_align q e e') = e'.
Proof.
  intros q e e' H. unfold shl_align. destruct (e' - e) eqn:X; try lia; cbn [fst snd].
  - replace (e - e') with 0 by lia. rewrite Z.mul_1_r. split; lia.
  - rewrite shift_pos_eq. replace (e - e') with (Zpos p) by lia. auto.
Qed.

Lemma round_exact : forall s d q j, Zpos d < 2 ^ 53 -> 0 <= j -> Zpos q = Zpos d * 2 ^ j ->
  binary_round 53 1024 s q (- j) = S754_finite s (mant d) (Zpos (Pos.size d) - 53).
Proof.
  intros s d q j H J E. unfold binary_round. pose proof (size_53 d H) as S.
  rewrite digits_size, (size_shift d q j) by auto.
  replace (Zpos (Pos.size d) + j + - j) with (Zpos (Pos.size d) + j - j) by lia. rewrite fexp_small by auto.
  destruct (Z_le_gt_dec (Zpos (Pos.size d) - 53) (- j)) as [L|G].
  - destruct (align_eq q (- j) (Zpos (Pos.size d) - 53) L) as [A B].
    destruct (shl_align q (- j) (Zpos (Pos.size d) - 53)) as [mz ez]. cbn [fst snd] in A, B.
    rewrite B. replace (Zpos (Pos.size d) - 53) with (- (53 - Zpos (Pos.size d))) at 1 by lia.
    apply aux_exact; auto; [lia|]. rewrite A, E, <- Z.mul_assoc, <- Z.pow_add_r by lia. do 2 f_equal. lia.
  - assert (A : shl_align q (- j) (Zpos (Pos.size d) - 53) = (q, - j)).
    { unfold shl_align. destruct (Zpos (Pos.size d) - 53 - - j) eqn:X; auto; lia. }
    rewrite A. apply aux_exact; auto; lia.
Qed.

(** An integer of at most 53 bits, written with any power of two, is normalised to the same double. *)
Lemma normal_exact : forall z j, Z.abs z < 2 ^ 53 -> 0 <= j ->
  binary_normalize 53 1024 (z * 2 ^ j) (- j) false = of_u64 z.
Proof.
  intros z j H J. unfold of_u64.
  assert (P : 0 < 2 ^ j) by (apply Z.pow_pos_nonneg; lia).
  destruct z as [|d|d].
  - rewrite Z.mul_0_l. reflexivity.
  - destruct (Zpos d * 2 ^ j) as [|q|q] eqn:Q; try nia. cbn [binary_normalize].
    rewrite (round_exact false d q j) by (auto; lia). symmetry. apply (round_exact false d d 0); lia.
  - destruct (Zneg d * 2 ^ j) as [|q|q] eqn:Q; try nia. cbn [binary_normalize].
    rewrite (round_exact true d q j) by (auto; lia). symmetry. apply (round_exact true d d 0); lia.
Qed.

Lemma of_u64_pos : forall d, Zpos d < 2 ^ 53 -> of_u64 (Zpos d) = S754_finite false (mant d) (- (53 - Zpos (Pos.size d))).
Proof.
  intros d H. unfold of_u64. cbn [binary_normalize]. change 0 with (- 0) at 1. rewrite (round_exact false d d 0) by lia. f_equal. lia.
Qed.

Lemma aligned : forall d J, Zpos d < 2 ^ 53 -> 53 - Zpos (Pos.size d) <= J ->
  Zpos (fst (shl_align (mant d) (- (53 - Zpos (Pos.size d))) (- J))) = Zpos d * 2 ^ J.
Proof.
  intros d J H L. pose proof (size_53 d H).
  destruct (align_eq (mant d) (- (53 - Zpos (Pos.size d))) (- J)) as [A _]; [lia|].
  rewrite A, mant_eq by auto. rewrite <- Z.mul_assoc, <- Z.pow_add_r by lia. do 2 f_equal. lia.
Qed.

Lemma dsub_exact : forall a b, 0 <= a < 2 ^ 53 -> 0 <= b < 2 ^ 53 -> dsub (of_u64 a) (of_u64 b) = of_u64 (a - b).
Proof.
  intros a b A B. destruct a as [|a|a]; try lia; destruct b as [|b|b]; try lia.
  - reflexivity.
  - rewrite of_u64_pos by lia. transitivity (binary_round 53 1024 true b (- 0)); [|reflexivity].
    rewrite (round_exact true b b 0) by lia. unfold dsub. change (of_u64 0) with (S754_zero false). cbn [SFsub negb]. f_equal. lia.
  - rewrite of_u64_pos by lia. replace (Zpos a - 0) with (Zpos a) by lia. rewrite of_u64_pos by lia. reflexivity.
  - rewrite !of_u64_pos by lia. unfold dsub. cbn [SFsub].
    pose proof (size_53 a ltac:(lia)) as SA. pose proof (size_53 b ltac:(lia)) as SB.
    set (J := Z.max (53 - Zpos (Pos.size a)) (53 - Zpos (Pos.size b))).
    replace (Z.min (- (53 - Zpos (Pos.size a))) (- (53 - Zpos (Pos.size b)))) with (- J) by (unfold J; lia).
    cbn [cond_Zopp]. rewrite !aligned by (unfold J; lia). rewrite <- Z.mul_sub_distr_r. apply normal_exact; lia.
Qed.

Lemma dadd_exact : forall a b, 0 <= a -> 0 <= b -> a + b < 2 ^ 53 -> dadd (of_u64 a) (of_u64 b) = of_u64 (a + b).
Proof.
  intros a b A B C. destruct a as [|a|a]; try lia; destruct b as [|b|b]; try lia.
  - reflexivity.
  - cbn [Z.add]. rewrite of_u64_pos by lia. reflexivity.
  - replace (Zpos a + 0) with (Zpos a) by lia. rewrite of_u64_pos by lia. reflexivity.
  - rewrite !(of_u64_pos a), !(of_u64_pos b) by lia. unfold dadd. cbn [SFadd].
    pose proof (size_53 a ltac:(lia)) as SA. pose proof (size_53 b ltac:(lia)) as SB.
    set (J := Z.max (53 - Zpos (Pos.size a)) (53 - Zpos (Pos.size b))).
    replace (Z.min (- (53 - Zpos (Pos.size a))) (- (53 - Zpos (Pos.size b)))) with (- J) by (unfold J; lia).
    cbn [cond_Zopp]. rewrite !aligned by (unfold J; lia). rewrite <- Z.mul_add_distr_r. apply normal_exact; lia.
Qed.

(** Different small integers are different doubles. *)
Lemma of_u64_inj : forall a b, 0 <= a < 2 ^ 53 -> 0 <= b < 2 ^ 53 -> of_u64 a = of_u64 b -> a = b.
Proof.
  intros a b A B E. destruct a as [|a|a]; try lia; destruct b as [|b|b]; try lia.
  - rewrite of_u64_pos in E by lia. discriminate E.
  - rewrite of_u64_pos in E by lia. discriminate E.
  - rewrite !of_u64_pos in E by lia. 
    pose proof (f_equal (fun x => match x with S754_finite _ m _ => Zpos m | _ => 0 end) E) as K.
    pose proof (f_equal (fun x => match x with S754_finite _ _ e => e | _ => 0 end) E) as S. cbv beta iota in K, S.
    rewrite !mant_eq in K by lia.
    assert (T : Zpos (Pos.size a) = Zpos (Pos.size b)) by lia. rewrite T in K.
    pose proof (size_53 b ltac:(lia)). apply Z.mul_reg_r in K; auto. apply Z.pow_nonzero; lia.
Qed.
