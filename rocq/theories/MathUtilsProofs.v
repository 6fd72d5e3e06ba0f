(* Lemmas about MathUtilsModel. *)
Require Import NArith List Bool Lia ZifyBool ZifyN ZifyNat.
Require Import Verif.MathUtilsModel.
Import ListNotations.
Open Scope N_scope.

(* ---------- finite checks ---------- *)

Lemma N_lt_cases (P : N -> Prop) (n : nat) :
  Forall P (map N.of_nat (seq 0 n)) -> forall x, x < N.of_nat n -> P x.
Proof.
  intros H x Hx. rewrite Forall_forall in H. apply H.
  apply in_map_iff. exists (N.to_nat x). split; [lia|]. apply in_seq. lia.
Qed.

Lemma forallb_upto (f : N -> bool) (n : nat) :
  forallb f (map N.of_nat (seq 0 n)) = true -> forall x, x < N.of_nat n -> f x = true.
Proof.
  intros H x Hx. rewrite forallb_forall in H. apply H.
  apply in_map_iff. exists (N.to_nat x). split; [lia|]. apply in_seq. lia.
Qed.

(* ---------- smearing ---------- *)

Definition smeared (x s y : N) : Prop :=
  forall n, N.testbit y n = true <-> exists j, j < s /\ N.testbit x (n + j) = true.

Lemma smeared_init x : smeared x 1 x.
Proof.
  intros n. split.
  - intros H. exists 0. split; [lia|]. now rewrite N.add_0_r.
  - intros (j & Hj & H). replace j with 0 in H by lia. now rewrite N.add_0_r in H.
Qed.

Lemma smeared_step x s y : smeared x s y -> smeared x (2 * s) (smear1 y s).
Proof.
  intros H n. unfold smeared in H. unfold smear1.
  rewrite N.lor_spec, N.shiftr_spec', orb_true_iff, (H n), (H (n + s)).
  split.
  - intros [(j & Hj & Hb) | (j & Hj & Hb)].
    + exists j. split; [lia|assumption].
    + exists (s + j). split; [lia|]. now rewrite N.add_assoc.
  - intros (j & Hj & Hb). destruct (N.ltb_spec j s).
    + left. exists j. auto.
    + right. exists (j - s). split; [lia|]. rewrite <- Hb. f_equal. lia.
Qed.

Lemma smeared_full x s y : x <> 0 -> x < 2 ^ s -> smeared x s y -> y = N.ones (N.log2 x + 1).
Proof.
  intros Hx Hlt H. apply N.bits_inj. intros n. apply eq_true_iff_eq. unfold smeared in H. rewrite H.
  assert (Hl : N.log2 x < s) by (apply N.log2_lt_pow2; lia).
  split.
  - intros (j & Hj & Hb). apply N.ones_spec_low.
    assert (n + j <= N.log2 x).
    { destruct (N.le_gt_cases (n + j) (N.log2 x)); [assumption|].
      rewrite N.bits_above_log2 in Hb by assumption. discriminate. }
    lia.
  - intros Hb. assert (n < N.log2 x + 1).
    { destruct (N.lt_ge_cases n (N.log2 x + 1)); [assumption|].
      rewrite N.ones_spec_high in Hb by assumption. discriminate. }
    exists (N.log2 x - n). split; [lia|].
    replace (n + (N.log2 x - n)) with (N.log2 x) by lia.
    apply N.bit_log2. assumption.
Qed.

Lemma floor_log2_32_correct x : x <> 0 -> x < 2 ^ 32 -> floor_log2_32 x = N.log2 x.
Proof.
  intros Hx Hlt. unfold floor_log2_32.
  rewrite (proj2 (N.eqb_neq _ _) Hx). cbv zeta.
  rewrite (smeared_full x 32 (smear1 (smear1 (smear1 (smear1 (smear1 x 1) 2) 4) 8) 16)); trivial.
  2:{ change 32 with (2 * 16). apply smeared_step. change 16 with (2 * 8). apply smeared_step.
      change 8 with (2 * 4). apply smeared_step. change 4 with (2 * 2). apply smeared_step.
      change 2 with (2 * 1). apply smeared_step. apply smeared_init. }
  assert (Hl : N.log2 x < 32) by (apply N.log2_lt_pow2; lia).
  generalize dependent (N.log2 x). intros k Hk. apply N.eqb_eq. revert k Hk.
  apply (forallb_upto (fun k => nth (N.to_nat (N.shiftr (wrap 32 (wrap 64 (N.ones (k + 1) * 130329821))) 27)) lut32 0 =? k) 32).
  vm_compute. reflexivity.
Qed.

Lemma floor_log2_64_correct x : x <> 0 -> x < 2 ^ 64 -> floor_log2_64 x = N.log2 x.
Proof.
  intros Hx Hlt. unfold floor_log2_64.
  rewrite (proj2 (N.eqb_neq _ _) Hx). cbv zeta.
  rewrite (smeared_full x 64 (smear1 (smear1 (smear1 (smear1 (smear1 (smear1 x 1) 2) 4) 8) 16) 32)); trivial.
  2:{ change 64 with (2 * 32). apply smeared_step.
      change 32 with (2 * 16). apply smeared_step. change 16 with (2 * 8). apply smeared_step.
      change 8 with (2 * 4). apply smeared_step. change 4 with (2 * 2). apply smeared_step.
      change 2 with (2 * 1). apply smeared_step. apply smeared_init. }
  assert (Hl : N.log2 x < 64) by (apply N.log2_lt_pow2; lia).
  generalize dependent (N.log2 x). intros k Hk. apply N.eqb_eq. revert k Hk.
  apply (forallb_upto (fun k => nth (N.to_nat (N.shiftr (wrap 64 ((N.ones (k + 1) - N.shiftr (N.ones (k + 1)) 1) * debruijn64)) 58)) index64 0 =? k) 64).
  vm_compute. reflexivity.
Qed.

Lemma floor_log2_iter_correct fuel : forall x y,
  x <> 0 -> N.log2 x <= N.of_nat fuel -> floor_log2_iter fuel x y = y + N.log2 x.
Proof.
  induction fuel as [|f IH]; intros x y Hx Hl; cbn [floor_log2_iter].
  - lia.
  - destruct (N.eqb_spec (N.shiftr x 1) 0) as [E|E].
    + rewrite N.shiftr_eq_0_iff in E. destruct E as [E|[_ E]]; lia.
    + assert (Hs : N.log2 (N.shiftr x 1) = N.log2 x - 1) by apply N.log2_shiftr.
      assert (1 <= N.log2 x).
      { destruct (N.eq_dec (N.log2 x) 0) as [H0|]; [|lia].
        exfalso. apply E. apply N.shiftr_eq_0_iff. right. split; lia. }
      rewrite IH; [lia|assumption|lia].
Qed.

(* ---------- least significant bit ---------- *)

(* decomposition x = 2^k * (2m+1) *)
Lemma odd_part x : x <> 0 -> exists k m, x = 2 ^ k * (2 * m + 1).
Proof.
  induction x as [x IH] using (well_founded_induction N.lt_wf_0). intros Hx.
  destruct (N.odd x) eqn:Ho.
  - apply N.odd_spec in Ho. destruct Ho as [m Hm]. exists 0, m. rewrite N.pow_0_r. lia.
  - rewrite <- N.negb_even, negb_false_iff in Ho. apply N.even_spec in Ho. destruct Ho as [h Hh].
    destruct (IH h) as (k & m & E); [lia|lia|].
    exists (N.succ k), m. rewrite N.pow_succ_r'. lia.
Qed.

Lemma land_odd m n : N.land (2 * m + 1) (2 * n + 1) = 2 * N.land m n + 1.
Proof.
  apply N.bits_inj. intros i. rewrite N.land_spec.
  destruct (N.eq_dec i 0) as [->|Hi].
  - now rewrite !N.testbit_odd_0.
  - replace i with (N.succ (N.pred i)) by lia.
    rewrite !N.testbit_odd_succ by lia. now rewrite N.land_spec.
Qed.

Lemma lnot_complement m j : m < 2 ^ j -> 2 ^ j - 1 - m = N.lnot m j.
Proof.
  intros H. assert (E : m + N.lnot m j = N.ones j).
  { destruct (N.eq_dec m 0) as [->|Hm].
    - now rewrite N.lnot_0_l.
    - apply N.add_lnot_diag_low. apply N.log2_lt_pow2; lia. }
  rewrite N.ones_equiv in E. lia.
Qed.

Lemma land_neg w k m : 2 ^ k * (2 * m + 1) < 2 ^ w ->
  N.land (2 ^ k * (2 * m + 1)) (uneg w (2 ^ k * (2 * m + 1))) = 2 ^ k.
Proof.
  intros Hlt. pose proof (N.pow_nonzero 2 k ltac:(lia)) as Hk0.
  assert (Hkw : k < w).
  { apply (N.pow_lt_mono_r_iff 2); [lia|]. nia. }
  set (j := w - k - 1). assert (Ew : 2 ^ w = 2 ^ k * (2 * 2 ^ j)).
  { rewrite <- N.pow_succ_r', <- N.pow_add_r. f_equal. lia. }
  assert (Hm : m < 2 ^ j) by nia.
  unfold uneg, wrap.
  assert (E : 2 ^ w - 2 ^ k * (2 * m + 1) = 2 ^ k * (2 * (2 ^ j - 1 - m) + 1)) by nia.
  rewrite N.mod_small by lia. rewrite E.
  rewrite !(N.mul_comm (2 ^ k)), <- !N.shiftl_mul_pow2, <- N.shiftl_land, land_odd.
  rewrite (lnot_complement m j Hm).
  replace (N.land m (N.lnot m j)) with 0.
  - rewrite N.shiftl_mul_pow2. lia.
  - symmetry. destruct (N.eq_dec m 0) as [->|Hm0]; [apply N.land_0_l|].
    apply N.land_lnot_diag_low. apply N.log2_lt_pow2; lia.
Qed.

Lemma log2_lsb32_odd k m : 2 ^ k * (2 * m + 1) < 2 ^ 32 -> log2_lsb32 (2 ^ k * (2 * m + 1)) = k.
Proof.
  intros H. unfold log2_lsb32. rewrite land_neg by assumption.
  assert (Hk : k < 32).
  { apply (N.pow_lt_mono_r_iff 2); [lia|]. pose proof (N.pow_nonzero 2 k ltac:(lia)). nia. }
  clear H. apply N.eqb_eq. revert k Hk.
  apply (forallb_upto (fun k => nth (N.to_nat (N.shiftr (wrap 32 (2 ^ k * debruijn32)) 27)) index32 0 =? k) 32).
  vm_compute. reflexivity.
Qed.

Lemma log2_lsb64_odd k m : 2 ^ k * (2 * m + 1) < 2 ^ 64 -> log2_lsb64 (2 ^ k * (2 * m + 1)) = k.
Proof.
  intros H. unfold log2_lsb64. rewrite land_neg by assumption.
  assert (Hk : k < 64).
  { apply (N.pow_lt_mono_r_iff 2); [lia|]. pose proof (N.pow_nonzero 2 k ltac:(lia)). nia. }
  clear H. apply N.eqb_eq. revert k Hk.
  apply (forallb_upto (fun k => nth (N.to_nat (N.shiftr (wrap 64 (2 ^ k * debruijn64)) 58)) index64 0 =? k) 64).
  vm_compute. reflexivity.
Qed.

Lemma odd_part_bits k m :
  N.testbit (2 ^ k * (2 * m + 1)) k = true /\
  forall i, i < k -> N.testbit (2 ^ k * (2 * m + 1)) i = false.
Proof.
  rewrite N.mul_comm, <- N.shiftl_mul_pow2. split.
  - rewrite N.shiftl_spec_high' by lia. rewrite N.sub_diag. apply N.testbit_odd_0.
  - intros i Hi. now apply N.shiftl_spec_low.
Qed.

(* lsb functions that are exact on a width *)
Definition lsb_ok (w : N) (lsb : N -> N) : Prop :=
  forall k m, 2 ^ k * (2 * m + 1) < 2 ^ w -> lsb (2 ^ k * (2 * m + 1)) = k.

(* ---------- gcd ---------- *)

Lemma odd_pow2_rel_prime k u : N.odd u = true -> N.gcd u (2 ^ k) = 1.
Proof.
  intros Ho. set (g := N.gcd u (2 ^ k)).
  assert (Hgu : (g | u)) by apply N.gcd_divide_l.
  assert (Hg2 : (g | 2 ^ k)) by apply N.gcd_divide_r.
  destruct (N.eq_dec g 0) as [Hg0|Hg0].
  { apply N.gcd_eq_0_r in Hg0. now apply N.pow_nonzero in Hg0. }
  destruct (odd_part g Hg0) as (j & m & E).
  destruct (N.eq_dec j 0) as [->|Hj].
  - rewrite N.pow_0_r in E.
    (* odd divisor of 2^k is 1 *)
    clear Hgu Hg0. clearbody g. rewrite E in *. clear E. revert Hg2.
    induction k as [|k IH] using N.peano_ind; intros Hg2.
    + rewrite N.pow_0_r in Hg2. apply N.divide_1_r in Hg2. lia.
    + rewrite N.pow_succ_r' in Hg2. apply IH.
      apply N.gauss with 2; [assumption|].
      apply N.bezout_1_gcd. exists 1, m. lia.
  - exfalso. assert (H2 : (2 | u)).
    { apply N.divide_trans with g; [|assumption].
      rewrite E. exists (2 ^ (N.pred j) * (2 * m + 1)).
      replace (2 ^ j) with (2 ^ N.succ (N.pred j)) by (f_equal; lia).
      rewrite N.pow_succ_r'. lia. }
    destruct H2 as [q Hq]. apply N.odd_spec in Ho. destruct Ho as [r Hr]. lia.
Qed.

Lemma gcd_odd_pow2 u k v : N.odd u = true -> N.gcd u (2 ^ k * v) = N.gcd u v.
Proof.
  intros Ho. apply N.divide_antisym.
  - apply N.gcd_greatest; [apply N.gcd_divide_l|].
    apply N.gauss with (2 ^ k); [apply N.gcd_divide_r|].
    apply N.divide_1_r.
    rewrite <- (odd_pow2_rel_prime k u Ho).
    apply N.gcd_greatest; [|apply N.gcd_divide_r].
    apply N.divide_trans with (N.gcd u (2 ^ k * v)); apply N.gcd_divide_l.
  - apply N.gcd_greatest; [apply N.gcd_divide_l|].
    apply N.divide_mul_r. apply N.gcd_divide_r.
Qed.

Lemma gcd_sub u v : u <= v -> N.gcd u (v - u) = N.gcd u v.
Proof. intros. apply N.gcd_sub_diag_r. assumption. Qed.

Lemma size_le a b : a <= b -> N.size a <= N.size b.
Proof.
  intros H. destruct (N.eq_dec a 0) as [->|Ha]; [cbn; lia|].
  rewrite !N.size_log2 by lia. apply N.log2_le_mono in H. lia.
Qed.

Lemma size_half a : a <> 0 -> N.size (2 * a) = N.size a + 1.
Proof.
  intros H. rewrite !N.size_log2 by lia. rewrite N.log2_double by lia. lia.
Qed.

Lemma size_pow2_mul k a : a <> 0 -> N.size (2 ^ k * a) = k + N.size a.
Proof.
  intros H. rewrite !N.size_log2; [|assumption|].
  - rewrite N.mul_comm, N.log2_mul_pow2 by lia. lia.
  - pose proof (N.pow_nonzero 2 k ltac:(lia)). nia.
Qed.

Lemma shiftr_pow2_mul k a : N.shiftr (2 ^ k * a) k = a.
Proof.
  rewrite N.shiftr_div_pow2, N.mul_comm, N.div_mul; [reflexivity|].
  apply N.pow_nonzero. lia.
Qed.

Lemma gcd_loop_correct w lsb : lsb_ok w lsb -> forall fuel u k m,
  N.odd u = true -> 2 ^ k * (2 * m + 1) < 2 ^ w -> u < 2 ^ w ->
  N.size u + N.size (2 * m + 1) <= N.of_nat fuel ->
  gcd_loop lsb fuel u (2 ^ k * (2 * m + 1)) = Some (N.gcd u (2 ^ k * (2 * m + 1))).
Proof.
  intros Hl. induction fuel as [|f IH]; intros u k m Hu Hv Hw Hf.
  { exfalso. rewrite (N.size_log2 (2 * m + 1)) in Hf by lia. lia. }
  cbn [gcd_loop]. rewrite (Hl k m Hv), shiftr_pow2_mul.
  rewrite gcd_odd_pow2 by assumption.
  set (v := 2 * m + 1) in *.
  assert (Hvo : N.odd v = true) by (apply N.odd_spec; exists m; reflexivity).
  assert (Hvw : v < 2 ^ w).
  { pose proof (N.pow_nonzero 2 k ltac:(lia)). nia. }
  assert (Hg : exists a b, (if v <? u then (v, u) else (u, v)) = (a, b) /\ a <= b /\
     N.odd a = true /\ N.odd b = true /\ N.gcd u v = N.gcd a b /\ a < 2 ^ w /\ b < 2 ^ w /\
     N.size u + N.size v = N.size a + N.size b).
  { destruct (N.ltb_spec v u).
    - exists v, u. repeat split; auto; try lia. apply N.gcd_comm.
    - exists u, v. repeat split; auto; lia. }
  destruct Hg as (a & b & -> & Hab & Ha & Hb & -> & Haw & Hbw & Hs).
  rewrite Hs in Hf. clear Hs Hvo Hvw Hv Hw Hu. clearbody v. clear u m k v.
  destruct (N.eqb_spec (b - a) 0) as [E|E].
  - assert (a = b) by lia. subst b. now rewrite N.gcd_diag.
  - rewrite <- (gcd_sub a b Hab).
    destruct (odd_part (b - a) E) as (k & m & Em). rewrite Em. apply IH; auto.
    + rewrite <- Em. lia.
    + (* b - a is even so k >= 1 *)
      assert (Hk : k <> 0).
      { intros ->. rewrite N.pow_0_r in Em. apply N.odd_spec in Ha, Hb.
        destruct Ha as [a' ->], Hb as [b' ->]. lia. }
      assert (Hsz : N.size (b - a) = k + N.size (2 * m + 1)) by (rewrite Em; apply size_pow2_mul; lia).
      assert (N.size (b - a) <= N.size b) by (apply size_le; lia).
      lia.
Qed.

Lemma size_nat_size u : N.of_nat (N.size_nat u) = N.size u.
Proof. destruct u as [|p]; [reflexivity|]. cbn. induction p; cbn [Pos.size_nat Pos.size]; lia. Qed.

Lemma gcd_w_correct w lsb u v : lsb_ok w lsb -> u < 2 ^ w -> v < 2 ^ w ->
  gcd_w w lsb u v = Some (N.gcd u v).
Proof.
  intros Hl Hu Hv. unfold gcd_w.
  destruct (N.eqb_spec u 0) as [->|Hu0]; cbn [orb].
  { now rewrite N.lor_0_l, N.gcd_0_l. }
  destruct (N.eqb_spec v 0) as [->|Hv0]; cbn [orb].
  { now rewrite N.lor_0_r, N.gcd_0_r. }
  destruct (odd_part u Hu0) as (ku & mu & Eu).
  destruct (odd_part v Hv0) as (kv & mv & Ev).
  set (s := N.min ku kv).
  (* lowest bit of the union *)
  assert (Hs : lsb (N.lor u v) = s).
  { assert (Hor0 : N.lor u v <> 0).
    { intros E. apply N.lor_eq_0_iff in E. tauto. }
    destruct (odd_part (N.lor u v) Hor0) as (k & m & E).
    assert (Hk : k = s).
    { destruct (odd_part_bits k m) as [B1 B2]. rewrite <- E in B1, B2.
      destruct (odd_part_bits ku mu) as [U1 U2]. rewrite <- Eu in U1, U2.
      destruct (odd_part_bits kv mv) as [V1 V2]. rewrite <- Ev in V1, V2.
      destruct (N.lt_trichotomy k s) as [H|[H|H]]; [|assumption|]; exfalso.
      - rewrite N.lor_spec, U2, V2 in B1 by lia. discriminate.
      - specialize (B2 s H). rewrite N.lor_spec in B2. apply orb_false_iff in B2.
        destruct B2 as [Ba Bb]. unfold s in *.
        destruct (N.min_spec ku kv) as [[_ Em]|[_ Em]]; rewrite Em in Ba, Bb; congruence. }
    rewrite E, <- Hk. apply Hl. rewrite <- E.
    assert (Hlg : N.log2 (N.lor u v) < w).
    { rewrite N.log2_lor. apply N.max_lub_lt; apply N.log2_lt_pow2; lia. }
    apply N.log2_lt_pow2; [lia|assumption]. }
  rewrite Hs. cbv zeta.
  assert (Hu' : N.shiftr u s = 2 ^ (ku - s) * (2 * mu + 1)).
  { rewrite Eu. replace ku with (s + (ku - s)) at 1 by lia.
    rewrite N.pow_add_r, <- N.mul_assoc. apply shiftr_pow2_mul. }
  assert (Hv' : N.shiftr v s = 2 ^ (kv - s) * (2 * mv + 1)).
  { rewrite Ev. replace kv with (s + (kv - s)) at 1 by lia.
    rewrite N.pow_add_r, <- N.mul_assoc. apply shiftr_pow2_mul. }
  assert (Hu'' : N.shiftr (N.shiftr u s) (lsb (N.shiftr u s)) = 2 * mu + 1).
  { rewrite Hu', Hl, shiftr_pow2_mul; [reflexivity|]. rewrite <- Hu'.
    rewrite N.shiftr_div_pow2. eapply N.le_lt_trans; [|exact Hu].
    apply N.div_le_upper_bound; [apply N.pow_nonzero; lia|].
    pose proof (N.pow_nonzero 2 s ltac:(lia)). nia. }
  rewrite Hu'', Hv'.
  assert (Hbu : u = 2 ^ s * (2 ^ (ku - s) * (2 * mu + 1))).
  { rewrite Eu. replace ku with (s + (ku - s)) at 1 by lia. rewrite N.pow_add_r. lia. }
  assert (Hbv : v = 2 ^ s * (2 ^ (kv - s) * (2 * mv + 1))).
  { rewrite Ev. replace kv with (s + (kv - s)) at 1 by lia. rewrite N.pow_add_r. lia. }
  pose proof (N.pow_nonzero 2 s ltac:(lia)) as Hs0.
  assert (Hou : N.odd (2 * mu + 1) = true) by (apply N.odd_spec; exists mu; reflexivity).
  assert (Hov : N.odd (2 * mv + 1) = true) by (apply N.odd_spec; exists mv; reflexivity).
  assert (Hvs : 2 ^ (kv - s) * (2 * mv + 1) < 2 ^ w) by nia.
  assert (Hus : 2 * mu + 1 < 2 ^ w).
  { pose proof (N.pow_nonzero 2 (ku - s) ltac:(lia)). nia. }
  rewrite (gcd_loop_correct w lsb Hl); auto.
  2:{ rewrite Nat2N.inj_add, !size_nat_size. rewrite size_pow2_mul by lia. lia. }
  f_equal. rewrite N.shiftl_mul_pow2.
  assert (Eg : N.gcd u v = N.gcd (2 * mu + 1) (2 ^ (kv - s) * (2 * mv + 1)) * 2 ^ s).
  { rewrite Hbu at 1. rewrite Hbv at 1. rewrite N.gcd_mul_mono_l, (N.mul_comm (2 ^ s)). f_equal.
    destruct (N.eq_dec (ku - s) 0) as [E|E].
    - rewrite E, N.pow_0_r, N.mul_1_l. reflexivity.
    - assert (E' : kv - s = 0) by lia. rewrite E', N.pow_0_r, N.mul_1_l.
      rewrite N.gcd_comm, gcd_odd_pow2 by assumption. apply N.gcd_comm. }
  rewrite <- Eg. unfold wrap. apply N.mod_small.
  eapply N.le_lt_trans; [|exact Hu]. apply N.divide_pos_le; [lia|]. apply N.gcd_divide_l.
Qed.

Lemma lcm_w_correct w gcd u v :
  (forall a b, a < 2 ^ w -> b < 2 ^ w -> gcd a b = Some (N.gcd a b)) ->
  u < 2 ^ w -> v < 2 ^ w -> (u <> 0 \/ v <> 0) -> N.lcm u v < 2 ^ w ->
  lcm_w w gcd u v = Some (N.lcm u v).
Proof.
  intros Hg Hu Hv H0 Hlt. unfold lcm_w.
  destruct (N.eqb_spec u 1) as [->|]; [now rewrite N.lcm_1_l|].
  destruct (N.eqb_spec v 1) as [->|]; [now rewrite N.lcm_1_r|].
  rewrite Hg by assumption.
  assert (Hg0 : N.gcd u v <> 0).
  { intros E. apply N.gcd_eq_0 in E. lia. }
  rewrite (proj2 (N.eqb_neq _ _) Hg0). f_equal.
  assert (E : u / N.gcd u v * v = N.lcm u v).
  { unfold N.lcm. destruct (N.gcd_divide_l u v) as [a Ea]. destruct (N.gcd_divide_r u v) as [b Eb].
    set (g := N.gcd u v) in *. rewrite Ea at 1. rewrite Eb at 2. rewrite !N.div_mul by assumption.
    lia. }
  rewrite E. unfold wrap. apply N.mod_small. assumption.
Qed.

(* ---------- other functions ---------- *)

Lemma pow2_log2 x : x <> 0 -> 2 ^ N.log2 x <= x < 2 ^ N.succ (N.log2 x).
Proof. intros. apply N.log2_spec. lia. Qed.

Lemma ceil_log2_correct x : x <> 0 -> x < 2 ^ 64 -> ceil_log2 x = N.log2_up x.
Proof.
  intros Hx Hlt. unfold ceil_log2. rewrite floor_log2_64_correct by assumption.
  pose proof (pow2_log2 x Hx) as [Hlo Hhi].
  rewrite N.shiftl_1_l. unfold wrap. rewrite N.mod_small.
  2:{ eapply N.le_lt_trans; [exact Hlo|assumption]. }
  destruct (N.eqb_spec (2 ^ N.log2 x) x) as [E|E].
  - symmetry. apply N.log2_up_eqn0 || idtac.
    rewrite <- E at 1. apply N.log2_up_pow2. lia.
  - symmetry. rewrite <- N.add_1_r in *.
    apply N.log2_up_unique; [lia|].
    replace (N.pred (N.log2 x + 1)) with (N.log2 x) by lia. lia.
Qed.

Lemma is_power_of_2_correct x : x < 2 ^ 64 ->
  is_power_of_2 x = true <-> exists k, x = 2 ^ k.
Proof.
  intros Hlt. unfold is_power_of_2. rewrite andb_true_iff, negb_true_iff, N.eqb_neq, N.eqb_eq.
  split.
  - intros [Hx Hl]. destruct (odd_part x Hx) as (k & m & E). exists k. rewrite E in Hl |- *.
    destruct (N.eq_dec m 0) as [->|Hm]; [lia|]. exfalso.
    set (b := k + 1 + N.log2 m).
    assert (B1 : N.testbit (2 ^ k * (2 * m + 1)) b = true).
    { rewrite N.mul_comm, <- N.shiftl_mul_pow2. rewrite N.shiftl_spec_high' by lia.
      replace (b - k) with (N.succ (N.log2 m)) by lia.
      rewrite N.testbit_odd_succ by lia. now apply N.bit_log2. }
    assert (B2 : N.testbit (2 ^ k * (2 * m + 1) - 1) b = true).
    { replace (2 ^ k * (2 * m + 1) - 1) with ((2 * m) * 2 ^ k + N.ones k)
        by (rewrite N.ones_equiv; pose proof (N.pow_nonzero 2 k ltac:(lia)); nia).
      rewrite <- N.shiftl_mul_pow2.
      rewrite <- N.lxor_lor, N.add_nocarry_lxor || idtac.
      1: rewrite N.add_nocarry_lxor.
      1: rewrite N.lxor_spec, N.ones_spec_high by lia.
      1: rewrite N.shiftl_spec_high' by lia.
      1: replace (b - k) with (N.succ (N.log2 m)) by lia.
      1: rewrite N.testbit_even_succ by lia.
      1: rewrite N.bit_log2 by assumption; reflexivity.
      all: apply N.bits_inj; intros i; rewrite N.land_spec, N.bits_0;
        destruct (N.lt_ge_cases i k);
        [rewrite N.shiftl_spec_low by assumption; reflexivity
        |rewrite N.ones_spec_high by assumption; apply andb_false_r]. }
    assert (B : N.testbit (N.land (2 ^ k * (2 * m + 1)) (2 ^ k * (2 * m + 1) - 1)) b = true)
      by (rewrite N.land_spec, B1, B2; reflexivity).
    rewrite Hl, N.bits_0 in B. discriminate.
  - intros [k ->]. split; [apply N.pow_nonzero; lia|].
    replace (2 ^ k - 1) with (N.ones k) by (rewrite N.ones_equiv; lia).
    rewrite N.land_ones. apply N.mod_same. apply N.pow_nonzero. lia.
Qed.

Lemma next_power_of_2_correct v : v <= 2 ^ 63 ->
  next_power_of_2 v = Some (2 ^ (N.log2_up v)).
Proof.
  intros Hv. unfold next_power_of_2.
  destruct (N.ltb_spec v 2) as [H|H].
  { assert (E : v = 0 \/ v = 1) by lia. destruct E as [-> | ->]; reflexivity. }
  assert (Hl : N.log2 (v - 1) < 63) by (apply N.log2_lt_pow2; lia).
  unfold clzll.
  replace (64 - (63 - N.log2 (v - 1))) with (N.succ (N.log2 (v - 1))) by lia.
  cbv zeta. destruct (N.leb_spec 64 (N.succ (N.log2 (v - 1)))) as [H1|H1]; [lia|].
  f_equal. rewrite N.shiftl_1_l. unfold wrap. rewrite N.mod_small.
  2:{ apply N.pow_lt_mono_r; lia. }
  f_equal. rewrite N.log2_up_eqn by lia. f_equal. f_equal. lia.
Qed.

Lemma abs_u_correct w x : w <> 0 -> x < 2 ^ w ->
  abs_u w x = if x <? 2 ^ (w - 1) then x else 2 ^ w - x.
Proof.
  intros Hw Hx. unfold abs_u. cbv zeta.
  assert (E2 : 2 ^ w = 2 * 2 ^ (w - 1)).
  { rewrite <- N.pow_succ_r'. f_equal. lia. }
  destruct (N.ltb_spec x (2 ^ (w - 1))) as [H|H].
  - assert (B : N.testbit x (w - 1) = false).
    { destruct (N.eq_dec x 0) as [->|Hx0]; [apply N.bits_0|].
      apply N.bits_above_log2. apply N.log2_lt_pow2; lia. }
    rewrite B, N.add_0_r, N.lxor_0_r. unfold wrap. now apply N.mod_small.
  - assert (B : N.testbit x (w - 1) = true).
    { assert (Hl : N.log2 x = w - 1).
      { apply N.log2_unique; [lia|]. replace (N.succ (w - 1)) with w by lia. lia. }
      rewrite <- Hl. apply N.bit_log2. pose proof (N.pow_nonzero 2 (w - 1) ltac:(lia)). lia. }
    rewrite B. unfold wrap. rewrite N.ones_equiv.
    assert (Hx0 : x <> 0) by (pose proof (N.pow_nonzero 2 (w - 1) ltac:(lia)); lia).
    replace (x + N.pred (2 ^ w)) with ((x - 1) + 1 * 2 ^ w) by lia.
    rewrite N.mod_add by (apply N.pow_nonzero; lia). rewrite N.mod_small by lia.
    rewrite <- N.ones_equiv. change (N.lxor (x - 1) (N.ones w)) with (N.lnot (x - 1) w).
    rewrite <- lnot_complement by lia. lia.
Qed.

Lemma safe_power_loop_exact w n : n <> 0 -> forall k r,
  r <> 0 -> r * n ^ N.of_nat k < 2 ^ w ->
  safe_power_loop w n k r = Some (r * n ^ N.of_nat k).
Proof.
  intros Hn. induction k as [|k IH]; intros r Hr H; cbn [safe_power_loop].
  - cbn. now rewrite N.mul_1_r.
  - rewrite Nat2N.inj_succ, N.pow_succ_r' in H |- *.
    assert (Hp : n ^ N.of_nat k <> 0) by now apply N.pow_nonzero.
    assert (Hrn : r * n < 2 ^ w) by nia.
    unfold wrap. rewrite N.mod_small by assumption. cbv zeta.
    destruct (N.ltb_spec (r * n) r); [nia|].
    rewrite IH; [f_equal; lia|nia|nia].
Qed.

Lemma safe_power_loop_zero w k : safe_power_loop w 0 k 0 = Some 0.
Proof.
  induction k as [|k IH]; cbn [safe_power_loop]; [reflexivity|].
  unfold wrap. rewrite N.mul_0_l, N.mod_0_l by (apply N.pow_nonzero; lia).
  cbn. exact IH.
Qed.

Lemma safe_power_exact w n e : n ^ e < 2 ^ w -> safe_power w n e = Some (n ^ e).
Proof.
  intros H. unfold safe_power. destruct (N.eqb_spec e 0) as [->|He]; [reflexivity|].
  destruct (N.eq_dec n 0) as [->|Hn].
  - rewrite safe_power_loop_zero, N.pow_0_l by assumption. reflexivity.
  - assert (E : n ^ e = n * n ^ N.of_nat (N.to_nat (e - 1))).
    { rewrite <- N.pow_succ_r'. f_equal. lia. }
    rewrite E in *. apply safe_power_loop_exact; assumption.
Qed.
