(* Lemmas about RationalModel. *)
Require Import NArith Bool Lia ZifyN ZifyBool.
Require Import Verif.MathUtilsModel Verif.MathUtilsProofs Verif.MathUtilsProps Verif.RationalModel.
Open Scope N_scope.

Definition canonical (r : rational) : Prop := rd r <> 0 /\ N.gcd (rn r) (rd r) = 1.
Definition fits (w : N) (r : rational) : Prop := rn r < 2 ^ w /\ rd r < 2 ^ w.

Lemma gcdW_correct w u v : w = 32 \/ w = 64 -> u < 2 ^ w -> v < 2 ^ w -> gcdW w u v = Some (N.gcd u v).
Proof. intros [-> | ->]; [apply C30_gcd32|apply C30_gcd64]. Qed.

Lemma lcmW_correct w u v : w = 32 \/ w = 64 -> u < 2 ^ w -> v < 2 ^ w -> (u <> 0 \/ v <> 0) ->
  N.lcm u v < 2 ^ w -> lcmW w u v = Some (N.lcm u v).
Proof. intros [-> | ->]; [apply C30_lcm32|apply C30_lcm64]. Qed.

Lemma gcd_div a b : b <> 0 -> N.gcd (a / N.gcd a b) (b / N.gcd a b) = 1.
Proof.
  intros Hb. apply N.gcd_div_gcd; [|reflexivity]. intros E. apply N.gcd_eq_0_r in E. contradiction.
Qed.

Lemma mk_correct w n d : w = 32 \/ w = 64 -> d <> 0 -> n < 2 ^ w -> d < 2 ^ w ->
  exists r, mk w n d = Some r /\ canonical r /\ fits w r /\ rn r * d = n * rd r.
Proof.
  intros Hw Hd Hn Hdw. unfold mk. rewrite (proj2 (N.eqb_neq _ _) Hd). unfold simplify. cbn [rn rd].
  rewrite (proj2 (N.eqb_neq _ _) Hd).
  assert (H1w : 1 < 2 ^ w) by (destruct Hw as [-> | ->]; reflexivity).
  destruct (N.eqb_spec n 0) as [->|Hn0].
  { eexists. split; [reflexivity|]. unfold canonical, fits. cbn [rn rd]. repeat split; auto; try lia.
    all: try (rewrite N.gcd_1_r; reflexivity). }
  rewrite gcdW_correct by assumption.
  assert (Hg0 : N.gcd n d <> 0) by (intros E; apply N.gcd_eq_0_r in E; contradiction).
  destruct (N.ltb_spec 1 (N.gcd n d)) as [Hg|Hg].
  - eexists. split; [reflexivity|]. unfold canonical, fits. cbn [rn rd].
    pose proof (gcd_div n d Hd) as G.
    destruct (N.gcd_divide_l n d) as [a Ea]. destruct (N.gcd_divide_r n d) as [b Eb].
    set (g := N.gcd n d) in *.
    assert (Ean : n / g = a) by (rewrite Ea; now apply N.div_mul).
    assert (Ebd : d / g = b) by (rewrite Eb; now apply N.div_mul).
    rewrite Ean, Ebd in *. repeat split; auto; nia.
  - eexists. split; [reflexivity|]. unfold canonical, fits. cbn [rn rd]. repeat split; auto; try lia.
Qed.

Lemma wrap_small w x : x < 2 ^ w -> wrap w x = x.
Proof. apply N.mod_small. Qed.

Lemma lcm_facts a b : a <> 0 -> b <> 0 ->
  exists p q, N.lcm a b = a * p /\ N.lcm a b = b * q /\ p <> 0 /\ q <> 0.
Proof.
  intros Ha Hb.
  destruct (N.divide_lcm_l a b) as [p Ep]. destruct (N.divide_lcm_r a b) as [q Eq].
  exists p, q. assert (N.lcm a b <> 0) by (intros E; apply N.lcm_eq_0 in E; tauto).
  repeat split; try lia; intros ->; lia.
Qed.

Lemma radd_correct w a b : w = 32 \/ w = 64 -> canonical a -> canonical b -> fits w a -> fits w b ->
  rn a * N.lcm (rd a) (rd b) + rn b * N.lcm (rd a) (rd b) < 2 ^ w ->
  N.lcm (rd a) (rd b) < 2 ^ w ->
  exists r, radd w a b = Some r /\ canonical r /\ fits w r /\
            rn r * (rd a * rd b) = (rn a * rd b + rn b * rd a) * rd r.
Proof.
  intros Hw [Ha _] [Hb _] [Fan Fad] [Fbn Fbd] Hov Hlcm. unfold radd.
  destruct (N.eqb_spec (rd a) (rd b)) as [E|E].
  - rewrite E in *. rewrite N.lcm_diag in *.
    rewrite wrap_small by nia.
    destruct (mk_correct w (rn a + rn b) (rd b)) as (r & Er & Hc & Hf & Hv); auto; [nia|].
    exists r. refine (conj Er (conj Hc (conj Hf _))).
    rewrite N.mul_assoc, Hv. lia.
  - rewrite lcmW_correct by auto.
    destruct (lcm_facts (rd a) (rd b) Ha Hb) as (p & q & Ep & Eq & Hp & Hq).
    set (m := N.lcm (rd a) (rd b)) in *.
    rewrite (wrap_small w (rn a * m)), (wrap_small w (rn b * m)) by lia.
    assert (D1 : rn a * m / rd a = rn a * p).
    { rewrite Ep. replace (rn a * (rd a * p)) with (rn a * p * rd a) by lia. now apply N.div_mul. }
    assert (D2 : rn b * m / rd b = rn b * q).
    { rewrite Eq. replace (rn b * (rd b * q)) with (rn b * q * rd b) by lia. now apply N.div_mul. }
    assert (Hs : rn a * m / rd a + rn b * m / rd b < 2 ^ w) by (rewrite D1, D2; nia).
    rewrite wrap_small by assumption. rewrite D1, D2 in *.
    destruct (mk_correct w (rn a * p + rn b * q) m) as (r & Er & Hc & Hf & Hv); auto; [nia|].
    exists r. refine (conj Er (conj Hc (conj Hf _))).
    (* rn r * m = (na p + nb q) * rd r ; m = da p = db q *)
    apply (N.mul_cancel_r _ _ (p * q)); [nia|].
    replace (rn r * (rd a * rd b) * (p * q)) with (rn r * m * (rd b * q)) by (rewrite Ep; lia).
    rewrite Hv. rewrite <- Eq.
    replace ((rn a * rd b + rn b * rd a) * rd r * (p * q))
       with ((rn a * p * (rd b * q) + rn b * q * (rd a * p)) * rd r) by lia.
    rewrite <- Ep, <- Eq. lia.
Qed.

Lemma rmul_correct w a b : w = 32 \/ w = 64 -> canonical a -> canonical b ->
  rn a * rn b < 2 ^ w -> rd a * rd b < 2 ^ w ->
  exists r, rmul w a b = Some r /\ canonical r /\ fits w r /\
            rn r * (rd a * rd b) = (rn a * rn b) * rd r.
Proof.
  intros Hw [Ha _] [Hb _] H1 H2. unfold rmul. rewrite !wrap_small by assumption.
  destruct (mk_correct w (rn a * rn b) (rd a * rd b)) as (r & Er & Hc & Hf & Hv); auto; [nia|].
  exists r. refine (conj Er (conj Hc (conj Hf Hv))).
Qed.

Lemma rdiv_correct w a b : w = 32 \/ w = 64 -> canonical a -> canonical b -> rn b <> 0 ->
  rn a * rd b < 2 ^ w -> rd a * rn b < 2 ^ w ->
  exists r, rdiv w a b = Some r /\ canonical r /\ fits w r /\
            rn r * (rd a * rn b) = (rn a * rd b) * rd r.
Proof.
  intros Hw [Ha _] [Hb _] Hb0 H1 H2. unfold rdiv. rewrite !wrap_small by assumption.
  destruct (mk_correct w (rn a * rd b) (rd a * rn b)) as (r & Er & Hc & Hf & Hv); auto; [nia|].
  exists r. refine (conj Er (conj Hc (conj Hf Hv))).
Qed.

Definition absdiff (x y : N) : N := if x <? y then y - x else x - y.

Lemma abs_usub w x y : w <> 0 -> x < 2 ^ w -> y < 2 ^ w -> absdiff x y < 2 ^ (w - 1) ->
  abs_u w (usub w x y) = absdiff x y.
Proof.
  intros Hw Hx Hy Hd. unfold usub, absdiff in *. rewrite (wrap_small w y) by assumption.
  assert (E2 : 2 ^ w = 2 * 2 ^ (w - 1)) by (rewrite <- N.pow_succ_r'; f_equal; lia).
  destruct (N.ltb_spec x y) as [H|H].
  - rewrite wrap_small by lia. rewrite abs_u_correct by lia.
    destruct (N.ltb_spec (x + (2 ^ w - y)) (2 ^ (w - 1))); lia.
  - unfold wrap. replace (x + (2 ^ w - y)) with ((x - y) + 1 * 2 ^ w) by lia.
    rewrite N.mod_add by (apply N.pow_nonzero; lia). rewrite N.mod_small by lia.
    rewrite abs_u_correct by lia. destruct (N.ltb_spec (x - y) (2 ^ (w - 1))); lia.
Qed.

Lemma absdiff_mul x y k : absdiff (x * k) (y * k) = absdiff x y * k.
Proof.
  unfold absdiff. destruct (N.ltb_spec x y), (N.ltb_spec (x * k) (y * k)); nia.
Qed.

Lemma rsub_correct w a b : w = 32 \/ w = 64 -> canonical a -> canonical b -> fits w a -> fits w b ->
  rn a * N.lcm (rd a) (rd b) < 2 ^ (w - 1) -> rn b * N.lcm (rd a) (rd b) < 2 ^ (w - 1) ->
  N.lcm (rd a) (rd b) < 2 ^ w ->
  exists r, rsub w a b = Some r /\ canonical r /\ fits w r /\
            rn r * (rd a * rd b) = absdiff (rn a * rd b) (rn b * rd a) * rd r.
Proof.
  intros Hw [Ha _] [Hb _] [Fan Fad] [Fbn Fbd] Hov1 Hov2 Hlcm. unfold rsub.
  assert (Hw0 : w <> 0) by lia.
  assert (E2 : 2 ^ w = 2 * 2 ^ (w - 1)) by (rewrite <- N.pow_succ_r'; f_equal; lia).
  assert (Hab : forall x y, x < 2 ^ (w - 1) -> y < 2 ^ (w - 1) -> absdiff x y < 2 ^ (w - 1)).
  { intros x y ? ?. unfold absdiff. destruct (x <? y); lia. }
  destruct (N.eqb_spec (rd a) (rd b)) as [E|E].
  - rewrite E in *. rewrite N.lcm_diag in *.
    rewrite abs_usub; auto; [|apply Hab; nia].
    assert (absdiff (rn a) (rn b) < 2 ^ (w - 1)) by (apply Hab; nia).
    destruct (mk_correct w (absdiff (rn a) (rn b)) (rd b)) as (r & Er & Hc & Hf & Hv); auto; [lia|].
    exists r. refine (conj Er (conj Hc (conj Hf _))).
    rewrite absdiff_mul, N.mul_assoc, Hv. lia.
  - rewrite lcmW_correct by auto.
    destruct (lcm_facts (rd a) (rd b) Ha Hb) as (p & q & Ep & Eq & Hp & Hq).
    set (m := N.lcm (rd a) (rd b)) in *.
    rewrite (wrap_small w (rn a * m)), (wrap_small w (rn b * m)) by lia.
    assert (D1 : rn a * m / rd a = rn a * p).
    { rewrite Ep. replace (rn a * (rd a * p)) with (rn a * p * rd a) by lia. now apply N.div_mul. }
    assert (D2 : rn b * m / rd b = rn b * q).
    { rewrite Eq. replace (rn b * (rd b * q)) with (rn b * q * rd b) by lia. now apply N.div_mul. }
    rewrite D1, D2. clear D1 D2.
    assert (B1 : rn a * p < 2 ^ (w - 1)) by nia.
    assert (B2 : rn b * q < 2 ^ (w - 1)) by nia.
    rewrite abs_usub; auto; try lia.
    assert (absdiff (rn a * p) (rn b * q) < 2 ^ (w - 1)) by (apply Hab; assumption).
    destruct (mk_correct w (absdiff (rn a * p) (rn b * q)) m) as (r & Er & Hc & Hf & Hv); auto; [nia|lia|].
    exists r. refine (conj Er (conj Hc (conj Hf _))).
    apply (N.mul_cancel_r _ _ (p * q)); [nia|].
    replace (rn r * (rd a * rd b) * (p * q)) with (rn r * m * (rd b * q)) by (rewrite Ep; lia).
    rewrite Hv. rewrite <- Eq.
    replace (absdiff (rn a * rd b) (rn b * rd a) * rd r * (p * q))
      with (absdiff (rn a * rd b) (rn b * rd a) * (p * q) * rd r) by lia.
    rewrite <- (absdiff_mul _ _ (p * q)).
    replace (rn a * rd b * (p * q)) with (rn a * p * m) by (rewrite Eq; lia).
    replace (rn b * rd a * (p * q)) with (rn b * q * m) by (rewrite Ep; lia).
    rewrite (absdiff_mul _ _ m). lia.
Qed.

Lemma canonical_unique a b : canonical a -> canonical b -> rn a * rd b = rn b * rd a -> a = b.
Proof.
  destruct a as [na da], b as [nb db]. unfold canonical. cbn [rn rd]. intros [Ha Ga] [Hb Gb] E.
  assert (D1 : (da | db)).
  { apply N.gauss with na; [exists nb; lia|]. now rewrite N.gcd_comm. }
  assert (D2 : (db | da)).
  { apply N.gauss with nb; [exists na; lia|]. now rewrite N.gcd_comm. }
  assert (da = db) by now apply N.divide_antisym. subst db.
  f_equal. apply N.mul_cancel_r in E; assumption.
Qed.

Lemma simplify_canonical w r : w = 32 \/ w = 64 -> canonical r -> fits w r -> simplify w r = Some r.
Proof.
  intros Hw [Hd Hg] [Fn Fd]. unfold simplify. rewrite (proj2 (N.eqb_neq _ _) Hd).
  destruct (N.eqb_spec (rn r) 0) as [E|E].
  - rewrite E, N.gcd_0_l in Hg. destruct r; cbn in *. congruence.
  - rewrite gcdW_correct, Hg by assumption. reflexivity.
Qed.

Lemma req_correct w a b : w = 32 \/ w = 64 -> canonical a -> canonical b -> fits w b ->
  exists r, req w a b = Some r /\ (r = true <-> rn a * rd b = rn b * rd a).
Proof.
  intros Hw Ha Hb Hf. unfold req. rewrite simplify_canonical by assumption.
  eexists. split; [reflexivity|]. rewrite andb_true_iff, !N.eqb_eq. split.
  - intros [-> ->]. reflexivity.
  - intros E. apply canonical_unique in E; auto. now subst.
Qed.
