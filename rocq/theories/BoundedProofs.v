(** Lemmas about integers with bounds. *)
From Coq Require Import ZArith Bool List Lia.
From Verif Require Import LayoutModel StorageModel BoundedModel.
Import ListNotations.
Open Scope Z_scope.

(** The integer types of 8, 16, 32 and 64 bits. *)
Definition real (t : ity) : Prop := wd t = 8 \/ wd t = 16 \/ wd t = 32 \/ wd t = 64.
(** x is a value of type t. *)
Definition has (t : ity) (x : Z) : Prop := lo t <= x <= hi t.
(** The value is within the bounds, and the bounds are values of the type. *)
Definition inv (T : ity) (b : bv) : Prop := lo T <= lower b /\ lower b <= val b <= upper b /\ upper b <= hi T.
Definition with_val (b : bv) (x : Z) : bv := mkBv x (lower b) (upper b).

Lemma real_pow : forall t, real t -> 2 ^ wd t = 2 * 2 ^ (wd t - 1) /\ 0 < 2 ^ (wd t - 1).
Proof.
  intros t R. unfold real in R. split; [|apply Z.pow_pos_nonneg; lia].
  rewrite <- Z.pow_succ_r by lia. f_equal. lia.
Qed.

Lemma has_cast : forall t x, real t -> has t x -> cast t x = x.
Proof.
  intros t x R H. destruct (real_pow t R) as [P Q]. unfold has, lo, hi in H. unfold cast. destruct (sg t).
  - rewrite Z.mod_small; lia.
  - apply Z.mod_small; lia.
Qed.

Lemma cast_has : forall t x, real t -> has t (cast t x).
Proof.
  intros t x R. destruct (real_pow t R) as [P Q]. unfold has, lo, hi, cast. destruct (sg t).
  - pose proof (Z.mod_pos_bound (x + 2 ^ (wd t - 1)) (2 ^ wd t)). lia.
  - pose proof (Z.mod_pos_bound x (2 ^ wd t)). lia.
Qed.

Lemma cast_cong : forall t x y, real t -> x mod 2 ^ wd t = y mod 2 ^ wd t -> cast t x = cast t y.
Proof.
  intros t x y R E. unfold cast. destruct (sg t); auto.
  f_equal. rewrite Zplus_mod, E, <- Zplus_mod. reflexivity.
Qed.

Lemma mod_pow_le : forall x a b, 0 <= a -> a <= b -> (x mod 2 ^ b) mod 2 ^ a = x mod 2 ^ a.
Proof.
  intros x a b A B. assert (P : 0 < 2 ^ a) by (apply Z.pow_pos_nonneg; lia).
  assert (Q : 0 < 2 ^ b) by (apply Z.pow_pos_nonneg; lia).
  symmetry. rewrite (Z.div_mod x (2 ^ b)) at 1 by lia.
  replace (2 ^ b) with (2 ^ (b - a) * 2 ^ a) at 1 by (rewrite <- Z.pow_add_r by lia; f_equal; lia).
  rewrite Z.add_comm. replace (2 ^ (b - a) * 2 ^ a * (x / 2 ^ b)) with ((2 ^ (b - a) * (x / 2 ^ b)) * 2 ^ a) by ring.
  rewrite Z.mod_add by lia. reflexivity.
Qed.

Ltac types T U R S :=
  destruct T as [[|] n1], U as [[|] n2]; unfold real in R, S; cbn [wd] in R, S;
  destruct R as [R|[R|[R|R]]], S as [S|[S|[S|S]]]; subst.

Lemma common_real : forall T U, real T -> real U -> real (common T U) /\ wd T <= wd (common T U) /\ wd U <= wd (common T U).
Proof. intros T U R S. types T U R S; vm_compute; intuition congruence. Qed.

Lemma common_signed : forall T U, real T -> real U -> sg (common T U) = true ->
  lo (common T U) <= lo T /\ hi T <= hi (common T U) /\ lo (common T U) <= lo U /\ hi U <= hi (common T U).
Proof. intros T U R S. types T U R S; vm_compute; intuition congruence. Qed.

Lemma prom_ge : forall T, real T -> lo (prom T) <= lo T /\ hi T <= hi (prom T) /\ hi (prom T) < 2 ^ 64 /\ real (prom T).
Proof.
  intros T R. destruct T as [[|] n1]; unfold real in R; cbn [wd] in R; destruct R as [R|[R|[R|R]]]; subst; vm_compute; intuition congruence.
Qed.

Lemma prom_unsigned : forall T, real T -> sg (prom T) = false -> prom T = T /\ sg T = false.
Proof.
  intros T R. destruct T as [[|] n1]; unfold real in R; cbn [wd] in R; destruct R as [R|[R|[R|R]]]; subst; vm_compute; intuition congruence.
Qed.

(** The plain += and -= are exact whenever the result is a value of T. *)
Lemma store_any : forall T U b u x y z, real T -> real U -> has T (val b) -> has U u -> has T z ->
  (x = val b) -> (y = u \/ y = - u) -> z = x + y ->
  (forall c, c = common T U ->
   obind (arith c (cast c x + (if Z.eqb y u then cast c u else - cast c u)))
         (fun r => Done (mkBv (cast T r) (lower b) (upper b))) = Done (with_val b z)).
Proof.
  intros T U b u x y z R S A B C X Y Z0 c Ec.
  destruct (common_real T U R S) as [K [K1 K2]]. rewrite <- Ec in K, K1, K2.
  destruct (sg c) eqn:G.
  - pose proof (common_signed T U R S) as Q. rewrite <- Ec in Q. specialize (Q G). unfold has in A, B, C.
    rewrite (has_cast c x K) by (unfold has; lia). rewrite (has_cast c u K) by (unfold has; lia).
    assert (E : x + (if Z.eqb y u then u else - u) = z).
    { destruct (Z.eqb_spec y u); lia. }
    rewrite E. unfold arith. rewrite G.
    replace ((lo c <=? z) && (z <=? hi c)) with true
      by (symmetry; apply andb_true_intro; split; apply Z.leb_le; lia).
    cbn [obind]. rewrite has_cast by (auto; unfold has; lia). reflexivity.
  - unfold arith. rewrite G. cbn [obind]. unfold with_val. do 2 f_equal.
    rewrite <- (has_cast T z R C). apply cast_cong; auto. rewrite mod_pow_le by (try lia; unfold real in R; lia).
    assert (D : forall p, (cast c p) mod 2 ^ wd c = p mod 2 ^ wd c).
    { intros p. unfold cast. rewrite G. apply Z.mod_mod. pose proof (real_pow c K). lia. }
    assert (W : 0 <= wd T) by (unfold real in R; lia).
    rewrite <- (mod_pow_le _ (wd T) (wd c) W K1). rewrite <- (mod_pow_le z (wd T) (wd c) W K1). f_equal.
    destruct (Z.eqb_spec y u).
    + rewrite Zplus_mod, !D, <- Zplus_mod. f_equal. lia.
    + replace (cast c x + - cast c u) with (cast c x - cast c u) by lia.
      rewrite Zminus_mod, !D, <- Zminus_mod. f_equal. lia.
Qed.

Lemma store_add_ok : forall T U b u, real T -> real U -> has T (val b) -> has U u -> has T (val b + u) ->
  store_add T U b u = Done (with_val b (val b + u)).
Proof.
  intros T U b u R S A B C. pose proof (store_any T U b u (val b) u _ R S A B C eq_refl (or_introl eq_refl) eq_refl _ eq_refl) as H.
  rewrite Z.eqb_refl in H. exact H.
Qed.

Lemma store_sub_ok : forall T U b u, real T -> real U -> has T (val b) -> has U u -> has T (val b - u) ->
  store_sub T U b u = Done (with_val b (val b - u)).
Proof.
  intros T U b u R S A B C.
  pose proof (store_any T U b u (val b) (- u) (val b - u) R S A B C eq_refl (or_intror eq_refl) ltac:(lia) _ eq_refl) as H.
  unfold store_sub. rewrite <- H. destruct (Z.eqb_spec (- u) u); [|reflexivity].
  assert (u = 0) by lia. subst u. unfold Z.sub.
  assert (Z0 : forall c, real c -> cast c 0 = 0).
  { intros c K. apply has_cast; auto. destruct (real_pow c K). unfold has, lo, hi. destruct (sg c); lia. }
  rewrite Z0; [reflexivity|]. apply common_real; auto.
Qed.

(** The gap to a bound, computed in the promoted type: exact, or undefined when it does not fit. *)
Lemma gap : forall T g, real T -> 0 <= g -> (sg T = false -> g <= hi T) ->
  arith (prom T) g = if g <=? hi (prom T) then Done g else Undefined.
Proof.
  intros T g R G N. destruct (prom_ge T R) as [L [H [_ K]]]. unfold arith. destruct (sg (prom T)) eqn:E.
  - assert (L0 : lo (prom T) <= 0) by (unfold lo; rewrite E; pose proof (real_pow _ K); lia).
    replace (lo (prom T) <=? g) with true by (symmetry; apply Z.leb_le; lia). reflexivity.
  - destruct (prom_unsigned T R E) as [P Q]. rewrite P in *. specialize (N Q).
    replace (g <=? hi T) with true by (symmetry; apply Z.leb_le; lia).
    rewrite Z.mod_small; auto. unfold hi in N. rewrite Q in N. lia.
Qed.

Lemma u64_small : forall x, 0 <= x < 2 ^ 64 -> u64 x = x.
Proof. intros. apply Z.mod_small; auto. Qed.

Lemma gap_unsigned : forall T b x y, inv T b -> lower b <= x -> y <= upper b -> (sg T = false -> y - x <= hi T).
Proof. intros T b x y [A [B C]] X Y S. unfold lo in A. rewrite S in A. lia. Qed.

(** What += does, in all cases. *)
Lemma plus_cases : forall T U b u, real T -> real U -> inv T b -> has U u ->
  plus T U b u =
  if 0 <=? u
  then (if upper b - val b <=? hi (prom T)
        then (if val b + u <=? upper b then Done (with_val b (val b + u)) else Asserted) else Undefined)
  else (if val b - lower b <=? hi (prom T)
        then (if - u <=? hi (prom U)
              then (if lower b <=? val b + u then Done (with_val b (val b + u)) else Asserted) else Undefined)
        else Undefined).
Proof.
  intros T U b u R S I B. pose proof I as [I1 [I2 I3]].
  destruct (prom_ge T R) as [_ [_ [PT _]]]. destruct (prom_ge U S) as [PL [PU [PV _]]]. unfold has in B.
  unfold plus. destruct (0 <=? u) eqn:Z0.
  - apply Z.leb_le in Z0. rewrite gap; auto; [|lia|apply (gap_unsigned T b); auto; lia].
    destruct (upper b - val b <=? hi (prom T)) eqn:Z1; [|reflexivity]. apply Z.leb_le in Z1. cbn [obind].
    rewrite !u64_small by lia. replace (u <=? upper b - val b) with (val b + u <=? upper b).
    + destruct (val b + u <=? upper b) eqn:Z2; [|reflexivity]. apply Z.leb_le in Z2.
      apply store_add_ok; auto; unfold has; lia.
    + destruct (Z.leb_spec (val b + u) (upper b)), (Z.leb_spec u (upper b - val b)); auto; lia.
  - apply Z.leb_gt in Z0. rewrite gap; auto; [|lia|apply (gap_unsigned T b); auto; lia].
    destruct (val b - lower b <=? hi (prom T)) eqn:Z1; [|reflexivity]. apply Z.leb_le in Z1. cbn [obind].
    assert (N : sg U = true). { destruct (sg U) eqn:E; auto. unfold lo in B. rewrite E in B. lia. }
    rewrite gap; auto; [|lia|congruence].
    destruct (- u <=? hi (prom U)) eqn:Z2; [|reflexivity]. apply Z.leb_le in Z2. cbn [obind].
    rewrite !u64_small by lia. replace (- u <=? val b - lower b) with (lower b <=? val b + u).
    + destruct (lower b <=? val b + u) eqn:Z3; [|reflexivity]. apply Z.leb_le in Z3.
      apply store_add_ok; auto; unfold has; lia.
    + destruct (Z.leb_spec (lower b) (val b + u)), (Z.leb_spec (- u) (val b - lower b)); auto; lia.
Qed.

Lemma minus_cases : forall T U b u, real T -> real U -> inv T b -> has U u ->
  minus T U b u =
  if 0 <=? u
  then (if val b - lower b <=? hi (prom T)
        then (if lower b <=? val b - u then Done (with_val b (val b - u)) else Asserted) else Undefined)
  else (if upper b - val b <=? hi (prom T)
        then (if - u <=? hi (prom U)
              then (if val b - u <=? upper b then Done (with_val b (val b - u)) else Asserted) else Undefined)
        else Undefined).
Proof.
  intros T U b u R S I B. pose proof I as [I1 [I2 I3]].
  destruct (prom_ge T R) as [_ [_ [PT _]]]. destruct (prom_ge U S) as [PL [PU [PV _]]]. unfold has in B.
  unfold minus. destruct (0 <=? u) eqn:Z0.
  - apply Z.leb_le in Z0. rewrite gap; auto; [|lia|apply (gap_unsigned T b); auto; lia].
    destruct (val b - lower b <=? hi (prom T)) eqn:Z1; [|reflexivity]. apply Z.leb_le in Z1. cbn [obind].
    rewrite !u64_small by lia. replace (u <=? val b - lower b) with (lower b <=? val b - u).
    + destruct (lower b <=? val b - u) eqn:Z2; [|reflexivity]. apply Z.leb_le in Z2.
      apply store_sub_ok; auto; unfold has; lia.
    + destruct (Z.leb_spec (lower b) (val b - u)), (Z.leb_spec u (val b - lower b)); auto; lia.
  - apply Z.leb_gt in Z0. rewrite gap; auto; [|lia|apply (gap_unsigned T b); auto; lia].
    destruct (upper b - val b <=? hi (prom T)) eqn:Z1; [|reflexivity]. apply Z.leb_le in Z1. cbn [obind].
    assert (N : sg U = true). { destruct (sg U) eqn:E; auto. unfold lo in B. rewrite E in B. lia. }
    rewrite gap; auto; [|lia|congruence].
    destruct (- u <=? hi (prom U)) eqn:Z2; [|reflexivity]. apply Z.leb_le in Z2. cbn [obind].
    rewrite !u64_small by lia. replace (- u <=? upper b - val b) with (val b - u <=? upper b).
    + destruct (val b - u <=? upper b) eqn:Z3; [|reflexivity]. apply Z.leb_le in Z3.
      apply store_sub_ok; auto; unfold has; lia.
    + destruct (Z.leb_spec (val b - u) (upper b)), (Z.leb_spec (- u) (upper b - val b)); auto; lia.
Qed.

Lemma in_bounds_iff : forall b x, in_bounds b x = true <-> lower b <= x <= upper b.
Proof. intros. unfold in_bounds. rewrite andb_true_iff, !Z.leb_le. tauto. Qed.

Lemma one_step : forall T b z, real T -> inv T b -> lower b <= z <= upper b -> arith (prom T) z = Done z.
Proof.
  intros T b z R [I1 [I2 I3]] H. destruct (prom_ge T R) as [L [P [_ K]]]. unfold arith. destruct (sg (prom T)) eqn:E.
  - replace ((lo (prom T) <=? z) && (z <=? hi (prom T))) with true; auto.
    symmetry. apply andb_true_intro. split; apply Z.leb_le; lia.
  - destruct (prom_unsigned T R E) as [Q Q1]. rewrite Q. rewrite Z.mod_small; auto. unfold lo, hi in *. rewrite Q1 in *. lia.
Qed.

Lemma inc_cases : forall T b, real T -> inv T b ->
  inc T b = if val b + 1 <=? upper b then Done (with_val b (val b + 1)) else Asserted.
Proof.
  intros T b R I. pose proof I as [I1 [I2 I3]]. unfold inc.
  destruct (Z.ltb_spec (val b) (upper b)), (Z.leb_spec (val b + 1) (upper b)); try lia; auto.
  rewrite (one_step T b) by (auto; lia). cbn [obind].
  rewrite (proj2 (in_bounds_iff b (val b + 1))) by lia. rewrite has_cast; auto. unfold has; lia.
Qed.

Lemma dec_cases : forall T b, real T -> inv T b ->
  dec T b = if lower b <=? val b - 1 then Done (with_val b (val b - 1)) else Asserted.
Proof.
  intros T b R I. pose proof I as [I1 [I2 I3]]. unfold dec.
  destruct (Z.ltb_spec (lower b) (val b)), (Z.leb_spec (lower b) (val b - 1)); try lia; auto.
  rewrite (one_step T b) by (auto; lia). cbn [obind].
  rewrite (proj2 (in_bounds_iff b (val b - 1))) by lia. rewrite has_cast; auto. unfold has; lia.
Qed.

Lemma assign_cases : forall T b u, real T -> inv T b ->
  assign T b u = if in_bounds b u then Done (with_val b u) else Asserted.
Proof.
  intros T b u R [I1 [I2 I3]]. unfold assign. destruct (in_bounds b u) eqn:E; auto.
  apply in_bounds_iff in E. rewrite has_cast; auto. unfold has; lia.
Qed.
