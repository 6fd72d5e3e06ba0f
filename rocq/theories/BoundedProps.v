(** C82: bounded integers stay within their bounds. *)
From Coq Require Import ZArith Bool List Lia.
From Verif Require Import LayoutModel StorageModel BoundedModel BoundedProofs.
Import ListNotations.
Open Scope Z_scope.

(** The usual types. *)
Definition i8 := mkT true 8. Definition u8 := mkT false 8. Definition i32 := mkT true 32.
Definition u32 := mkT false 32. Definition i64 := mkT true 64. Definition u64t := mkT false 64.

(** With bounds of the type and in order, every constructor takes exactly the values within the bounds, and stores what it
    was given. *)
Theorem C82_construct : forall T U V W u v w,
  real T -> real U -> real V -> real W -> has U u -> has V v -> has W w ->
  lo T <= v -> v < w -> w <= hi T ->
  (v <= u <= w -> construct T U V W u v w = Done (mkBv u v w)) /\
  (~ v <= u <= w -> construct T U V W u v w = Asserted).
Proof.
  intros T U V W u v w RT RU RV RW HU HV HW A B C.
  assert (CV : cast T v = v) by (apply has_cast; auto; unfold has; lia).
  assert (CW : cast T w = w) by (apply has_cast; auto; unfold has; lia).
  assert (Z1 : (v <? w) = true) by (apply Z.ltb_lt; auto).
  assert (Z2 : (w <=? hi T) = true) by (apply Z.leb_le; auto).
  assert (Z3 : (lo T <=? v) = true) by (apply Z.leb_le; auto).
  unfold construct. rewrite CV, CW. split; intros K.
  - rewrite (has_cast T u) by (auto; unfold has; lia).
    rewrite (proj2 (in_bounds_iff (mkBv u v w) u) K).
    assert (O : asked_ok T U V W u v w = true); [|rewrite O; reflexivity].
    assert (Z4 : (u <=? hi T) = true) by (apply Z.leb_le; lia).
    unfold asked_ok. rewrite Z1, Z2, Z3, Z4.
    destruct (sg T) eqn:ST.
    + destruct (sg U), (sg V), (sg W); cbn; auto; destruct (v <? 0), (0 <? w), (0 <? v); reflexivity.
    + unfold lo in A. rewrite ST in A.
      assert (Z5 : (0 <=? u) = true) by (apply Z.leb_le; lia).
      assert (Z6 : (0 <=? v) = true) by (apply Z.leb_le; lia).
      assert (Z7 : (0 <=? w) = true) by (apply Z.leb_le; lia).
      rewrite Z5, Z6, Z7. destruct (sg U), (sg V), (sg W); reflexivity.
  - destruct (asked_ok T U V W u v w); auto. destruct (in_bounds (mkBv (cast T u) v w) u) eqn:E; auto.
    apply in_bounds_iff in E. cbn in E. contradiction.
Qed.
Print Assumptions C82_construct.
Example C82_construct_ex :
  construct i8 u32 i32 u8 100 (-5) 127 = Done (mkBv 100 (-5) 127) /\ construct i8 u32 i32 u8 130 (-5) 127 = Asserted.
Proof. vm_compute. auto. Qed.

(** Whatever is asked of a constructor, a bounded value that comes to be is within its bounds. *)
Theorem C82_construct_within : forall T U V W u v w b,
  real T -> construct T U V W u v w = Done b -> inv T b /\ val b = u.
Proof.
  intros T U V W u v w b R H. unfold construct in H.
  destruct (asked_ok T U V W u v w); [|discriminate H].
  destruct (in_bounds (mkBv (cast T u) (cast T v) (cast T w)) u) eqn:E; [|discriminate H].
  injection H as <-. apply in_bounds_iff in E. cbn [lower upper] in E.
  pose proof (cast_has T v R) as A. pose proof (cast_has T w R) as B. unfold has in A, B.
  assert (C : cast T u = u) by (apply has_cast; auto; unfold has; lia).
  unfold inv. cbn [val lower upper]. rewrite C. lia.
Qed.
Print Assumptions C82_construct_within.
Example C82_construct_within_ex : construct u8 i32 i64 i64 7 3 200 = Done (mkBv 7 3 200).
Proof. reflexivity. Qed.

(** An unsigned type, and a signed type given an unsigned value and signed bounds: bounds that are out of order or not of the type are
    refused, so what is stored is what was given. *)
Theorem C82_construct_strict : forall T U V W u v w b,
  real T -> has V v -> has W w ->
  sg T = false \/ (sg U = false /\ sg V = true /\ sg W = true) ->
  construct T U V W u v w = Done b -> b = mkBv u v w /\ lo T <= v /\ v < w /\ w <= hi T.
Proof.
  intros T U V W u v w b R HV HW S H.
  destruct (C82_construct_within _ _ _ _ _ _ _ _ R H) as [_ E].
  assert (K : lo T <= v /\ v < w /\ w <= hi T).
  { unfold construct in H. destruct (asked_ok T U V W u v w) eqn:A; [|discriminate H]. clear H.
    unfold asked_ok in A. unfold has, lo, hi in HV, HW. destruct S as [S|[S1 [S2 S3]]].
    - unfold lo. rewrite S in *. revert A HV HW. destruct (sg U), (sg V), (sg W); cbn [Bool.eqb andb negb]; intros A HV HW;
        rewrite ?andb_true_iff, ?Z.leb_le, ?Z.ltb_lt in A; lia.
    - rewrite S1, S2, S3 in A. revert A. unfold lo. destruct (sg T); cbn [Bool.eqb andb negb]; intros A;
        rewrite ?andb_true_iff, ?Z.leb_le, ?Z.ltb_lt in A; lia. }
  split; auto. unfold construct in H. destruct (asked_ok T U V W u v w); [|discriminate H].
  destruct (in_bounds (mkBv (cast T u) (cast T v) (cast T w)) u); [|discriminate H]. injection H as <-. cbn in E.
  rewrite E. rewrite !has_cast by (auto; unfold has; lia). reflexivity.
Qed.
Print Assumptions C82_construct_strict.
Example C82_construct_strict_ex :
  construct u8 i32 i32 i32 7 3 256 = Asserted /\ construct i8 u8 i32 i32 7 (-129) 100 = Asserted /\
  construct u32 u32 u32 u32 7 9 5 = Asserted.
Proof. vm_compute. auto. Qed.

(** The value an operation asks for. *)
Definition wanted (o : op) (x : Z) : Z :=
  match o with Assign _ u => u | Inc => x + 1 | Dec => x - 1 | Plus _ u => x + u | Minus _ u => x - u end.
(** The operand is a value of its type. *)
Definition typed (o : op) : Prop :=
  match o with Assign U u | Plus U u | Minus U u => real U /\ has U u | _ => True end.
(** The operand of += or -= can be negated. *)
Definition negatable (o : op) : Prop :=
  match o with Plus U u | Minus U u => - u <= hi (prom U) | _ => True end.
(** Plain integers with the same operations: None once a wanted value is outside [l, h]. *)
Fixpoint plain (l h : Z) (os : list op) (x : Z) : option Z :=
  match os with
  | [] => Some x
  | o :: r => let y := wanted o x in if (l <=? y) && (y <=? h) then plain l h r y else None
  end.

Lemma act_done : forall T o b b', real T -> inv T b -> typed o -> act T o b = Done b' ->
  b' = with_val b (wanted o (val b)) /\ lower b <= wanted o (val b) <= upper b.
Proof.
  intros T o b b' R I Y H. pose proof I as [I1 [I2 I3]]. destruct o as [U u| | |U u|U u]; cbn [act wanted] in *.
  - rewrite assign_cases in H by auto. destruct (in_bounds b u) eqn:E; inversion H. apply in_bounds_iff in E. auto.
  - rewrite inc_cases in H by auto. destruct (Z.leb_spec (val b + 1) (upper b)); inversion H. split; auto; lia.
  - rewrite dec_cases in H by auto. destruct (Z.leb_spec (lower b) (val b - 1)); inversion H. split; auto; lia.
  - destruct Y as [S B]. rewrite plus_cases in H by auto. destruct (Z.leb_spec 0 u).
    + destruct (_ <=? _) in H; [|discriminate H]. destruct (Z.leb_spec (val b + u) (upper b)); inversion H. split; auto; lia.
    + destruct (_ <=? _) in H; [|discriminate H]. destruct (_ <=? _) in H; [|discriminate H].
      destruct (Z.leb_spec (lower b) (val b + u)); inversion H. split; auto; lia.
  - destruct Y as [S B]. rewrite minus_cases in H by auto. destruct (Z.leb_spec 0 u).
    + destruct (_ <=? _) in H; [|discriminate H]. destruct (Z.leb_spec (lower b) (val b - u)); inversion H. split; auto; lia.
    + destruct (_ <=? _) in H; [|discriminate H]. destruct (_ <=? _) in H; [|discriminate H].
      destruct (Z.leb_spec (val b - u) (upper b)); inversion H. split; auto; lia.
Qed.

(** A series of operations that goes through, with operands of any integer types, has computed what plain integers
    give, has never left the bounds and has not changed them. *)
Theorem C82_sound : forall T os b b',
  real T -> inv T b -> Forall typed os -> run T os b = Done b' ->
  plain (lower b) (upper b) os (val b) = Some (val b') /\ lower b' = lower b /\ upper b' = upper b /\ inv T b'.
Proof.
  intros T os. induction os as [|o r IH]; intros b b' R I Y H; cbn [run plain] in *.
  - injection H as <-. auto.
  - inversion Y; subst. destruct (act T o b) as [b1| | | |] eqn:E; try discriminate H. cbn [obind] in H.
    destruct (act_done T o b b1 R I H2 E) as [-> K].
    replace ((lower b <=? wanted o (val b)) && (wanted o (val b) <=? upper b)) with true
      by (symmetry; apply andb_true_intro; split; apply Z.leb_le; lia).
    destruct I as [I1 [I2 I3]]. apply (IH (with_val b (wanted o (val b))) b'); auto.
    unfold inv, with_val; cbn; lia.
Qed.
Print Assumptions C82_sound.
Example C82_sound_ex :
  inv i8 (mkBv 0 (-10) 100) /\
  run i8 [Plus u32 90; Inc; Minus i64 101; Assign u8 5; Dec] (mkBv 0 (-10) 100) = Done (mkBv 4 (-10) 100).
Proof. split; [unfold inv; vm_compute; intuition congruence|reflexivity]. Qed.

(** If the distance of the bounds fits the promoted type, which it always does for unsigned types and for 8 and 16 bits, a series of
    operations is stopped by an assertion exactly when plain integers would leave the bounds. *)
Theorem C82_exact : forall T os b,
  real T -> inv T b -> Forall typed os -> Forall negatable os ->
  sg T = false \/ wd T < 32 \/ upper b - lower b <= hi T ->
  run T os b = match plain (lower b) (upper b) os (val b) with Some x => Done (with_val b x) | None => Asserted end.
Proof.
  intros T os. induction os as [|o r IH]; intros b R I Y N S; cbn [run plain].
  - destruct b; reflexivity.
  - inversion Y as [|? ? Yo Yr]; subst. inversion N as [|? ? No Nr]; subst. pose proof I as [I1 [I2 I3]].
    assert (SP : upper b - lower b <= hi (prom T)).
    { destruct (prom_ge T R) as [_ [P _]]. destruct S as [S|[S|S]].
      - unfold lo in I1. rewrite S in I1. lia.
      - unfold prom. apply Z.ltb_lt in S as S'. rewrite S'. unfold real in R. unfold lo in I1. unfold hi in I3 |- *. cbn [sg wd].
        assert (wd T = 8 \/ wd T = 16) as [E|E] by lia; rewrite E in *; destruct (sg T); cbn in *; lia.
      - lia. }
    assert (A : act T o b = if (lower b <=? wanted o (val b)) && (wanted o (val b) <=? upper b)
                            then Done (with_val b (wanted o (val b))) else Asserted).
    { destruct o as [U u| | |U u|U u]; cbn [act wanted typed negatable] in *.
      - apply assign_cases; auto.
      - rewrite inc_cases by auto. destruct (Z.leb_spec (lower b) (val b + 1)), (Z.leb_spec (val b + 1) (upper b)); try lia; auto.
      - rewrite dec_cases by auto. destruct (Z.leb_spec (lower b) (val b - 1)), (Z.leb_spec (val b - 1) (upper b)); try lia; auto.
      - destruct Yo as [RU B]. rewrite plus_cases by auto.
        destruct (Z.leb_spec (upper b - val b) (hi (prom T))); [|lia].
        destruct (Z.leb_spec (val b - lower b) (hi (prom T))); [|lia].
        destruct (Z.leb_spec (- u) (hi (prom U))); [|lia].
        destruct (Z.leb_spec 0 u), (Z.leb_spec (lower b) (val b + u)), (Z.leb_spec (val b + u) (upper b)); try lia; auto.
      - destruct Yo as [RU B]. rewrite minus_cases by auto.
        destruct (Z.leb_spec (upper b - val b) (hi (prom T))); [|lia].
        destruct (Z.leb_spec (val b - lower b) (hi (prom T))); [|lia].
        destruct (Z.leb_spec (- u) (hi (prom U))); [|lia].
        destruct (Z.leb_spec 0 u), (Z.leb_spec (lower b) (val b - u)), (Z.leb_spec (val b - u) (upper b)); try lia; auto. }
    rewrite A. destruct ((lower b <=? wanted o (val b)) && (wanted o (val b) <=? upper b)) eqn:E; [|reflexivity].
    cbn [obind]. apply andb_true_iff in E. rewrite !Z.leb_le in E.
    rewrite (IH (with_val b (wanted o (val b)))); auto. unfold inv, with_val; cbn; lia.
Qed.
Print Assumptions C82_exact.
Example C82_exact_ex :
  run u64t [Plus i64 (-3); Plus u64t 2; Minus i32 (-1)] (mkBv 4 0 (2 ^ 64 - 1)) = Done (mkBv 4 0 (2 ^ 64 - 1)) /\
  run u64t [Plus i64 (-5)] (mkBv 4 0 (2 ^ 64 - 1)) = Asserted /\
  run i32 [Plus u64t 2147483648] (mkBv (-1) (-1) 100) = Asserted.
Proof. vm_compute. auto. Qed.

(** Converting to a bounded value of another type, of the same signedness or from unsigned to signed: done exactly if the
    bounds are of the new type, and then nothing changes. To an unsigned type nothing changes either if the upper bound is of that type. *)
Theorem C82_convert : forall T U r,
  real T -> real U -> inv U r ->
  ((sg T = sg U \/ sg T = true) ->
     (lo T <= lower r /\ upper r <= hi T -> convert T U r = Done r) /\
     (~ (lo T <= lower r /\ upper r <= hi T) -> convert T U r = Asserted)) /\
  (sg T = false -> sg U = true ->
     (0 <= lower r /\ upper r <= hi T -> convert T U r = Done r) /\ (lower r < 0 -> convert T U r = Asserted)).
Proof.
  intros T U r RT RU [I1 [I2 I3]].
  assert (SAME : lo T <= lower r -> upper r <= hi T -> mkBv (cast T (val r)) (cast T (lower r)) (cast T (upper r)) = r).
  { intros A B. rewrite !has_cast by (auto; unfold has; lia). destruct r; reflexivity. }
  split.
  - intros S. unfold convert. destruct (Bool.eqb (sg T) (sg U)) eqn:E.
    + split; intros K.
      * rewrite SAME by tauto. replace (lo T <=? lower r) with true by (symmetry; apply Z.leb_le; tauto).
        replace (upper r <=? hi T) with true by (symmetry; apply Z.leb_le; tauto). reflexivity.
      * destruct ((lo T <=? lower r) && (upper r <=? hi T)) eqn:F; auto.
        apply andb_true_iff in F. rewrite !Z.leb_le in F. tauto.
    + apply eqb_false_iff in E. destruct S as [S|S]; [congruence|]. rewrite S in E |- *.
      assert (SU : sg U = false) by (destruct (sg U); congruence).
      assert (L : lo U = 0) by (unfold lo; rewrite SU; reflexivity).
      assert (LT : lo T <= 0). { unfold lo. rewrite S. pose proof (real_pow T RT). lia. }
      assert (Q : upper r <= cast U (hi T) <-> upper r <= hi T).
      { assert (C : cast U (hi T) = hi T \/ (hi U <= hi T /\ cast U (hi T) = hi U)).
        { clear - RT RU S SU. types T U RT RU; cbn in S, SU; try discriminate; vm_compute; intuition congruence. }
        destruct C as [C|[C1 C]]; rewrite C; lia. }
      split; intros K.
      * rewrite SAME by lia. replace (upper r <=? cast U (hi T)) with true; auto. symmetry. apply Z.leb_le. apply Q. tauto.
      * destruct (upper r <=? cast U (hi T)) eqn:F; auto. apply Z.leb_le in F. apply Q in F. exfalso. apply K. lia.
  - intros S SU. unfold convert. rewrite S, SU. cbn [Bool.eqb].
    assert (L : lo T = 0) by (unfold lo; rewrite S; reflexivity). split; intros K.
    + rewrite SAME by lia. rewrite !has_cast by (auto; unfold has; lia).
      replace (0 <=? val r) with true by (symmetry; apply Z.leb_le; lia).
      replace (0 <=? lower r) with true by (symmetry; apply Z.leb_le; lia).
      replace (lo T <=? lower r) with true by (symmetry; apply Z.leb_le; lia).
      replace (0 <=? upper r) with true by (symmetry; apply Z.leb_le; lia).
      replace (upper r <=? hi T) with true by (symmetry; apply Z.leb_le; lia). reflexivity.
    + replace (0 <=? lower r) with false by (symmetry; apply Z.leb_gt; lia). rewrite andb_false_l, andb_false_r. reflexivity.
Qed.
Print Assumptions C82_convert.
Example C82_convert_ex :
  convert i8 u32 (mkBv 5 0 127) = Done (mkBv 5 0 127) /\ convert i8 u32 (mkBv 5 0 128) = Asserted /\
  convert u8 i32 (mkBv 5 0 255) = Done (mkBv 5 0 255) /\ convert u8 i32 (mkBv 5 (-1) 255) = Asserted.
Proof. vm_compute. auto. Qed.

(** Claim: += is an addition or an assertion. With the default bounds of a 32 or 64 bit signed type the distance to the upper bound
    overflows as soon as the value is negative, so adding 1 to a BoundedValue<int32_t> of -1 is undefined (bv 582). *)
Theorem C82_add_refuted : exists b,
  construct i32 i32 i32 i32 (-1) (lo i32) (hi i32) = Done b /\ lower b <= val b + 1 <= upper b /\ plus i32 i32 b 1 = Undefined.
Proof. exists (mkBv (-1) (lo i32) (hi i32)). vm_compute. intuition congruence. Qed.
Print Assumptions C82_add_refuted.

(** Claim: a constructor that accepts its arguments stores the bounds it was given. A lower bound below the smallest value of the type is
    not refused but truncated: a BoundedValue<int8_t> made with 50 and the int bounds -1000 and 100 has the lower bound 24, so it cannot
    be set to 0 (bv 67-84); bounds of mixed signedness are taken even when they are out of order (bv 262-333). *)
Theorem C82_construct_refuted :
  (exists b, construct i8 i32 i32 i32 50 (-1000) 100 = Done b /\ lower b = 24 /\ assign i8 b 0 = Asserted) /\
  (exists b, construct i32 i32 u32 i32 (-7) (2 ^ 31) (-1) = Done b /\ lower b = - 2 ^ 31).
Proof.
  split; [exists (mkBv 50 24 100)|exists (mkBv (-7) (- 2 ^ 31) (-1))]; vm_compute; auto.
Qed.
Print Assumptions C82_construct_refuted.

(** Claim: a converted bounded value is within its bounds. From signed to a narrower unsigned type the bounds are cast before they are checked,
    so the checks always hold: a BoundedValue<int32_t> of 250 with the bounds 0 and 300 becomes a BoundedValue<uint8_t> of
    250 with the bounds 0 and 44 (bv 403-418, 476-493). *)
Theorem C82_convert_refuted : exists r b,
  construct i32 i32 i32 i32 250 0 300 = Done r /\ convert u8 i32 r = Done b /\ upper b < val b.
Proof. exists (mkBv 250 0 300), (mkBv 250 0 44). vm_compute. auto. Qed.
Print Assumptions C82_convert_refuted.

(** Claim: no operator takes the value out of the bounds. The conversion to a plain reference lets every built-in compound assignment that
    the class does not define, like *=, store any value (bv 676-678). *)
Theorem C82_reference_refuted : exists b,
  construct i32 i32 i32 i32 50 0 100 = Done b /\ upper b < val (through_ref i32 b (val b * 4)).
Proof. exists (mkBv 50 0 100). vm_compute. auto. Qed.
Print Assumptions C82_reference_refuted.
