(* Property C31: Rational arithmetic is exact and canonical. A rational number is
   specified by cross multiplication: r denotes p/q iff rn r * q = p * rd r. *)
Require Import NArith Bool Lia ZifyN ZifyBool.
Require Import Verif.MathUtilsModel Verif.RationalModel Verif.RationalProofs.
Open Scope N_scope.

(* Spec vocabulary (independent of the code). *)
Definition denotes (r : rational) (p q : N) : Prop := rn r * q = p * rd r.
Definition lowest_terms (r : rational) : Prop := rd r <> 0 /\ N.gcd (rn r) (rd r) = 1.
Definition in_range (w : N) (r : rational) : Prop := rn r < 2 ^ w /\ rd r < 2 ^ w.

Theorem C31_construct : forall w n d, w = 32 \/ w = 64 -> d <> 0 -> n < 2 ^ w -> d < 2 ^ w ->
  exists r, mk w n d = Some r /\ lowest_terms r /\ in_range w r /\ denotes r n d.
Proof. exact mk_correct. Qed.
Example C31_construct_ex : mk 32 84 36 = Some (Rat 7 3).
Proof. vm_compute. reflexivity. Qed.
Print Assumptions C31_construct.

Theorem C31_add : forall w a b, w = 32 \/ w = 64 -> lowest_terms a -> lowest_terms b ->
  in_range w a -> in_range w b ->
  rn a * N.lcm (rd a) (rd b) + rn b * N.lcm (rd a) (rd b) < 2 ^ w ->
  N.lcm (rd a) (rd b) < 2 ^ w ->
  exists r, radd w a b = Some r /\ lowest_terms r /\ in_range w r /\
            denotes r (rn a * rd b + rn b * rd a) (rd a * rd b).
Proof. exact radd_correct. Qed.
Example C31_add_ex : lowest_terms (Rat 5 6) /\ lowest_terms (Rat 1 10) /\
  radd 32 (Rat 5 6) (Rat 1 10) = Some (Rat 14 15).
Proof. unfold lowest_terms. vm_compute. repeat split; try reflexivity; discriminate. Qed.
Print Assumptions C31_add.

Theorem C31_mul : forall w a b, w = 32 \/ w = 64 -> lowest_terms a -> lowest_terms b ->
  rn a * rn b < 2 ^ w -> rd a * rd b < 2 ^ w ->
  exists r, rmul w a b = Some r /\ lowest_terms r /\ in_range w r /\
            denotes r (rn a * rn b) (rd a * rd b).
Proof. exact rmul_correct. Qed.
Example C31_mul_ex : rmul 32 (Rat 5 6) (Rat 3 10) = Some (Rat 1 4).
Proof. vm_compute. reflexivity. Qed.
Print Assumptions C31_mul.

Theorem C31_div : forall w a b, w = 32 \/ w = 64 -> lowest_terms a -> lowest_terms b -> rn b <> 0 ->
  rn a * rd b < 2 ^ w -> rd a * rn b < 2 ^ w ->
  exists r, rdiv w a b = Some r /\ lowest_terms r /\ in_range w r /\
            denotes r (rn a * rd b) (rd a * rn b).
Proof. exact rdiv_correct. Qed.
Example C31_div_ex : rdiv 64 (Rat 5 6) (Rat 3 10) = Some (Rat 25 9).
Proof. vm_compute. reflexivity. Qed.
Print Assumptions C31_div.

(* The absolute difference. The intermediate products must stay below half the range; the
   full claim ("fits the type") is refuted below. *)
Theorem C31_sub_partial : forall w a b, w = 32 \/ w = 64 -> lowest_terms a -> lowest_terms b ->
  in_range w a -> in_range w b ->
  rn a * N.lcm (rd a) (rd b) < 2 ^ (w - 1) -> rn b * N.lcm (rd a) (rd b) < 2 ^ (w - 1) ->
  N.lcm (rd a) (rd b) < 2 ^ w ->
  exists r, rsub w a b = Some r /\ lowest_terms r /\ in_range w r /\
            denotes r (if rn a * rd b <? rn b * rd a then rn b * rd a - rn a * rd b
                       else rn a * rd b - rn b * rd a) (rd a * rd b).
Proof. exact rsub_correct. Qed.
Example C31_sub_ex : rsub 32 (Rat 1 10) (Rat 5 6) = Some (Rat 11 15).
Proof. vm_compute. reflexivity. Qed.
Print Assumptions C31_sub_partial.

(* 3000000000 - 0 is representable, but the magnitude of the 32-bit difference is taken as if it
   were signed. *)
Theorem C31_sub_refuted : exists a b r,
  lowest_terms a /\ lowest_terms b /\ in_range 32 a /\ in_range 32 b /\
  rd a = 1 /\ rd b = 1 /\ rn b <= rn a /\ rsub 32 a b = Some r /\ rn r <> rn a - rn b.
Proof.
  exists (Rat 3000000000 1), (Rat 0 1), (Rat 1294967296 1). unfold lowest_terms, in_range.
  vm_compute. repeat split; try reflexivity; discriminate.
Qed.
Print Assumptions C31_sub_refuted.

Theorem C31_eq : forall w a b, w = 32 \/ w = 64 -> lowest_terms a -> lowest_terms b -> in_range w b ->
  exists r, req w a b = Some r /\ (r = true <-> rn a * rd b = rn b * rd a).
Proof. exact req_correct. Qed.
Example C31_eq_ex : req 32 (Rat 2 3) (Rat 2 3) = Some true /\ req 32 (Rat 2 3) (Rat 3 2) = Some false.
Proof. vm_compute. split; reflexivity. Qed.
Print Assumptions C31_eq.

Theorem C31_inv : forall w a, w = 32 \/ w = 64 -> lowest_terms a -> in_range w a -> rn a <> 0 ->
  exists r, rinv w a = Some r /\ lowest_terms r /\ denotes r (rd a) (rn a).
Proof.
  intros w a Hw Ha [F1 F2] H0. destruct (mk_correct w (rd a) (rn a)) as (r & E & H1 & _ & H3); auto.
  exists r. auto.
Qed.
Example C31_inv_ex : rinv 32 (Rat 2 3) = Some (Rat 3 2).
Proof. vm_compute. reflexivity. Qed.
Print Assumptions C31_inv.
