(** C57: fields read and write exactly their bits. *)
From Coq Require Import List NArith ZArith Arith Bool Lia.
From Verif Require Import Words BitArrayModel BitArrayProps RegisterBitsModel RegisterBitsProps MathUtilsModel LayoutModel LayoutProofs
  ArchDataModel StorageModel RegisterModel RegisterProofs RegisterProps.
Import ListNotations.
Open Scope N_scope.

(** [x] is the register's field number [k], defined by [f]. *)
Definition field_of (g : reg) (l : list fdef) (k : nat) (f : fdef) (x : fld) : Prop := nth_error l k = Some f /\ nth_error (g_flds g) k = Some x.
(** The field's width. *)
Definition width (f : fdef) : N := f_high f - f_low f + 1.

Section Field.
Variables (x86 : bool) (g : reg) (l : list fdef) (s : rst) (k : nat) (f : fdef) (x : fld).
Hypotheses (M : made x86 g l) (N32 : reg_small (g_n g)) (X : shift_ok x86 (g_n g)) (OK : rst_ok (g_n g) (g_off g) s)
  (FO : field_of g l k f x).

Lemma fld_made : size_ok (g_n g) /\ fd_ok (g_n g) f /\ field_make (g_n g) f = Done x.
Proof.
  destruct (reg_make_inv _ _ _ _ _ _ _ N32 X M) as [NO [F [F2 _]]]. split; [apply n_ok_size; auto|]. destruct FO as [A B]. clear - F F2 A B.
  revert k A B. induction F2 as [|f0 x0 l fs H F2 IH]; intros k A B; [destruct k; discriminate|]. inversion F; subst.
  destruct k; cbn in A, B; [injection A as <-; injection B as <-; auto|eauto].
Qed.
Lemma old_done : reg_peek g s (N.of_nat (g_n g)) 0 = Done (reg_bytes g s) /\ length (reg_bytes g s) = g_n g /\ wok 8 (reg_bytes g s)
  /\ forall i, bit (reg_bytes g s) i = (i <? 8 * N.of_nat (g_n g)) && lbit s (i + 8 * g_off g).
Proof.
  unfold reg_peek. rewrite (in_reg_true (g_n g) (g_off g) g s) by (auto; lia). rewrite (peek_done (g_n g) (g_off g) g s eq_refl eq_refl OK) by lia.
  rewrite Nat2N.id, N.add_0_r. split; [reflexivity|]. destruct OK as [W [LL [_ IN]]]. unfold reg_bytes. split; [rewrite firstn_length, skipn_length; lia|].
  split; [auto with wokdb|]. intros i. rewrite slice_bits by auto. rewrite N2Nat.id. reflexivity.
Qed.
Lemma value_done : forall b, pos_ok (g_n g) (f_low f) -> length b = g_n g -> wok 8 b ->
  fld_value x86 x b = Done ((wval 8 b / 2 ^ f_low f) mod 2 ^ width f).
Proof.
  intros b P BL BW. destruct fld_made as [S [FD FM]]. destruct (field_make_spec _ f x S N32 FD P FM) as [E1 [E2 [E3 [E4 [E5 E6]]]]].
  destruct E2 as [_ [ML MW]]. unfold fld_value.
  destruct (q_land (q_fresh b) (fl_mask x) (g_n g)) as [a [A1 [A2 A3]]]; auto. { apply qfresh_ok, qfresh_mk; auto. }
  rewrite A1. cbn [lift obind]. rewrite E1. destruct FD as [F1 [F2 F3]]. pose proof N32 as N32'. unfold reg_small in N32'.
  destruct (q_shr_spec x86 a (g_n g) (f_low f) (qfresh_ok _ _ A2) S X) as [r [R1 [R2 R3]]]; [lia|revert N32'; generalize (2 ^ 32); intros; lia|].
  rewrite R1. cbn [lift obind]. f_equal. destruct (view_ok r _ (qfresh_ok _ _ R2)) as [V1 V2].
  rewrite (proj1 (C34_access (q_view r) 8 0 V2)). change (8 * N.of_nat 8) with 64. apply N.bits_inj. intros i.
  assert (Q : N.testbit (wval 8 (q_view r)) i = in_fd f (i + f_low f) && bit b (i + f_low f)).
  { change (N.testbit (wval 8 (q_view r)) i) with (qbit r i). rewrite R3, A3, E4. unfold qbit at 1. rewrite view_fresh. apply andb_comm. }
  unfold in_fd in Q. unfold width.
  destruct (N.ltb_spec i (f_high f - f_low f + 1)).
  - rewrite !N.mod_pow2_bits_low by lia. rewrite Q. rewrite <- N.shiftr_div_pow2, N.shiftr_spec'. unfold bit.
    destruct (N.leb_spec (f_low f) (i + f_low f)), (N.leb_spec (i + f_low f) (f_high f)); try lia; reflexivity.
  - rewrite (N.mod_pow2_bits_high _ (f_high f - f_low f + 1)) by lia. destruct (N.lt_ge_cases i 64).
    + rewrite N.mod_pow2_bits_low by lia. rewrite Q. destruct (N.leb_spec (i + f_low f) (f_high f)); [lia|]. rewrite andb_false_r. reflexivity.
    + rewrite N.mod_pow2_bits_high by lia. reflexivity.
Qed.
(** newRegisterValue_: the excess bits, the check on them, and the bytes. *)
Lemma new_done : forall v, pos_ok (g_n g) (f_low f) -> v < 2 ^ 64 ->
  exists out b, fld_new g s x v = (match rb_none out with Some true => Done b | Some false => Asserted | None => Undefined end)
    /\ length out = Nat.max (g_n g) 8 /\ wok 8 out
    /\ (forall i, bit out i = (i <? 8 * N.of_nat (g_n g)) && ((f_high f <? i) && N.testbit v (i - f_low f)))
    /\ length b = g_n g /\ wok 8 b
    /\ (forall i, bit b i = (i <? 8 * N.of_nat (g_n g)) && ((negb (in_fd f i) && lbit s (i + 8 * g_off g)) || ((f_low f <=? i) && N.testbit v (i - f_low f)))).
Proof.
  intros v P V64. destruct fld_made as [S [FD FM]]. destruct (field_make_spec _ f x S N32 FD P FM) as [E1 [E2 [E3 [E4 [E5 E6]]]]].
  destruct old_done as [O1 [O2 [O3 O4]]]. unfold fld_new. rewrite O1. cbn [obind]. set (mx := Nat.max (g_n g) 8).
  assert (SM : size_ok mx). { unfold mx. destruct (Nat.le_gt_cases (g_n g) 8); [rewrite Nat.max_r by auto; left; reflexivity|rewrite Nat.max_l by lia; auto]. }
  destruct (q_set64_zeros mx v) as [z [Z1 [Z2 [Z3 [Z4 Z5]]]]]. rewrite Z1. cbn [lift obind]. rewrite E1. pose proof FD as [F1 [F2 F3]]. pose proof N32 as N32'. unfold reg_small in N32'.
  assert (L32 : f_low f < 2 ^ 32) by (revert N32'; generalize (2 ^ 32); intros; lia).
  destruct (q_shl_in_spec z mx (f_low f)) as [sv [SV1 [SV2 [SV3 [SV4 SV5]]]]]; auto. { unfold mx. lia. }
  { destruct (Nat.le_gt_cases mx 8); [left; auto|]. right. split; [exists v; split; auto|].
    unfold mx in *. unfold pos_ok in *. rewrite Nat.max_l in * by lia. auto. }
  rewrite SV1. cbn [lift obind]. pose proof (qfresh_ok _ _ E5) as [_ [NL NW]].
  assert (NB : (mx <= length (q_buf (fl_not x)))%nat) by (destruct (fresh_len8 _ _ E5); unfold mx; lia).
  destruct (q_land sv (fl_not x) mx SV2 SM NB NW) as [o [A1 [A2 A3]]]. rewrite A1. cbn [lift obind].
  destruct (view_ok o mx (qfresh_ok _ _ A2)) as [OV1 OV2].
  destruct (q_land (q_fresh (reg_bytes g s)) (fl_not x) (g_n g)) as [kp [K1 [K2 K3]]]; auto. { apply qfresh_ok, qfresh_mk; auto. }
  destruct SV2 as [SVN [SVL SVW]].
  destruct (q_lor kp sv (g_n g)) as [r [R1 [R2 R3]]]; auto. { apply qfresh_ok; auto. } { unfold mx in *; lia. }
  destruct (view_ok r _ (qfresh_ok _ _ R2)) as [RV1 RV2].
  assert (SVB : forall i, i < 8 * N.of_nat mx -> bit (q_buf sv) i = (f_low f <=? i) && N.testbit v (i - f_low f)).
  { intros i I. assert (Q : qbit sv i = bit (q_buf sv) i) by (rewrite (qbit_buf sv mx) by (unfold qok; auto); destruct (N.ltb_spec i (8 * N.of_nat mx)); auto; lia).
    rewrite <- Q, SV4. destruct (N.ltb_spec i (8 * N.of_nat mx)); [|lia]. cbn [andb]. destruct (N.leb_spec (f_low f) i); auto. cbn [andb].
    rewrite (qbit_buf z mx) by auto. rewrite Z4. destruct (N.ltb_spec (i - f_low f) (8 * N.of_nat mx)); [|lia]. cbn [andb].
    destruct (N.ltb_spec (i - f_low f) 64); auto. symmetry. apply testbit_small with 64; auto. }
  exists (q_view o), (q_view r).
  split. { destruct (rb_none (q_view o)) as [[|]|]; cbn [lift obind negb]; auto. rewrite K1. cbn [lift obind]. rewrite R1. reflexivity. }
  split; [auto|]. split; [auto|]. split.
  { intros i. change (bit (q_view o) i) with (qbit o i). rewrite A3, (buf_fresh_bit (fl_not x) (g_n g)) by auto. rewrite E6.
    destruct (N.ltb_spec i (8 * N.of_nat (g_n g))) as [I|I]; [|apply andb_false_r]. cbn [andb].
    assert (I' : i < 8 * N.of_nat mx) by (unfold mx; lia).
    assert (Q : qbit sv i = bit (q_buf sv) i) by (rewrite (qbit_buf sv mx) by (unfold qok; auto); destruct (N.ltb_spec i (8 * N.of_nat mx)); auto; lia).
    rewrite Q, SVB by auto. unfold in_fd. destruct (N.leb_spec (f_low f) i), (N.leb_spec i (f_high f)), (N.ltb_spec (f_high f) i); cbn [andb negb]; try lia;
      rewrite ?andb_false_r, ?andb_true_r; auto. }
  split; [auto|]. split; [auto|]. intros i. change (bit (q_view r) i) with (qbit r i). rewrite R3, K3, (buf_fresh_bit (fl_not x) (g_n g)) by auto. rewrite E6.
  unfold qbit. rewrite view_fresh, O4. destruct (N.ltb_spec i (8 * N.of_nat (g_n g))) as [I|I]; [|reflexivity]. cbn [andb].
  rewrite SVB by (unfold mx; lia). rewrite (andb_comm (lbit _ _)). reflexivity.
Qed.
Lemma out_zero : forall out, wok 8 out -> (0 < length out)%nat -> (forall i, bit out i = false) -> rb_none out = Some true.
Proof.
  intros out W L Z. destruct (C34_none_partial out W) as [_ [H _]]; [destruct out; [cbn in L; lia|discriminate]|]. apply H.
  apply N.bits_inj. intros i. rewrite N.bits_0. apply Z.
Qed.
Lemma new_fit : forall v, pos_ok (g_n g) (f_low f) -> v < 2 ^ width f ->
  exists b, fld_new g s x v = Done b /\ length b = g_n g /\ wok 8 b
    /\ forall i, bit b i = (i <? 8 * N.of_nat (g_n g)) && (if in_fd f i then N.testbit v (i - f_low f) else lbit s (i + 8 * g_off g)).
Proof.
  intros v P V. destruct fld_made as [S [[F1 [F2 F3]] FM]].
  assert (V64 : v < 2 ^ 64). { apply N.lt_le_trans with (2 ^ width f); auto. apply N.pow_le_mono_r; [discriminate|]. unfold width. lia. }
  destruct (new_done v P V64) as [out [b [H1 [H2 [H3 [H4 [H5 [H6 H7]]]]]]]]. exists b. rewrite H1.
  assert (HI : forall i, f_high f < i -> N.testbit v (i - f_low f) = false).
  { intros i I. apply testbit_small with (width f); auto. unfold width. lia. }
  rewrite out_zero; auto; [|lia|].
  2:{ intros i. rewrite H4. destruct (N.ltb_spec (f_high f) i); [rewrite HI by auto|]; rewrite ?andb_false_r; auto. }
  split; [auto|]. split; [auto|]. split; [auto|]. intros i. rewrite H7. f_equal. unfold in_fd.
  destruct (N.leb_spec (f_low f) i), (N.leb_spec i (f_high f)); cbn [andb negb orb]; rewrite ?orb_false_r; auto; try lia.
  rewrite HI by auto. rewrite orb_false_r. auto.
Qed.
End Field.

(** read and peek of a field give the register's bits from low to high, as a number; nothing changes. *)
Theorem C57_read : forall x86 g l s k f x, made x86 g l -> reg_small (g_n g) -> shift_ok x86 (g_n g) -> rst_ok (g_n g) (g_off g) s ->
  field_of g l k f x -> pos_ok (g_n g) (f_low f) ->
  let v := (wval 8 (reg_bytes g s) / 2 ^ f_low f) mod 2 ^ (f_high f - f_low f + 1) in
  fld_peek x86 g s x = Done v /\ exists s', fld_read x86 g s x = Done (s', v) /\ s_line s' = s_line s.
Proof.
  intros x86 g l s k f x M N32 X OK FO P v. destruct (old_done g s OK) as [O1 [O2 [O3 O4]]].
  pose proof (value_done x86 g l k f x M N32 X FO (reg_bytes g s) P O2 O3) as V. fold (width f) in v. fold v in V.
  unfold fld_peek. rewrite O1. cbn [obind]. split; [exact V|]. unfold fld_read, reg_read. unfold reg_peek in O1.
  destruct (in_reg g (N.of_nat (g_n g)) 0); [|discriminate]. unfold read_. rewrite O1. cbn [obind fst snd]. rewrite V. cbn [obind].
  eexists. split; [reflexivity|]. destruct (s_robs s); reflexivity.
Qed.
(** The fields of ex_reg. *)
Lemma ex_fields : exists x0 x1, field_of ex_reg [mkFD 4 7 true; mkFD 0 5 false; mkFD 8 15 false] 0 (mkFD 4 7 true) x0
  /\ field_of ex_reg [mkFD 4 7 true; mkFD 0 5 false; mkFD 8 15 false] 1 (mkFD 0 5 false) x1
  /\ fld_peek false ex_reg ex_st x0 = Done 0xA /\ fld_peek false ex_reg ex_st x1 = Done 0x25.
Proof. eexists. eexists. split; [split; vm_compute; reflexivity|]. split; [split; vm_compute; reflexivity|]. split; vm_compute; reflexivity. Qed.
Example C57_read_ex : (wval 8 (reg_bytes ex_reg ex_st) / 2 ^ 4) mod 2 ^ (7 - 4 + 1) = 0xA /\ pos_ok 2 4 /\ pos_ok 16 100 /\ pos_ok 32 130.
Proof. split; [vm_compute; reflexivity|]. unfold pos_ok. split; [lia|]. split; right; right; vm_compute; repeat constructor. Qed.
Print Assumptions C57_read.

(** Writing a value that fits the field: write and poke store it in the field's bits that are not read-only, pokeUnmasked in all of
    them; every other bit of the line keeps its value. *)
Theorem C57_write : forall x86 g l s k f x v, made x86 g l -> reg_small (g_n g) -> shift_ok x86 (g_n g) -> rst_ok (g_n g) (g_off g) s ->
  g_writable g = true -> field_of g l k f x -> pos_ok (g_n g) (f_low f) -> v < 2 ^ (f_high f - f_low f + 1) ->
  exists s1 s2 s3, fld_write x86 g s x v = Done s1 /\ fld_poke x86 g s x v = Done s2 /\ fld_pokeU g s x v = Done s3
    /\ (forall s' j, s' = s1 \/ s' = s2 -> lbit s' j =
          if (8 * g_off g + f_low f <=? j) && (j <=? 8 * g_off g + f_high f) && negb (ro_bit l (j - 8 * g_off g))
          then N.testbit v (j - 8 * g_off g - f_low f) else lbit s j)
    /\ (forall j, lbit s3 j = if (8 * g_off g + f_low f <=? j) && (j <=? 8 * g_off g + f_high f) then N.testbit v (j - 8 * g_off g - f_low f) else lbit s j)
    /\ (rst_ok (g_n g) (g_off g) s1 /\ rst_ok (g_n g) (g_off g) s2 /\ rst_ok (g_n g) (g_off g) s3)
    /\ s_log s1 = (if s_wobs s then NWrite (reg_bytes g s) (reg_bytes g s1) :: s_log s else s_log s) /\ s_log s2 = s_log s /\ s_log s3 = s_log s.
Proof.
  intros x86 g l s k f x v M N32 X OK W FO P V. fold (width f) in V.
  destruct (new_fit x86 g l s k f x M N32 X OK FO v P V) as [b [B1 [B2 [B3 B4]]]].
  destruct (fld_made x86 g l k f x M N32 X FO) as [S [[F1 [F2 F3]] FM]].
  destruct (C56_masked_write x86 g l s b 0 M N32 X OK W B3) as [s1 [s2 [H1 [H2 [H3 [H4 H5]]]]]]; [rewrite B2; auto|rewrite B2; lia|].
  destruct (C56_unmasked_write x86 g l s b 0 M N32 X OK W B3) as [s0 [s3 [K1 [K2 [K3 [K4 K5]]]]]]; [rewrite B2; lia|].
  exists s1, s2, s3. unfold fld_write, fld_poke, fld_pokeU. rewrite B1. cbn [obind]. split; [auto|]. split; [auto|]. split; [auto|]. split; [|split; [|split]].
  - intros s' j SS. destruct (H3 s' SS) as [_ [_ [_ [_ [_ [_ [_ Q]]]]]]]. rewrite Q, B2, !N.add_0_r.
    destruct (N.leb_spec (8 * g_off g) j), (N.ltb_spec j (8 * (g_off g + N.of_nat (g_n g)))); cbn [andb];
      destruct (N.leb_spec (8 * g_off g + f_low f) j), (N.leb_spec j (8 * g_off g + f_high f)); cbn [andb]; try lia; auto;
      (replace (j - 8 * g_off g + 8 * g_off g) with j by lia); (replace (j - 8 * g_off g + 8 * 0) with (j - 8 * g_off g) by lia); destruct (ro_bit l (j - 8 * g_off g)) eqn:RO; cbn [negb]; auto; rewrite B4;
      destruct (N.ltb_spec (j - 8 * g_off g) (8 * N.of_nat (g_n g))); try lia; cbn [andb]; unfold in_fd;
      destruct (N.leb_spec (f_low f) (j - 8 * g_off g)), (N.leb_spec (j - 8 * g_off g) (f_high f)); cbn [andb]; try lia; auto;
      (replace (j - 8 * g_off g + 8 * g_off g) with j by lia); auto.
  - intros j. destruct (K3 s3 (or_intror eq_refl)) as [_ [_ [_ [_ [_ [_ [_ Q]]]]]]]. rewrite Q, B2, !N.add_0_r.
    destruct (N.leb_spec (8 * g_off g) j), (N.ltb_spec j (8 * (g_off g + N.of_nat (g_n g)))); cbn [andb];
      destruct (N.leb_spec (8 * g_off g + f_low f) j), (N.leb_spec j (8 * g_off g + f_high f)); cbn [andb]; try lia; auto; rewrite B4;
      destruct (N.ltb_spec (j - 8 * g_off g) (8 * N.of_nat (g_n g))); try lia; cbn [andb]; unfold in_fd;
      destruct (N.leb_spec (f_low f) (j - 8 * g_off g)), (N.leb_spec (j - 8 * g_off g) (f_high f)); cbn [andb]; try lia; auto;
      (replace (j - 8 * g_off g + 8 * g_off g) with j by lia); auto.
  - pose proof (stored_shape _ _ _ _ _ (H3 s1 (or_introl eq_refl))). pose proof (stored_shape _ _ _ _ _ (H3 s2 (or_intror eq_refl))).
    pose proof (stored_shape _ _ _ _ _ (K3 s3 (or_intror eq_refl))). split; [|split]; eapply shape_ok; eauto.
  - auto.
Qed.
Example C57_write_ex : exists x1, field_of ex_reg [mkFD 4 7 true; mkFD 0 5 false; mkFD 8 15 false] 1 (mkFD 0 5 false) x1
  /\ match fld_write false ex_reg ex_st x1 0x1A with Done s => l_data (s_line s) = [0x11; 0xAA; 0x22; 0x33] | _ => False end
  /\ match fld_pokeU ex_reg ex_st x1 0x1A with Done s => l_data (s_line s) = [0x11; 0x9A; 0x22; 0x33] | _ => False end.
Proof. eexists. split; [split; vm_compute; reflexivity|]. vm_compute. auto. Qed.
Print Assumptions C57_write.

(** Reading back: a field without read-only bits holds what was written; a field that shares no bit with the written one keeps its
    value, and so does a read-only field. *)
Theorem C57_roundtrip : forall x86 g l s k f x v, made x86 g l -> reg_small (g_n g) -> shift_ok x86 (g_n g) -> rst_ok (g_n g) (g_off g) s ->
  g_writable g = true -> field_of g l k f x -> pos_ok (g_n g) (f_low f) -> v < 2 ^ (f_high f - f_low f + 1) ->
  exists s', fld_write x86 g s x v = Done s'
    /\ ((forall i, f_low f <= i <= f_high f -> ro_bit l i = false) -> fld_peek x86 g s' x = Done v)
    /\ (forall k2 f2 x2, field_of g l k2 f2 x2 -> pos_ok (g_n g) (f_low f2) ->
          f_high f < f_low f2 \/ f_high f2 < f_low f \/ f_ro f2 = true -> fld_peek x86 g s' x2 = fld_peek x86 g s x2).
Proof.
  intros x86 g l s k f x v M N32 X OK W FO P V. destruct (C57_write x86 g l s k f x v M N32 X OK W FO P V) as [s1 [s2 [s3 [H1 [_ [_ [H2 [_ [[OK1 _] _]]]]]]]]].
  specialize (fun j => H2 s1 j (or_introl eq_refl)). exists s1. split; [auto|].
  assert (RB : forall s', rst_ok (g_n g) (g_off g) s' -> forall i, N.testbit (wval 8 (reg_bytes g s')) i = (i <? 8 * N.of_nat (g_n g)) && lbit s' (i + 8 * g_off g)).
  { intros s' O' i. destruct (old_done g s' O') as [_ [_ [_ Q]]]. apply Q. }
  destruct (fld_made x86 g l k f x M N32 X FO) as [S [[F1 [F2 F3]] FM]].
  split.
  - intros NR. destruct (C57_read x86 g l s1 k f x M N32 X OK1 FO P) as [R _]. rewrite R. f_equal. apply N.bits_inj. intros i.
    destruct (N.ltb_spec i (f_high f - f_low f + 1)) as [I|I].
    + rewrite N.mod_pow2_bits_low by auto. rewrite <- N.shiftr_div_pow2, N.shiftr_spec', RB by auto.
      destruct (N.ltb_spec (i + f_low f) (8 * N.of_nat (g_n g))); [|lia]. cbn [andb]. rewrite H2.
      destruct (N.leb_spec (8 * g_off g + f_low f) (i + f_low f + 8 * g_off g)); [|lia].
      destruct (N.leb_spec (i + f_low f + 8 * g_off g) (8 * g_off g + f_high f)); [|lia]. cbn [andb].
      replace (i + f_low f + 8 * g_off g - 8 * g_off g) with (i + f_low f) by lia. rewrite NR by lia. cbn [negb]. f_equal. lia.
    + rewrite N.mod_pow2_bits_high by auto. symmetry. apply testbit_small with (f_high f - f_low f + 1); auto.
  - intros k2 f2 x2 FO2 P2 D. destruct (C57_read x86 g l s1 k2 f2 x2 M N32 X OK1 FO2 P2) as [R1 _].
    destruct (C57_read x86 g l s k2 f2 x2 M N32 X OK FO2 P2) as [R2 _]. rewrite R1, R2. f_equal.
    destruct (fld_made x86 g l k2 f2 x2 M N32 X FO2) as [_ [[G1 [G2 G3]] _]]. apply N.bits_inj. intros i.
    destruct (N.ltb_spec i (f_high f2 - f_low f2 + 1)) as [I|I]; [|rewrite !N.mod_pow2_bits_high by auto; auto].
    rewrite !N.mod_pow2_bits_low by auto. rewrite <- !N.shiftr_div_pow2, !N.shiftr_spec', !RB by auto.
    f_equal. rewrite H2. replace (i + f_low f2 + 8 * g_off g - 8 * g_off g) with (i + f_low f2) by lia.
    destruct (N.leb_spec (8 * g_off g + f_low f) (i + f_low f2 + 8 * g_off g)), (N.leb_spec (i + f_low f2 + 8 * g_off g) (8 * g_off g + f_high f)); cbn [andb]; auto.
    destruct D as [D|[D|D]]; try lia.
    assert (RO : ro_bit l (i + f_low f2) = true).
    { unfold ro_bit. apply existsb_exists. exists f2. split; [eapply nth_error_In; apply FO2|]. rewrite D. unfold in_fd. cbn [andb].
      apply andb_true_intro. split; apply N.leb_le; lia. }
    rewrite RO. reflexivity.
Qed.
Example C57_roundtrip_ex : exists x0 x2, field_of ex_reg [mkFD 4 7 true; mkFD 0 5 false; mkFD 8 15 false] 0 (mkFD 4 7 true) x0
  /\ field_of ex_reg [mkFD 4 7 true; mkFD 0 5 false; mkFD 8 15 false] 2 (mkFD 8 15 false) x2
  /\ match fld_write false ex_reg ex_st x2 0x5C with
     | Done s => fld_peek false ex_reg s x2 = Done 0x5C /\ fld_peek false ex_reg s x0 = fld_peek false ex_reg ex_st x0 | _ => False end.
Proof. eexists. eexists. split; [split; vm_compute; reflexivity|]. split; [split; vm_compute; reflexivity|]. vm_compute. auto. Qed.
Print Assumptions C57_roundtrip.

(** The bits of a value that would land in the register above the field: refused, if the register has fewer than eight bytes or
    the field reaches bit 7. Bits that would land outside the register are ignored. Missing: the other registers (see
    C57_overflow_refuted), and that ignored bits are refused too. *)
Theorem C57_overflow_partial : forall x86 g l s k f x v, made x86 g l -> reg_small (g_n g) -> shift_ok x86 (g_n g) -> rst_ok (g_n g) (g_off g) s ->
  field_of g l k f x -> pos_ok (g_n g) (f_low f) -> v < 2 ^ 64 -> (g_n g < 8)%nat \/ 7 <= f_high f ->
  let u := v mod 2 ^ (8 * N.of_nat (g_n g) - f_low f) in
  (2 ^ (f_high f - f_low f + 1) <= u -> fld_write x86 g s x v = Asserted /\ fld_poke x86 g s x v = Asserted /\ fld_pokeU g s x v = Asserted)
  /\ (u < 2 ^ (f_high f - f_low f + 1) ->
      fld_write x86 g s x v = fld_write x86 g s x u /\ fld_poke x86 g s x v = fld_poke x86 g s x u /\ fld_pokeU g s x v = fld_pokeU g s x u).
Proof.
  intros x86 g l s k f x v M N32 X OK FO P V64 BIG u. destruct (new_done x86 g l s k f x M N32 X OK FO v P V64) as [out [b [H1 [H2 [H3 [H4 [H5 [H6 H7]]]]]]]].
  destruct (fld_made x86 g l k f x M N32 X FO) as [S [[F1 [F2 F3]] FM]].
  assert (UB : forall i, f_low f <= i -> N.testbit u (i - f_low f) = (i <? 8 * N.of_nat (g_n g)) && N.testbit v (i - f_low f)).
  { intros i I. unfold u. destruct (N.ltb_spec i (8 * N.of_nat (g_n g))); [rewrite N.mod_pow2_bits_low by lia; auto|rewrite N.mod_pow2_bits_high by lia; auto]. }
  assert (OB : forall i, bit out i = (f_high f <? i) && N.testbit u (i - f_low f)).
  { intros i. rewrite H4. destruct (N.ltb_spec (f_high f) i); cbn [andb]; [rewrite UB by lia; auto|apply andb_false_r]. }
  split.
  - intros U. assert (NN : rb_none out <> Some true).
    { intros E. destruct (C34_none_partial out H3) as [[Q _] _]; [destruct out; [cbn in H2; lia|discriminate]|]. destruct (Q E) as [y Y].
      assert (Z : forall i, bit out i = N.testbit y (i mod 8) && (i <? 8 * N.of_nat (length out))).
      { intros i. unfold bit. rewrite wval_bit by (auto; discriminate). destruct (N.ltb_spec i (8 * N.of_nat (length out))).
        - rewrite andb_true_r. f_equal. rewrite Forall_forall in Y. symmetry. apply Y. apply nth_In.
          pose proof (N.div_lt_upper_bound i 8 (N.of_nat (length out))). lia.
        - rewrite andb_false_r, nth_overflow; [apply N.bits_0|]. pose proof (N.div_le_lower_bound i 8 (N.of_nat (length out))). lia. }
      assert (Y0 : forall i, i < 8 -> N.testbit y i = false).
      { intros i I. destruct BIG as [B|B].
        - pose proof (Z (56 + i)) as A. rewrite H4 in A. destruct (N.ltb_spec (56 + i) (8 * N.of_nat (g_n g))); [lia|]. cbn [andb] in A.
          destruct (N.ltb_spec (56 + i) (8 * N.of_nat (length out))); [|lia]. rewrite andb_true_r in A. rewrite A. f_equal.
          change 56 with (7 * 8). rewrite N.add_comm, N.mod_add by discriminate. rewrite N.mod_small; auto.
        - pose proof (Z i) as A. rewrite OB in A. destruct (N.ltb_spec (f_high f) i); [lia|]. cbn [andb] in A.
          destruct (N.ltb_spec i (8 * N.of_nat (length out))); [|lia]. rewrite andb_true_r, N.mod_small in A by auto. auto. }
      apply (N.lt_irrefl u). apply N.lt_le_trans with (2 ^ (f_high f - f_low f + 1)); auto. apply small_testbit. intros i I.
      pose proof (Z (i + f_low f)) as A. rewrite OB in A. destruct (N.ltb_spec (f_high f) (i + f_low f)); [|lia]. cbn [andb] in A.
      replace (i + f_low f - f_low f) with i in A by lia. rewrite A, Y0; auto. apply N.mod_lt. discriminate. }
    assert (E : fld_new g s x v = Asserted).
    { rewrite H1. destruct (rb_none out) as [[|]|] eqn:Q; auto; [congruence|]. destruct out; [cbn in H2; lia|discriminate]. }
    unfold fld_write, fld_poke, fld_pokeU. rewrite E. cbn [obind]. auto.
  - intros U. destruct (new_fit x86 g l s k f x M N32 X OK FO u P U) as [b' [B1 [B2 [B3 B4]]]].
    assert (HI : forall i, f_high f < i -> N.testbit u (i - f_low f) = false).
    { intros i I. apply testbit_small with (f_high f - f_low f + 1); auto. lia. }
    assert (E : fld_new g s x v = fld_new g s x u).
    { rewrite H1, B1, out_zero; auto; [|lia|].
      - f_equal. apply bits_eq; auto; [lia|]. intros i _. rewrite H7, B4.
        destruct (N.ltb_spec i (8 * N.of_nat (g_n g))) as [I|I]; auto. cbn [andb]. unfold in_fd.
        destruct (N.leb_spec (f_low f) i) as [A|A]; cbn [andb negb orb]; [|apply orb_false_r].
        pose proof (UB i A) as Q. destruct (N.ltb_spec i (8 * N.of_nat (g_n g))); [|lia]. cbn [andb] in Q. rewrite <- Q.
        destruct (N.leb_spec i (f_high f)); cbn [negb andb orb]; auto. rewrite HI by auto. apply orb_false_r.
      - intros i. rewrite OB. destruct (N.ltb_spec (f_high f) i); auto. rewrite HI; auto. }
    unfold fld_write, fld_poke, fld_pokeU. rewrite E. auto.
Qed.
Example C57_overflow_partial_ex : exists x1, field_of ex_reg [mkFD 4 7 true; mkFD 0 5 false; mkFD 8 15 false] 1 (mkFD 0 5 false) x1
  /\ fld_write false ex_reg ex_st x1 64 = Asserted /\ fld_poke false ex_reg ex_st x1 1000 = Asserted
  /\ fld_write false ex_reg ex_st x1 (2 ^ 16 + 3) = fld_write false ex_reg ex_st x1 3.
Proof. eexists. split; [split; vm_compute; reflexivity|]. vm_compute. auto. Qed.
Print Assumptions C57_overflow_partial.

(** A value too large for the field is not always refused. In the topmost field of a register 2^width is stored as 0; in an
    eight-byte register a value whose excess bits are the same in every byte overwrites the neighbours of the field. *)
Theorem C57_overflow_refuted :
  (forall x86 g l s k f x, made x86 g l -> reg_small (g_n g) -> shift_ok x86 (g_n g) -> rst_ok (g_n g) (g_off g) s ->
     field_of g l k f x -> pos_ok (g_n g) (f_low f) -> f_high f = 8 * N.of_nat (g_n g) - 1 -> f_high f - f_low f < 63 ->
     fld_write x86 g s x (2 ^ (f_high f - f_low f + 1)) = fld_write x86 g s x 0)
  /\ exists g x s, reg_make false 8 0 true None [mkFD 0 0 false] = Done g /\ rst_ok (g_n g) (g_off g) s
     /\ field_of g [mkFD 0 0 false] 0 (mkFD 0 0 false) x /\ reg_bytes g s = repeat 0 8
     /\ match fld_write false g s x 0x0202020202020202 with Done s' => reg_bytes g s' = repeat 2 8 | _ => False end.
Proof.
  split.
  - intros x86 g l s k f x M N32 X OK FO P HI W. destruct (fld_made x86 g l k f x M N32 X FO) as [S [[F1 [F2 F3]] FM]].
    assert (L : 2 ^ (f_high f - f_low f + 1) < 2 ^ 64) by (apply N.pow_lt_mono_r; lia).
    destruct (C57_overflow_partial x86 g l s k f x _ M N32 X OK FO P L) as [_ Q]; [right; lia|].
    replace (8 * N.of_nat (g_n g) - f_low f) with (f_high f - f_low f + 1) in Q by lia. rewrite N.mod_same in Q by (apply N.pow_nonzero; discriminate).
    apply Q. apply N.neq_0_lt_0, N.pow_nonzero. discriminate.
  - eexists. eexists. exists (mkRS (mkLine (repeat 0 8) false) 8 true false false []).
    split; [vm_compute; reflexivity|]. split; [|split; [split; vm_compute; reflexivity|split; vm_compute; reflexivity]].
    unfold rst_ok. cbn. split; [repeat constructor|]. split; [reflexivity|]. split; vm_compute; auto; discriminate.
Qed.
Example C57_overflow_refuted_ex : exists x2, field_of ex_reg [mkFD 4 7 true; mkFD 0 5 false; mkFD 8 15 false] 2 (mkFD 8 15 false) x2
  /\ fld_write false ex_reg ex_st x2 256 = fld_write false ex_reg ex_st x2 0
  /\ match fld_write false ex_reg ex_st x2 256 with Done s => fld_peek false ex_reg s x2 = Done 0 | _ => False end.
Proof. eexists. split; [split; vm_compute; reflexivity|]. vm_compute. auto. Qed.
Print Assumptions C57_overflow_refuted.

Lemma wide_words : forall w, length w = 8%nat -> words 4 (w ++ repeat 0 24) = [rd w; 0; 0; 0].
Proof. intros w L. do 8 (destruct w as [|? w]; [discriminate|]). destruct w; [|discriminate]. reflexivity. Qed.
Lemma wide_shl : forall v k, k / 64 = 1 -> exists y, words_shl_in [v; 0; 0; 0] k = [0; 0; 0; y].
Proof.
  intros v k K. unfold words_shl_in, shl_micro. rewrite K. change (N.to_nat 1) with 1%nat.
  replace (if (0 <? 1)%nat then shl_copy [v; 0; 0; 0] 1%nat 0%nat (length [v; 0; 0; 0]) else [v; 0; 0; 0]) with [0; 0; 0; v] by reflexivity.
  destruct (k mod 64 =? 0); [eauto|]. replace (length [0%N; 0%N; 0%N; v] <=? 1)%nat with false by reflexivity. cbn [rev app shl_loop].
  rewrite !N.shiftl_0_l, !N.land_0_l, !N.shiftr_0_l. change (N.lor (u64 0) 0) with 0. eauto.
Qed.
Lemma wide_low : forall y t i, wok 8 t -> i < 192 -> bit (unwords [0; 0; 0; y] ++ t) i = false.
Proof.
  intros y t i T I. change (unwords [0; 0; 0; y] ++ t) with ((repeat 0 24 ++ wr 8 y) ++ t). rewrite <- app_assoc.
  rewrite bit_app; [|auto with wokdb|apply Forall_app; split; [apply wr_ok|auto]]. rewrite repeat_length.
  destruct (N.ltb_spec i (8 * N.of_nat 24)); [apply bit_zeros|lia].
Qed.

(** In a 32-byte register, a field within bits 64 to 127 has its mask at bits 192 to 255: it reads as 0 whatever the register
    holds, and writing it changes bits of other fields. *)
Theorem C57_wide_refuted :
  (forall g l s k f x, made true g l -> g_n g = 32%nat -> rst_ok (g_n g) (g_off g) s -> field_of g l k f x ->
     64 <= f_low f -> f_high f <= 127 -> fld_peek true g s x = Done 0)
  /\ exists g x y s, reg_make true 32 0 true None [mkFD 64 71 false; mkFD 192 199 false] = Done g /\ rst_ok (g_n g) (g_off g) s
     /\ field_of g [mkFD 64 71 false; mkFD 192 199 false] 0 (mkFD 64 71 false) x
     /\ field_of g [mkFD 64 71 false; mkFD 192 199 false] 1 (mkFD 192 199 false) y
     /\ fld_peek true g s y = Done 0x77
     /\ match fld_pokeU g s x 0 with Done s' => fld_peek true g s' y = Done 0 | _ => False end.
Proof.
  split.
  - intros g l s k f x M N32 OK FO LO HI.
    assert (RS : reg_small (g_n g)) by (unfold reg_small; rewrite N32; vm_compute; discriminate).
    assert (SH : shift_ok true (g_n g)) by (right; reflexivity).
    destruct (fld_made true g l k f x M RS SH FO) as [S [[F1 [F2 F3]] FM]]. rewrite N32 in *.
    destruct (old_done g s) as [O1 [O2 [O3 O4]]]; [rewrite N32; auto|]. rewrite N32 in *.
    unfold fld_peek. rewrite N32, O1. cbn [obind].
    assert (Z : exists m, field_mask 32 f = Done m /\ qok m 32 /\ forall i, i < 192 -> bit (q_buf m) i = false).
    { unfold field_mask. set (sh := w64 _). destruct (64 <=? sh) eqn:SH'. { exfalso. unfold field_make, field_mask in FM. fold sh in FM. rewrite SH' in FM. discriminate. }
      destruct (q_set64_zeros 32 (N.shiftr (2 ^ 64 - 1) sh)) as [z [Z1 [Z2 [Z3 [Z4 Z5]]]]]. rewrite Z1. cbn [lift obind].
      assert (L32 : f_low f < 2 ^ 32) by (apply N.lt_le_trans with 128; [lia|vm_compute; discriminate]).
      destruct (q_shl_in_total z 32 (f_low f) Z2 S) as [m [M1 [M2 _]]]; [lia|auto|]. rewrite M1. exists m. split; [reflexivity|]. split; [auto|].
      unfold q_shl_in in M1. rewrite (N.mod_small (f_low f)) in M1 by auto. rewrite Z5 in M1 by lia. change (32 - 8)%nat with 24%nat in M1.
      unfold rb_shl_in in M1. rewrite app_length, wr_len, repeat_length in M1. change (small (8 + 24)) with false in M1. change (8 <? 8 + 24)%nat with true in M1.
      change (negb ((8 + 24) mod 8 =? 0)%nat) with false in M1. change ((8 + 24) / 8)%nat with 4%nat in M1. rewrite wide_words in M1 by apply wr_len.
      destruct (wide_shl (rd (wr 8 (N.shiftr (2 ^ 64 - 1) sh))) (f_low f)) as [y Y].
      { symmetry. apply N.div_unique with (f_low f - 64); lia. }
      cbv beta iota in M1. rewrite Y in M1. cbn [option_map] in M1. injection M1 as <-. cbn [q_buf]. intros i I. apply wide_low; auto. destruct Z2 as [_ [_ Z2]]. auto with wokdb. }
    destruct Z as [m [Z1 [Z2 Z3]]]. unfold field_make in FM. rewrite Z1 in FM. cbn [obind] in FM. destruct (q_not_spec m 32 Z2 S) as [r [R1 _]]. rewrite R1 in FM.
    cbn [lift obind] in FM. repeat match type of FM with (if ?c then _ else _) = _ => destruct c; [discriminate|] end. injection FM as <-.
    unfold fld_value. cbn [fl_mask fl_def]. destruct Z2 as [_ [ML MW]].
    destruct (q_land (q_fresh (reg_bytes g s)) m 32) as [a [A1 [A2 A3]]]; auto. { apply qfresh_ok, qfresh_mk; auto. }
    rewrite A1. cbn [lift obind].
    destruct (q_shr_spec true a 32 (f_low f) (qfresh_ok _ _ A2) S SH) as [c [C1 [C2 C3]]]; [lia|apply N.lt_le_trans with 128; [lia|vm_compute; discriminate]|].
    rewrite C1. cbn [lift obind]. f_equal. destruct (view_ok c _ (qfresh_ok _ _ C2)) as [V1 V2].
    rewrite (proj1 (C34_access (q_view c) 8 0 V2)). change (8 * N.of_nat 8) with 64. apply N.bits_inj. intros i. rewrite N.bits_0.
    destruct (N.lt_ge_cases i 64); [|apply N.mod_pow2_bits_high; auto]. rewrite N.mod_pow2_bits_low by auto.
    change (N.testbit (wval 8 (q_view c)) i) with (qbit c i). rewrite C3, A3, Z3 by lia. apply andb_false_r.
  - eexists. eexists. eexists. exists (mkRS (mkLine (repeat 0 24 ++ 0x77 :: repeat 0 7) false) 32 true false false []).
    split; [vm_compute; reflexivity|]. split; [|split; [split; vm_compute; reflexivity|split; [split; vm_compute; reflexivity|split; vm_compute; reflexivity]]].
    unfold rst_ok. cbn. split; [repeat constructor|]. split; [reflexivity|]. split; vm_compute; auto; discriminate.
Qed.
Example C57_wide_refuted_ex : exists g x, reg_make true 32 0 true None [mkFD 64 71 false] = Done g /\ field_of g [mkFD 64 71 false] 0 (mkFD 64 71 false) x
  /\ fld_peek true g (mkRS (mkLine (repeat 255 32) false) 32 true false false []) x = Done 0.
Proof. eexists. eexists. split; [vm_compute; reflexivity|]. split; [split; vm_compute; reflexivity|]. vm_compute. reflexivity. Qed.
Print Assumptions C57_wide_refuted.
