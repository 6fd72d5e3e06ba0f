(** C56: register accesses change exactly the writable bits they cover. *)
From Coq Require Import List NArith ZArith Arith Bool Lia.
From Verif Require Import Words BitArrayModel BitArrayProps RegisterBitsModel RegisterBitsProps MathUtilsModel LayoutModel LayoutProofs
  ArchDataModel StorageModel RegisterModel RegisterProofs.
Import ListNotations.
Open Scope N_scope.

(** A register object built from the field definitions [l]. *)
Definition made (x86 : bool) (g : reg) (l : list fdef) : Prop :=
  reg_make x86 (g_n g) (g_off g) (g_writable g) (g_init g) l = Done g.

(** A definition is accepted exactly if its size is a power of two and every field lies in the register, low bit first, with at
    most 64 bits. *)
Theorem C56_construct : forall x86 n off wr init l, reg_small n -> shift_ok x86 n ->
  (exists g, reg_make x86 n off wr init l = Done g) <->
  (exists k, N.of_nat n = 2 ^ k) /\
  Forall (fun f => f_low f <= f_high f /\ f_high f < 8 * N.of_nat n /\ f_high f - f_low f < 64) l.
Proof.
  intros x86 n off wr init l N32 X. split.
  - intros [g H]. destruct (reg_make_inv _ _ _ _ _ _ _ N32 X H) as [A [B _]]. auto.
  - intros [NO F]. destruct (write_mask_spec x86 n l NO X N32 F) as [m [M1 _]]. unfold reg_make. rewrite M1. cbn [obind].
    assert (P : pow2_or_0 (N.of_nat n) = true).
    { apply pow2_n; auto; [pose proof (n_ok_pos n NO); lia|]. unfold reg_small in N32. change (2 ^ 64) with 18446744073709551616. change (2 ^ 32) with 4294967296 in N32. lia. }
    rewrite P. cbn [negb orb]. destruct (N.eqb_spec (N.of_nat n) 0) as [E|E]; [pose proof (n_ok_pos n NO); lia|].
    destruct (fields_make_total n l (n_ok_size n NO) N32 F) as [fs ->]. cbn [obind]. eauto.
Qed.
Example C56_construct_ex : (exists g, reg_make false 4 0 true None [mkFD 0 3 true; mkFD 2 31 false] = Done g)
  /\ reg_make false 3 0 true None [] = Refused /\ reg_make false 4 0 true None [mkFD 20 32 false] = Refused
  /\ reg_make true 16 0 true None [mkFD 0 64 false] = Undefined.
Proof. split; [eexists; vm_compute; reflexivity|]. repeat split; vm_compute; reflexivity. Qed.
Print Assumptions C56_construct.

(** A masked write or poke of 1, 2, 4, 8, 16, ... bytes inside the register stores the value's bits except where a read-only field
    lies; every other bit of the line (other bytes of the register, other registers) keeps its value. A write with observers sends
    the register's bytes before and after. *)
Theorem C56_masked_write : forall x86 g l s val o, made x86 g l -> reg_small (g_n g) -> shift_ok x86 (g_n g) ->
  rst_ok (g_n g) (g_off g) s -> g_writable g = true -> wok 8 val -> size_ok (length val) -> o + N.of_nat (length val) <= N.of_nat (g_n g) ->
  exists s1 s2, reg_write x86 g s val o = Done s1 /\ reg_poke x86 g s val o = Done s2
    /\ (forall s', s' = s1 \/ s' = s2 ->
          stored s s' (g_off g + o) (length val) (fun i => if ro_bit l (i + 8 * o) then lbit s (i + 8 * (g_off g + o)) else bit val i))
    /\ s_log s1 = (if s_wobs s then NWrite (reg_bytes g s) (reg_bytes g s1) :: s_log s else s_log s)
    /\ s_log s2 = s_log s.
Proof.
  intros x86 g l s val o M N32 X OK W WV SV B.
  destruct (reg_make_inv _ _ _ _ _ _ _ N32 X M) as [NO [F [_ [_ [_ [_ [_ [MF MB]]]]]]]]. pose proof (n_ok_size _ NO) as S.
  destruct (masked_done (g_n g) (g_off g) g s eq_refl eq_refl OK x86 l val o S N32 X MF MB WV SV B) as [b [B1 [B2 [B3 B4]]]].
  assert (MW : may_write g s = true) by (unfold may_write; rewrite W; auto).
  assert (BO : o + N.of_nat (length b) <= N.of_nat (g_n g)) by (rewrite B2; auto).
  destruct (write_done (g_n g) (g_off g) g s eq_refl eq_refl OK b o MW B3 BO) as [s1 [H1 [H2 H3]]].
  destruct (poke_done (g_n g) (g_off g) g s eq_refl eq_refl OK b o MW B3 BO) as [s2 [K1 [K2 K3]]].
  exists s1, s2. unfold reg_write, reg_poke, masked_access. rewrite MW, (in_reg_true (g_n g) (g_off g) g s) by auto. cbn [negb].
  rewrite B1. cbn [obind]. split; [auto|]. split; [auto|]. split; [|split; [exact H3|exact K3]].
  assert (G : forall s', stored s s' (g_off g + o) (length b) (bit b) ->
     stored s s' (g_off g + o) (length val) (fun i => if ro_bit l (i + 8 * o) then lbit s (i + 8 * (g_off g + o)) else bit val i)).
  { intros s' [A1 [A2 [A3 [A4 [A5 [A6 [A7 A8]]]]]]]. unfold stored. repeat (split; [auto|]). intros j. rewrite A8, B2.
    destruct (N.leb_spec (8 * (g_off g + o)) j), (N.ltb_spec j (8 * (g_off g + o + N.of_nat (length val)))); cbn [andb]; auto.
    rewrite B4. destruct (N.ltb_spec (j - 8 * (g_off g + o)) (8 * N.of_nat (length val))); [auto|lia]. }
  intros s' [-> | ->]; auto.
Qed.
(** A register of two bytes at byte 1 of a line, bits 4 to 7 read-only. *)
Definition ex_reg : reg := match reg_make false 2 1 true (Some [0x12; 0x34]) [mkFD 4 7 true; mkFD 0 5 false; mkFD 8 15 false] with Done g => g | _ => mkReg 0 0 false None [] (q_fresh []) end.
(** Its line. *)
Definition ex_st : rst := mkRS (mkLine [0x11; 0xA5; 0x22; 0x33] false) 4 true true true [].
Lemma ex_made : made false ex_reg [mkFD 4 7 true; mkFD 0 5 false; mkFD 8 15 false] /\ reg_small 2 /\ shift_ok false 2 /\ rst_ok 2 1 ex_st /\ g_n ex_reg = 2%nat.
Proof.
  split; [vm_compute; reflexivity|]. split; [discriminate|]. split; [left; lia|]. split; [|reflexivity].
  split; [repeat constructor|]. split; [reflexivity|]. split; [reflexivity|]. discriminate.
Qed.
Example C56_masked_write_ex :
  match reg_write false ex_reg ex_st [0xFF; 0x77] 0 with
  | Done s => l_data (s_line s) = [0x11; 0xAF; 0x77; 0x33] /\ s_log s = [NWrite [0xA5; 0x22] [0xAF; 0x77]] | _ => False end
  /\ match reg_poke false ex_reg ex_st [0x66] 1 with Done s => l_data (s_line s) = [0x11; 0xA5; 0x66; 0x33] /\ s_log s = [] | _ => False end
  /\ size_ok 2 /\ ro_bit [mkFD 4 7 true; mkFD 0 5 false; mkFD 8 15 false] 5 = true.
Proof. vm_compute. auto 10. Qed.
Print Assumptions C56_masked_write.

(** Unmasked writes and pokes store every bit, whatever the size. *)
Theorem C56_unmasked_write : forall x86 g l s val o, made x86 g l -> reg_small (g_n g) -> shift_ok x86 (g_n g) ->
  rst_ok (g_n g) (g_off g) s -> g_writable g = true -> wok 8 val -> o + N.of_nat (length val) <= N.of_nat (g_n g) ->
  exists s1 s2, reg_writeU g s val o = Done s1 /\ reg_pokeU g s val o = Done s2
    /\ (forall s', s' = s1 \/ s' = s2 -> stored s s' (g_off g + o) (length val) (bit val))
    /\ s_log s1 = (if s_wobs s then NWrite (reg_bytes g s) (reg_bytes g s1) :: s_log s else s_log s)
    /\ s_log s2 = s_log s.
Proof.
  intros x86 g l s val o M N32 X OK W WV B.
  assert (MW : may_write g s = true) by (unfold may_write; rewrite W; auto).
  destruct (write_done (g_n g) (g_off g) g s eq_refl eq_refl OK val o MW WV B) as [s1 [H1 [H2 H3]]].
  destruct (poke_done (g_n g) (g_off g) g s eq_refl eq_refl OK val o MW WV B) as [s2 [K1 [K2 K3]]].
  exists s1, s2. unfold reg_writeU, reg_pokeU, plain_access. rewrite MW, (in_reg_true (g_n g) (g_off g) g s) by auto. cbn [negb].
  split; [auto|]. split; [auto|]. split; [intros s' [-> | ->]; auto|]. split; [exact H3|exact K3].
Qed.
Example C56_unmasked_write_ex :
  match reg_writeU ex_reg ex_st [0xFF; 0x77] 0 with
  | Done s => l_data (s_line s) = [0x11; 0xFF; 0x77; 0x33] /\ s_log s = [NWrite [0xA5; 0x22] [0xFF; 0x77]] | _ => False end.
Proof. vm_compute. auto. Qed.
Print Assumptions C56_unmasked_write.

(** Reads and peeks return the register's bytes and change nothing; a read with observers tells them the register's bytes. *)
Theorem C56_read : forall g s size o, rst_ok (g_n g) (g_off g) s -> o + size <= N.of_nat (g_n g) ->
  exists b, reg_peek g s size o = Done b
    /\ reg_read g s size o = Done (if s_robs s then mkRS (s_line s) (s_L s) (s_debug s) (s_robs s) (s_wobs s) (NRead (reg_bytes g s) :: s_log s) else s, b)
    /\ length b = N.to_nat size
    /\ wval 8 b = (wval 8 (l_data (s_line s)) / 2 ^ (8 * (g_off g + o))) mod 2 ^ (8 * size)
    /\ forall i, bit b i = (i <? 8 * size) && lbit s (i + 8 * (g_off g + o)).
Proof.
  intros g s size o OK B. pose proof OK as [W [LL [L64 IN]]].
  exists (firstn (N.to_nat size) (skipn (N.to_nat (g_off g + o)) (l_data (s_line s)))).
  unfold reg_peek, reg_read, read_. rewrite (in_reg_true (g_n g) (g_off g) g s) by auto.
  rewrite (peek_done (g_n g) (g_off g) g s eq_refl eq_refl OK size o B). cbn [obind]. split; [auto|]. split; [reflexivity|].
  assert (LB : length (firstn (N.to_nat size) (skipn (N.to_nat (g_off g + o)) (l_data (s_line s)))) = N.to_nat size)
    by (rewrite firstn_length, skipn_length; lia).
  assert (BT : forall i, bit (firstn (N.to_nat size) (skipn (N.to_nat (g_off g + o)) (l_data (s_line s)))) i = (i <? 8 * size) && lbit s (i + 8 * (g_off g + o))).
  { intros i. rewrite slice_bits by auto. rewrite !N2Nat.id. reflexivity. }
  split; [auto|]. split; [|auto]. apply N.bits_inj. intros i.
  match goal with |- N.testbit (wval 8 ?l) i = _ => change (N.testbit (wval 8 l) i) with (bit l i) end. rewrite BT. destruct (N.ltb_spec i (8 * size)).
  - rewrite N.mod_pow2_bits_low by auto. rewrite <- N.shiftr_div_pow2, N.shiftr_spec'. reflexivity.
  - rewrite N.mod_pow2_bits_high by auto. reflexivity.
Qed.
Example C56_read_ex : reg_peek ex_reg ex_st 1 1 = Done [0x22]
  /\ reg_read ex_reg ex_st 2 0 = Done (mkRS (mkLine [0x11; 0xA5; 0x22; 0x33] false) 4 true true true [NRead [0xA5; 0x22]], [0xA5; 0x22]).
Proof. split; vm_compute; reflexivity. Qed.
Print Assumptions C56_read.

(** Accesses that leave the register are refused: all byte accesses whose end is a 64-bit number, and all typed accesses. *)
Theorem C56_bounds : forall x86 g s, N.of_nat (g_n g) < 2 ^ 64 ->
  (forall val o, N.of_nat (g_n g) < o + N.of_nat (length val) -> o + N.of_nat (length val) < 2 ^ 64 ->
     reg_write x86 g s val o = Asserted /\ reg_poke x86 g s val o = Asserted
     /\ reg_writeU g s val o = Asserted /\ reg_pokeU g s val o = Asserted)
  /\ (forall size o, N.of_nat (g_n g) < o + size -> o + size < 2 ^ 64 -> reg_read g s size o = Asserted /\ reg_peek g s size o = Asserted)
  /\ (forall sz v idx, (sz <= 8)%nat -> idx < 2 ^ 32 -> N.of_nat (g_n g) < (idx + 1) * N.of_nat sz ->
     reg_writeT x86 g s sz v idx = Asserted /\ reg_pokeT x86 g s sz v idx = Asserted /\ reg_pokeUT g s sz v idx = Asserted
     /\ reg_writeUT g s sz v idx = Asserted /\ reg_readT g s sz idx = Asserted).
Proof.
  intros x86 g s G64.
  assert (A : forall val o, N.of_nat (g_n g) < o + N.of_nat (length val) -> o + N.of_nat (length val) < 2 ^ 64 ->
     reg_write x86 g s val o = Asserted /\ reg_poke x86 g s val o = Asserted
     /\ reg_writeU g s val o = Asserted /\ reg_pokeU g s val o = Asserted).
  { intros val o B C. unfold reg_write, reg_poke, reg_writeU, reg_pokeU, masked_access, plain_access.
    rewrite (in_reg_false (g_n g) (g_off g) g) by auto. cbn [negb]. destruct (negb (may_write g s)); auto. }
  assert (R : forall size o, N.of_nat (g_n g) < o + size -> o + size < 2 ^ 64 -> reg_read g s size o = Asserted /\ reg_peek g s size o = Asserted).
  { intros size o B C. unfold reg_read, reg_peek. rewrite (in_reg_false (g_n g) (g_off g) g) by auto. auto. }
  split; [exact A|]. split; [exact R|]. intros sz v idx SZ I B.
  assert (T : toff sz idx + N.of_nat sz = (idx + 1) * N.of_nat sz).
  { unfold toff. rewrite N.mod_small by auto. lia. }
  assert (T64 : (idx + 1) * N.of_nat sz < 2 ^ 64).
  { apply N.le_lt_trans with (2 ^ 32 * 8); [|reflexivity]. apply N.mul_le_mono; [|lia]. revert I. generalize (2 ^ 32). intros; lia. }
  unfold reg_writeT, reg_pokeT, reg_pokeUT, reg_writeUT, reg_readT.
  destruct (A (wr sz v) (toff sz idx)) as [A1 [A2 [A3 A4]]]; [rewrite wr_len, T; auto..|].
  destruct (R (N.of_nat sz) (toff sz idx)) as [R1 R2]; [rewrite T; auto..|]. rewrite R1. auto.
Qed.
Example C56_bounds_ex : reg_writeT false ex_reg ex_st 2 7 1 = Asserted /\ reg_read ex_reg ex_st 2 1 = Asserted
  /\ match reg_writeT false ex_reg ex_st 1 7 1 with Done _ => True | _ => False end.
Proof. vm_compute. auto. Qed.
Print Assumptions C56_bounds.

(* ---------------- executions ---------------- *)
(** What every call keeps: the line's size and the observers. *)
Definition shape (s s' : rst) : Prop :=
  s_L s' = s_L s /\ s_debug s' = s_debug s /\ s_robs s' = s_robs s /\ s_wobs s' = s_wobs s
  /\ length (l_data (s_line s')) = length (l_data (s_line s)) /\ wok 8 (l_data (s_line s')).
Lemma shape_ok : forall n off s s', shape s s' -> rst_ok n off s -> rst_ok n off s'.
Proof. intros n off s s' [A [B [C [D [E F]]]]] [G [H [I J]]]. unfold rst_ok. rewrite A, E. auto. Qed.
Lemma shape_trans : forall a b c, shape a b -> shape b c -> shape a c.
Proof. intros a b c [A1 [B1 [C1 [D1 [E1 F1]]]]] [A2 [B2 [C2 [D2 [E2 F2]]]]]. unfold shape. repeat split; auto; congruence. Qed.
Lemma shape_refl : forall n off s, rst_ok n off s -> shape s s.
Proof. intros n off s [W _]. unfold shape. auto 10. Qed.
Lemma stored_shape : forall s s' p len b, stored s s' p len b -> shape s s'.
Proof. intros s s' p len b [A [B [C [D [E [F [G _]]]]]]]. unfold shape. auto 10. Qed.
(** Bit [j] of the line is not in the register or is read-only in it. *)
Definition guarded (g : reg) (l : list fdef) (j : N) : Prop :=
  8 * g_off g <= j -> j < 8 * (g_off g + N.of_nat (g_n g)) -> ro_bit l (j - 8 * g_off g) = true.
(** Calls that respect the mask, with bytes and a proper range. *)
Definition respects (o : rop) : Prop :=
  match o with
  | RWrite _ val off | RPoke _ val off => wok 8 val /\ off + N.of_nat (length val) < 2 ^ 64
  | RWriteU _ _ _ | RPokeU _ _ _ | RFPokeU _ _ _ => False
  | RRead _ size off => off + size < 2 ^ 64
  | RReset _ u => u = false
  | RFWrite _ _ _ | RFPoke _ _ _ | RFRead _ _ => True
  end.

Lemma masked_odd : forall x86 g s val o, rst_ok (g_n g) (g_off g) s -> o + N.of_nat (length val) <= N.of_nat (g_n g) ->
  small (length val) = false -> length val <> 0%nat -> (length val < 8 \/ length val mod 8 <> 0)%nat -> masked x86 g s val o = Undefined.
Proof.
  intros x86 g s val o OK B D1 D2 D3. unfold masked. destruct (q_shr x86 (g_mask g) (8 * o)) as [m|]; [|reflexivity]. cbn [lift obind].
  rewrite (peek_done (g_n g) (g_off g) g s eq_refl eq_refl OK) by auto. cbn [obind]. rewrite Nat2N.id.
  set (p := firstn (length val) (skipn (N.to_nat (g_off g + o)) (l_data (s_line s)))) in *.
  assert (PL : length p = length val). { unfold p. destruct OK as [_ [LL [_ IN]]]. rewrite firstn_length, skipn_length. lia. }
  destruct (q_not m) as [nm|]; [|reflexivity]. cbn [lift obind].
  unfold q_merge at 1. rewrite view_fresh. unfold rb_merge at 1. rewrite PL, D1.
  destruct (Nat.ltb_spec 8 (length val)) as [G|G].
  - destruct (Nat.eqb_spec (length val mod 8) 0); [lia|]. reflexivity.
  - cbn [option_map lift obind]. destruct (q_merge N.land (q_wrap val) m) as [c|]; [|reflexivity]. cbn [lift obind].
    unfold q_merge. rewrite view_fresh. unfold rb_merge. cbn [length small Nat.eqb orb Nat.ltb Nat.leb option_map lift obind q_fresh q_n].
    destruct (length val); [lia|reflexivity].
Qed.
Lemma masked_any : forall x86 g l s val o b, made x86 g l -> reg_small (g_n g) -> shift_ok x86 (g_n g) -> rst_ok (g_n g) (g_off g) s ->
  wok 8 val -> o + N.of_nat (length val) <= N.of_nat (g_n g) -> masked x86 g s val o = Done b ->
  length b = length val /\ wok 8 b
  /\ forall i, bit b i = (i <? 8 * N.of_nat (length val)) && (if ro_bit l (i + 8 * o) then lbit s (i + 8 * (g_off g + o)) else bit val i).
Proof.
  intros x86 g l s val o b M N32 X OK WV B H.
  destruct (reg_make_inv _ _ _ _ _ _ _ N32 X M) as [NO [F [_ [_ [_ [_ [_ [MF MB]]]]]]]]. pose proof (n_ok_size _ NO) as S.
  assert (D : size_ok (length val) \/ length val = 0%nat \/ (small (length val) = false /\ length val <> 0%nat /\ (length val < 8 \/ length val mod 8 <> 0)%nat)).
  { unfold size_ok. destruct (small (length val)) eqn:E; [auto|]. destruct (Nat.eq_dec (length val) 0); [auto|].
    destruct (Nat.eq_dec (length val mod 8) 0); [|right; right; auto]. destruct (Nat.lt_trichotomy (length val) 8) as [L|[L|L]].
    - right. right. auto.
    - rewrite L in E. discriminate.
    - left. right. auto. }
  destruct D as [SV|[Z|[D1 [D2 D3]]]].
  - destruct (masked_done (g_n g) (g_off g) g s eq_refl eq_refl OK x86 l val o S N32 X MF MB WV SV B) as [b' [B1 [B2 [B3 B4]]]].
    assert (b' = b) by congruence. subst b'. auto.
  - destruct val; [|discriminate]. cbn [length] in *. unfold masked in H.
    destruct (q_shr x86 (g_mask g) (8 * o)); try discriminate. cbn [lift obind] in H.
    destruct (peek_ g s (N.of_nat (length (@nil N))) o); try discriminate. cbn [obind] in H.
    destruct (q_not r); try discriminate. cbn [lift obind] in H. destruct (q_merge N.land (q_fresh a) r0); try discriminate. cbn [lift obind] in H.
    destruct (q_merge N.land (q_wrap []) r); try discriminate. cbn [lift obind] in H. destruct (q_merge N.lor r1 r2); try discriminate. cbn [lift obind] in H.
    cbn in H. injection H as <-. split; [auto|]. split; [constructor|]. intros i. cbn [N.of_nat]. rewrite N.mul_0_r. destruct (N.ltb_spec i 0); [lia|].
    apply bit_high; [constructor|cbn; lia].
  - rewrite (masked_odd x86 g s val o OK B D1 D2 D3) in H. discriminate.
Qed.
(** A call that respects the mask keeps guarded bits. *)
Definition kept (g : reg) (l : list fdef) (s s' : rst) : Prop := shape s s' /\ forall j, guarded g l j -> lbit s' j = lbit s j.
Lemma kept_trans : forall g l a b c, kept g l a b -> kept g l b c -> kept g l a c.
Proof. intros g l a b c [A1 A2] [B1 B2]. split; [eapply shape_trans; eauto|]. intros j J. rewrite B2, A2; auto. Qed.
Lemma masked_kept : forall x86 g l s val o s' how, made x86 g l -> reg_small (g_n g) -> shift_ok x86 (g_n g) -> rst_ok (g_n g) (g_off g) s ->
  wok 8 val -> o + N.of_nat (length val) < 2 ^ 64 -> how = write_ \/ how = poke_ -> masked_access how x86 g s val o = Done s' -> kept g l s s'.
Proof.
  intros x86 g l s val o s' how M N32 X OK WV B64 HW H. unfold masked_access in H. destruct (may_write g s) eqn:MW; [|discriminate]. cbn [negb] in H.
  destruct (in_reg g (N.of_nat (length val)) o) eqn:IR; [|discriminate]. cbn [negb] in H.
  assert (B : o + N.of_nat (length val) <= N.of_nat (g_n g)).
  { destruct (N.le_gt_cases (o + N.of_nat (length val)) (N.of_nat (g_n g))) as [Q|Q]; auto.
    rewrite (in_reg_false (g_n g) (g_off g) g) in IR by auto. discriminate. }
  destruct (masked x86 g s val o) as [b| | | |] eqn:MK; try discriminate. cbn [obind] in H.
  destruct (masked_any x86 g l s val o b M N32 X OK WV B MK) as [B1 [B2 B3]].
  assert (BO : o + N.of_nat (length b) <= N.of_nat (g_n g)) by (rewrite B1; auto).
  assert (ST : stored s s' (g_off g + o) (length b) (bit b)).
  { destruct HW as [-> | ->].
    - destruct (write_done (g_n g) (g_off g) g s eq_refl eq_refl OK b o MW B2 BO) as [s1 [H1 [H2 H3]]]. assert (s1 = s') by congruence. subst s1. auto.
    - destruct (poke_done (g_n g) (g_off g) g s eq_refl eq_refl OK b o MW B2 BO) as [s1 [H1 [H2 H3]]]. assert (s1 = s') by congruence. subst s1. auto. }
  split; [eapply stored_shape; eauto|]. intros j G. destruct ST as [_ [_ [_ [_ [_ [_ [_ ST]]]]]]]. rewrite ST, B1.
  destruct (N.leb_spec (8 * (g_off g + o)) j), (N.ltb_spec j (8 * (g_off g + o + N.of_nat (length val)))); cbn [andb]; auto.
  rewrite B3. destruct (N.ltb_spec (j - 8 * (g_off g + o)) (8 * N.of_nat (length val))); [|lia]. cbn [andb].
  unfold guarded in G. replace (j - 8 * (g_off g + o) + 8 * o) with (j - 8 * g_off g) by lia. rewrite G by lia. f_equal. lia.
Qed.
Lemma fld_new_bytes : forall x86 g l s x v b, made x86 g l -> reg_small (g_n g) -> shift_ok x86 (g_n g) -> rst_ok (g_n g) (g_off g) s ->
  In x (g_flds g) -> fld_new g s x v = Done b -> length b = g_n g /\ wok 8 b.
Proof.
  intros x86 g l s x v b M N32 X OK IN H.
  destruct (reg_make_inv _ _ _ _ _ _ _ N32 X M) as [NO [F [F2 _]]]. pose proof (n_ok_size _ NO) as S.
  assert (FX : exists f, fd_ok (g_n g) f /\ field_make (g_n g) f = Done x).
  { clear - F F2 IN. induction F2; [destruct IN|]. inversion F; subst. destruct IN as [<-|IN]; eauto. }
  destruct FX as [f [FO FM]]. destruct (field_make_total _ f S N32 FO) as [x' [X1 [X2 [X3 X4]]]]. assert (x' = x) by congruence. subst x'.
  unfold fld_new, reg_peek in H. rewrite (in_reg_true (g_n g) (g_off g) g s) in H by (auto; lia).
  rewrite (peek_done (g_n g) (g_off g) g s eq_refl eq_refl OK) in H by lia. cbn [obind] in H. rewrite Nat2N.id, N.add_0_r in H.
  set (old := firstn (g_n g) (skipn (N.to_nat (g_off g)) (l_data (s_line s)))) in *.
  assert (OL : length old = g_n g). { unfold old. destruct OK as [_ [LL [_ IL]]]. rewrite firstn_length, skipn_length. lia. }
  assert (OW : wok 8 old). { destruct OK as [W _]. unfold old. auto with wokdb. }
  set (mx := Nat.max (g_n g) 8) in *.
  assert (SM : size_ok mx). { unfold mx. destruct (Nat.le_gt_cases (g_n g) 8); [rewrite Nat.max_r by auto; left; reflexivity|rewrite Nat.max_l by lia; auto]. }
  destruct (q_set64_zeros mx v) as [z [Z1 [Z2 [Z3 [Z4 Z5]]]]]. rewrite Z1 in H. cbn [lift obind] in H.
  destruct FO as [FO1 [FO2 FO3]]. unfold reg_small in N32.
  destruct (q_shl_in_total z mx (f_low (fl_def x))) as [sv [SV1 [SV2 [SV3 SV4]]]]; auto.
  { rewrite X2. unfold mx. lia. } { rewrite X2. revert N32. generalize (2 ^ 32). intros; lia. }
  rewrite SV1 in H. cbn [lift obind] in H.
  destruct (q_merge N.land sv (fl_not x)) as [out|]; try discriminate. cbn [lift obind] in H.
  destruct (rb_none (q_view out)) as [ok|]; try discriminate. cbn [lift obind] in H. destruct ok; [|discriminate]. cbn [negb] in H.
  pose proof (qfresh_ok _ _ X4) as [_ [XL XW]].
  destruct (q_land (q_fresh old) (fl_not x) (g_n g)) as [k [K1 [K2 K3]]]; auto. { apply qfresh_ok, qfresh_mk; auto. }
  rewrite K1 in H. cbn [lift obind] in H. destruct SV2 as [_ [SVL SVW]].
  destruct (q_lor k sv (g_n g)) as [r [R1 [R2 R3]]]; auto. { apply qfresh_ok; auto. } { unfold mx in *. lia. }
  rewrite R1 in H. cbn [lift obind] in H. injection H as <-. destruct (view_ok r (g_n g) (qfresh_ok _ _ R2)). auto.
Qed.
Lemma with_fld_inv : forall g j (f : fld -> outcome rst) s', with_fld g j f = Done s' -> exists x, In x (g_flds g) /\ f x = Done s'.
Proof.
  intros g j f s' H. unfold with_fld in H. destruct (nth_error (g_flds g) j) as [x|] eqn:E; [|discriminate]. exists x. split; auto. eapply nth_error_In; eauto.
Qed.
Lemma noted_kept : forall g l s e, rst_ok (g_n g) (g_off g) s -> kept g l s (noted s e).
Proof. intros g l s e OK. split; [|auto]. destruct OK as [W _]. unfold shape, noted. cbn. auto 10. Qed.
Lemma reset_kept : forall x86 g l init s i s', made x86 g l -> reg_small (g_n g) -> shift_ok x86 (g_n g) -> rst_ok (g_n g) (g_off g) s ->
  i + N.of_nat (length init) <= N.of_nat (g_n g) -> reset_loop x86 false g s i init = Done s' -> kept g l s s'.
Proof.
  intros x86 g l init. induction init as [|b init IH]; intros s i s' M N32 X OK L H; cbn [reset_loop] in H.
  { injection H as <-. split; [eapply shape_refl; eauto|auto]. }
  destruct (reg_pokeT x86 g s 1 b i) as [s1| | | |] eqn:E; try discriminate. cbn [obind] in H. cbn [length] in L.
  unfold reg_small in N32. assert (I32 : i < 2 ^ 32) by (revert N32; generalize (2 ^ 32); intros; lia).
  assert (K : kept g l s s1).
  { unfold reg_pokeT, reg_poke in E. eapply masked_kept with (how := poke_); eauto; [apply wr_ok|].
    rewrite wr_len. unfold toff. rewrite N.mod_small by auto. apply N.lt_trans with (2 ^ 33); [|reflexivity]. change (2 ^ 33) with (2 ^ 32 + 2 ^ 32).
    assert (1 < 2 ^ 32) by reflexivity. revert H0 I32. generalize (2 ^ 32). intros; lia. }
  destruct K as [K1 K2]. apply kept_trans with s1; [split; auto|]. apply (IH s1 (i + 1)); auto; [eapply shape_ok; eauto|lia].
Qed.
Lemma rcall_kept : forall x86 g l s o s', made x86 g l -> reg_small (g_n g) -> shift_ok x86 (g_n g) -> rst_ok (g_n g) (g_off g) s ->
  respects o -> rcall x86 g s o = Done s' -> kept g l s s'.
Proof.
  intros x86 g l s o s' M N32 X OK R H.
  assert (SELF : kept g l s s) by (split; [eapply shape_refl; eauto|auto]).
  assert (B64 : N.of_nat (g_n g) < 2 ^ 64).
  { unfold reg_small in N32. apply N.le_lt_trans with (2 ^ 32); [revert N32; generalize (2 ^ 32); intros; lia|reflexivity]. }
  destruct o as [k val off|k val off|k val off|k val off|k size off|k u|k j v|k j v|k j v|k j]; cbn [rcall respects] in *; try contradiction.
  - destruct R. eapply masked_kept with (how := write_); eauto.
  - destruct R. eapply masked_kept with (how := poke_); eauto.
  - unfold reg_read in H. destruct (in_reg g size off); [|discriminate]. unfold read_ in H. destruct (peek_ g s size off); try discriminate.
    cbn [obind fst] in H. injection H as <-. destruct (s_robs s); [apply noted_kept; auto|auto].
  - subst u. unfold reg_reset in H. destruct (g_init g) as [init|]; [|discriminate]. destruct (Nat.ltb_spec (length init) (g_n g)); [discriminate|].
    eapply reset_kept; eauto. rewrite firstn_length. lia.
  - destruct (with_fld_inv _ _ _ _ H) as [x [IX HX]]. unfold fld_write in HX. destruct (fld_new g s x v) as [b| | | |] eqn:E; try discriminate. cbn [obind] in HX.
    destruct (fld_new_bytes x86 g l s x v b M N32 X OK IX E) as [BL BW]. eapply masked_kept with (how := write_); eauto. rewrite BL. exact B64.
  - destruct (with_fld_inv _ _ _ _ H) as [x [IX HX]]. unfold fld_poke in HX. destruct (fld_new g s x v) as [b| | | |] eqn:E; try discriminate. cbn [obind] in HX.
    destruct (fld_new_bytes x86 g l s x v b M N32 X OK IX E) as [BL BW]. eapply masked_kept with (how := poke_); eauto. rewrite BL. exact B64.
  - destruct (with_fld_inv _ _ _ _ H) as [x [IX HX]]. unfold fld_read, reg_read in HX. destruct (in_reg g (N.of_nat (g_n g)) 0); [|discriminate].
    unfold read_ in HX. destruct (peek_ g s (N.of_nat (g_n g)) 0); try discriminate. cbn [obind fst snd] in HX.
    destruct (fld_value x86 x a); try discriminate. cbn [obind fst] in HX. injection HX as <-. destruct (s_robs s); [apply noted_kept; auto|auto].
Qed.
(** Whatever is read, written, poked or reset with the mask, through whichever registers and fields: a bit that is read-only in
    every register covering it never changes. *)
Theorem C56_read_only : forall x86 rs ls s ops s', Forall2 (made x86) rs ls ->
  Forall (fun g => reg_small (g_n g) /\ shift_ok x86 (g_n g) /\ rst_ok (g_n g) (g_off g) s) rs -> Forall respects ops ->
  rexec x86 rs s ops = Some s' ->
  forall j, Forall2 (fun g l => 8 * g_off g <= j -> j < 8 * (g_off g + N.of_nat (g_n g)) -> ro_bit l (j - 8 * g_off g) = true) rs ls ->
  lbit s' j = lbit s j.
Proof.
  intros x86 rs ls s ops s' MS. revert s. induction ops as [|o ops IH]; intros s ES R H j G; cbn [rexec] in H.
  { injection H as <-. auto. }
  inversion R as [|? ? R1 R2]; subst. destruct (nth_error rs (rop_reg o)) as [g|] eqn:NG; [|discriminate].
  assert (X : exists l, made x86 g l /\ guarded g l j).
  { clear - MS G NG. revert NG. generalize (rop_reg o). revert G. induction MS as [|g0 l0 rs ls M MS IH]; intros G k NG; [destruct k; discriminate|].
    inversion G; subst. destruct k; cbn in NG; [injection NG as <-; exists l0; auto|]. eapply IH; eauto. }
  destruct X as [l [ML GL]]. pose proof (proj1 (Forall_forall _ _) ES g (nth_error_In _ _ NG)) as [E1 [E2 E3]].
  destruct (rcall x86 g s o) as [s1| | | |] eqn:RC; try discriminate; try (apply (IH s); auto; fail).
  destruct (rcall_kept x86 g l s o s1 ML E1 E2 E3 R1 RC) as [K1 K2].
  rewrite (IH s1) with (j := j); auto. eapply Forall_impl; [|exact ES]. cbn beta. intros g' [Q1 [Q2 Q3]]. split; [auto|]. split; [auto|].
  eapply shape_ok; eauto.
Qed.
Example C56_read_only_ex :
  match rexec false [ex_reg] ex_st [RWrite 0 [0xFF; 0xFF] 0; RFWrite 0 1 0; RPoke 0 [0x00] 0; RReset 0 false; RFWrite 0 0 0] with
  | Some s => l_data (s_line s) = [0x11; 0xA2; 0x34; 0x33] | None => False end
  /\ lbit ex_st 12 = false /\ lbit ex_st 13 = true.
Proof. vm_compute. auto. Qed.
Print Assumptions C56_read_only.

(** reset() restores the initial value in every bit; reset(false) in every bit that is not read-only. Nothing outside the register
    changes. *)
Lemma reset_loop_done : forall x86 u g l init s i, made x86 g l -> reg_small (g_n g) -> shift_ok x86 (g_n g) -> rst_ok (g_n g) (g_off g) s ->
  g_writable g = true -> wok 8 init -> i + N.of_nat (length init) <= N.of_nat (g_n g) ->
  exists s', reset_loop x86 u g s i init = Done s' /\ shape s s' /\ s_log s' = s_log s
    /\ forall j, lbit s' j = if (8 * (g_off g + i) <=? j) && (j <? 8 * (g_off g + i + N.of_nat (length init)))
                             then (if negb u && ro_bit l (j - 8 * g_off g) then lbit s j else bit init (j - 8 * (g_off g + i))) else lbit s j.
Proof.
  intros x86 u g l init. induction init as [|b init IH]; intros s i M N32 X OK W WI L; cbn [reset_loop].
  { exists s. split; [auto|]. split; [eapply shape_refl; eauto|]. split; [auto|]. intros j. cbn [length N.of_nat]. rewrite N.add_0_r.
    destruct (N.leb_spec (8 * (g_off g + i)) j), (N.ltb_spec j (8 * (g_off g + i))); auto; lia. }
  cbn [length] in L. inversion WI as [|? ? WB WI']; subst.
  assert (I32 : i mod 2 ^ 32 = i). { unfold reg_small in N32. apply N.mod_small. revert N32; generalize (2 ^ 32); intros; lia. }
  assert (T : toff 1 i = i) by (unfold toff; rewrite I32; cbn; lia).
  assert (V1 : wr 1 b = [b]). { cbn [wr]. rewrite N.mod_small; auto. }
  assert (ST : exists s1, (if u then reg_pokeUT g s 1 b i else reg_pokeT x86 g s 1 b i) = Done s1 /\ s_log s1 = s_log s
     /\ stored s s1 (g_off g + i) 1 (fun q => if negb u && ro_bit l (q + 8 * i) then lbit s (q + 8 * (g_off g + i)) else bit [b] q)).
  { unfold reg_pokeUT, reg_pokeT. rewrite T, V1. destruct u.
    - destruct (C56_unmasked_write x86 g l s [b] i M N32 X OK W) as [s1 [s2 [H1 [H2 [H3 [H4 H5]]]]]]; [repeat constructor; auto|cbn; lia|].
      exists s2. split; [auto|]. split; [auto|]. exact (H3 s2 (or_intror eq_refl)).
    - destruct (C56_masked_write x86 g l s [b] i M N32 X OK W) as [s1 [s2 [H1 [H2 [H3 [H4 H5]]]]]]; [repeat constructor; auto|left; reflexivity|cbn; lia|].
      exists s2. split; [auto|]. split; [auto|]. exact (H3 s2 (or_intror eq_refl)). }
  destruct ST as [s1 [H1 [H2 H3]]]. rewrite H1. cbn [obind]. pose proof (stored_shape _ _ _ _ _ H3) as SH.
  destruct (IH s1 (i + 1) M N32 X (shape_ok _ _ _ _ SH OK) W WI') as [s' [K1 [K2 [K3 K4]]]]; [lia|].
  exists s'. split; [auto|]. split; [eapply shape_trans; eauto|]. split; [congruence|]. intros j. rewrite K4.
  destruct H3 as [_ [_ [_ [_ [_ [_ [_ H3]]]]]]]. rewrite H3. cbn [length]. replace (N.of_nat (Datatypes.S (length init))) with (1 + N.of_nat (length init)) by lia.
  change (b :: init) with ([b] ++ init).
  assert (BA : bit ([b] ++ init) (j - 8 * (g_off g + i)) = if j - 8 * (g_off g + i) <? 8 then bit [b] (j - 8 * (g_off g + i)) else bit init (j - 8 * (g_off g + i) - 8)).
  { rewrite bit_app by (auto; repeat constructor; auto). reflexivity. }
  rewrite BA. clear BA. change (N.of_nat 1) with 1.
  destruct (N.leb_spec (8 * (g_off g + (i + 1))) j), (N.ltb_spec j (8 * (g_off g + (i + 1) + N.of_nat (length init)))),
    (N.leb_spec (8 * (g_off g + i)) j), (N.ltb_spec j (8 * (g_off g + i + (1 + N.of_nat (length init))))),
    (N.ltb_spec j (8 * (g_off g + i + 1))); cbn [andb]; try lia; auto;
    destruct (N.ltb_spec (j - 8 * (g_off g + i)) 8); try lia.
  - replace (j - 8 * (g_off g + (i + 1))) with (j - 8 * (g_off g + i) - 8) by lia. reflexivity.
  - replace (j - 8 * (g_off g + i) + 8 * i) with (j - 8 * g_off g) by lia. destruct (negb u && ro_bit l (j - 8 * g_off g)); auto. f_equal. lia.
Qed.
Theorem C56_reset : forall x86 g l s init, made x86 g l -> reg_small (g_n g) -> shift_ok x86 (g_n g) -> rst_ok (g_n g) (g_off g) s ->
  g_writable g = true -> g_init g = Some init -> length init = g_n g -> wok 8 init ->
  (exists s1, reg_reset x86 true g s = Done s1 /\ reg_bytes g s1 = init /\ s_log s1 = s_log s
     /\ forall j, ~ (8 * g_off g <= j < 8 * (g_off g + N.of_nat (g_n g))) -> lbit s1 j = lbit s j)
  /\ (exists s2, reg_reset x86 false g s = Done s2 /\ s_log s2 = s_log s
     /\ (forall i, i < 8 * N.of_nat (g_n g) -> bit (reg_bytes g s2) i = if ro_bit l i then bit (reg_bytes g s) i else bit init i)
     /\ forall j, ~ (8 * g_off g <= j < 8 * (g_off g + N.of_nat (g_n g))) -> lbit s2 j = lbit s j).
Proof.
  intros x86 g l s init M N32 X OK W GI LI WI. unfold reg_reset. rewrite GI, LI, Nat.ltb_irrefl, firstn_all2 by lia.
  assert (RB : forall s', rst_ok (g_n g) (g_off g) s' -> forall i, i < 8 * N.of_nat (g_n g) -> bit (reg_bytes g s') i = lbit s' (8 * g_off g + i)).
  { intros s' [W' _] i I. unfold reg_bytes. rewrite slice_bits by auto. destruct (N.ltb_spec i (8 * N.of_nat (g_n g))); [|lia]. unfold lbit. cbn [andb]. f_equal. lia. }
  assert (LR : forall s', rst_ok (g_n g) (g_off g) s' -> length (reg_bytes g s') = g_n g /\ wok 8 (reg_bytes g s')).
  { intros s' [W' [LL [_ IN]]]. unfold reg_bytes. split; [rewrite firstn_length, skipn_length; lia|auto with wokdb]. }
  split.
  - destruct (reset_loop_done x86 true g l init s 0 M N32 X OK W WI) as [s1 [H1 [H2 [H3 H4]]]]; [lia|]. pose proof (shape_ok _ _ _ _ H2 OK) as OK1.
    exists s1. split; [auto|]. rewrite LI, N.add_0_r in H4. destruct (LR s1 OK1) as [LR1 LR2]. split; [|split; [auto|]].
    + apply bits_eq; auto; [lia|]. intros i I. rewrite LR1 in I. rewrite RB by auto. rewrite H4.
      destruct (N.leb_spec (8 * g_off g) (8 * g_off g + i)), (N.ltb_spec (8 * g_off g + i) (8 * (g_off g + N.of_nat (g_n g)))); try lia. cbn [andb negb].
      f_equal. lia.
    + intros j J. rewrite H4. destruct (N.leb_spec (8 * g_off g) j), (N.ltb_spec j (8 * (g_off g + N.of_nat (g_n g)))); cbn [andb]; auto. lia.
  - destruct (reset_loop_done x86 false g l init s 0 M N32 X OK W WI) as [s2 [H1 [H2 [H3 H4]]]]; [lia|]. pose proof (shape_ok _ _ _ _ H2 OK) as OK2.
    exists s2. split; [auto|]. rewrite LI, N.add_0_r in H4. split; [auto|]. split.
    + intros i I. rewrite !RB by auto. rewrite H4.
      destruct (N.leb_spec (8 * g_off g) (8 * g_off g + i)), (N.ltb_spec (8 * g_off g + i) (8 * (g_off g + N.of_nat (g_n g)))); try lia. cbn [andb negb].
      replace (8 * g_off g + i - 8 * g_off g) with i by lia. reflexivity.
    + intros j J. rewrite H4. destruct (N.leb_spec (8 * g_off g) j), (N.ltb_spec j (8 * (g_off g + N.of_nat (g_n g)))); cbn [andb]; auto. lia.
Qed.
Example C56_reset_ex : match reg_reset false true ex_reg ex_st with Done s => l_data (s_line s) = [0x11; 0x12; 0x34; 0x33] | _ => False end
  /\ match reg_reset false false ex_reg ex_st with Done s => l_data (s_line s) = [0x11; 0xA2; 0x34; 0x33] | _ => False end.
Proof. vm_compute. auto. Qed.
Print Assumptions C56_reset.

(** Register::writeUnmasked<T>(value, index) does not do what the other typed accesses do: index 1 of a 4-byte type overwrites bytes
    1 to 4 instead of 4 to 7, an index past the register overwrites what lies behind it, and observers are not told. *)
Theorem C56_unmasked_index_refuted : exists g l s, made false g l /\ rst_ok (g_n g) (g_off g) s /\ g_writable g = true /\ s_wobs s = true
  /\ (exists s1 s2, reg_writeUT g s 4 0xDDCCBBAA 1 = Done s1 /\ register_writeUT g s 4 0xDDCCBBAA 1 = Done s2
        /\ l_data (s_line s1) = [0; 0; 0; 0; 0xAA; 0xBB; 0xCC; 0xDD; 7; 7; 7; 7]
        /\ l_data (s_line s2) = [0; 0xAA; 0xBB; 0xCC; 0xDD; 0; 0; 0; 7; 7; 7; 7] /\ s_log s1 <> [] /\ s_log s2 = [])
  /\ reg_writeUT g s 4 0xDDCCBBAA 8 = Asserted
  /\ (exists s3, register_writeUT g s 4 0xDDCCBBAA 8 = Done s3 /\ l_data (s_line s3) = [0; 0; 0; 0; 0; 0; 0; 0; 0xAA; 0xBB; 0xCC; 0xDD]).
Proof.
  exists (match reg_make false 8 0 true None [] with Done g => g | _ => mkReg 0 0 false None [] (q_fresh []) end), [],
    (mkRS (mkLine [0; 0; 0; 0; 0; 0; 0; 0; 7; 7; 7; 7] false) 12 true true true []).
  split; [vm_compute; reflexivity|]. split. { split; [repeat constructor|]. split; [reflexivity|]. split; [reflexivity|]. discriminate. }
  split; [reflexivity|]. split; [reflexivity|]. split; [|split; [vm_compute; reflexivity|]].
  - eexists. eexists. split; [vm_compute; reflexivity|]. split; [vm_compute; reflexivity|]. split; [reflexivity|]. split; [reflexivity|]. split; [discriminate|reflexivity].
  - eexists. split; vm_compute; reflexivity.
Qed.
Example C56_unmasked_index_refuted_ex : toff 4 1 = 4.
Proof. reflexivity. Qed.
Print Assumptions C56_unmasked_index_refuted.

(** Masked writes of a size without RegisterBits implementation (3, 5, 6, 7, 9, ... bytes) are undefined although in range: they store
    indeterminate bytes or access memory behind the objects. *)
Theorem C56_odd_size_refuted : forall x86 g s val o, rst_ok (g_n g) (g_off g) s -> g_writable g = true ->
  o + N.of_nat (length val) <= N.of_nat (g_n g) -> (0 < length val)%nat -> ~ size_ok (length val) ->
  reg_write x86 g s val o = Undefined /\ reg_poke x86 g s val o = Undefined.
Proof.
  intros x86 g s val o OK W B VP NS. unfold reg_write, reg_poke, masked_access, may_write. rewrite W. cbn [orb negb].
  rewrite (in_reg_true (g_n g) (g_off g) g s) by auto. cbn [negb].
  assert (SM : small (length val) = false) by (destruct (small (length val)) eqn:E; auto; exfalso; apply NS; left; auto).
  assert (D3 : (length val < 8 \/ length val mod 8 <> 0)%nat).
  { destruct (Nat.lt_trichotomy (length val) 8) as [L|[L|L]]; [auto|rewrite L in SM; discriminate|]. right. intros E. apply NS. right. auto. }
  rewrite (masked_odd x86 g s val o OK B SM) by (auto; lia). auto.
Qed.
Example C56_odd_size_refuted_ex : ~ size_ok 3 /\ ~ size_ok 12 /\
  match reg_make false 4 0 true None [] with Done g => reg_write false g (mkRS (mkLine [1; 2; 3; 4] false) 4 true true true []) [1; 2; 3] 0 | _ => Done ex_st end = Undefined.
Proof. split; [|split; [|vm_compute; reflexivity]]; intros [H|[H1 H2]]; try discriminate; lia. Qed.
Print Assumptions C56_odd_size_refuted.

(** The bounds assertion adds in 64 bits: an offset just below 2^64 passes it and the access lands in front of the register. *)
Theorem C56_wrap_refuted : exists g l s s', made false g l /\ rst_ok (g_n g) (g_off g) s /\ g_off g = 2
  /\ reg_pokeU g s [0xAA; 0xBB] (2 ^ 64 - 2) = Done s' /\ l_data (s_line s) = [1; 2; 3; 4] /\ l_data (s_line s') = [0xAA; 0xBB; 3; 4]
  /\ reg_peek g s 2 (2 ^ 64 - 2) = Done [1; 2].
Proof.
  exists (match reg_make false 2 2 true None [] with Done g => g | _ => mkReg 0 0 false None [] (q_fresh []) end), [],
    (mkRS (mkLine [1; 2; 3; 4] false) 4 true true true []). eexists.
  split; [vm_compute; reflexivity|]. split. { split; [repeat constructor|]. split; [reflexivity|]. split; [reflexivity|]. discriminate. }
  split; [reflexivity|]. split; [vm_compute; reflexivity|]. split; [reflexivity|]. split; vm_compute; reflexivity.
Qed.
Example C56_wrap_refuted_ex : w64 (2 ^ 64 - 2 + 2) = 0.
Proof. vm_compute. reflexivity. Qed.
Print Assumptions C56_wrap_refuted.

(** A register defined as not writable refuses writes only where assert() is compiled in. *)
Theorem C56_not_writable_refuted : exists g l s, made false g l /\ rst_ok (g_n g) (g_off g) s /\ g_writable g = false
  /\ (s_debug s = false /\ exists s', reg_write false g s [9; 9] 0 = Done s' /\ l_data (s_line s') = [9; 9])
  /\ reg_write false g (mkRS (s_line s) (s_L s) true (s_robs s) (s_wobs s) (s_log s)) [9; 9] 0 = Asserted.
Proof.
  exists (match reg_make false 2 0 false None [] with Done g => g | _ => mkReg 0 0 false None [] (q_fresh []) end), [],
    (mkRS (mkLine [1; 2] false) 2 false true true []).
  split; [vm_compute; reflexivity|]. split. { split; [repeat constructor|]. split; [reflexivity|]. split; [reflexivity|]. discriminate. }
  split; [reflexivity|]. split; [|vm_compute; reflexivity]. split; [reflexivity|]. eexists. split; [vm_compute; reflexivity|]. reflexivity.
Qed.
Example C56_not_writable_refuted_ex : may_write (mkReg 2 0 false None [] (q_fresh [])) ex_st = false.
Proof. reflexivity. Qed.
Print Assumptions C56_not_writable_refuted.
