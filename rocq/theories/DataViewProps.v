(** C41: DataView accesses are byte-exact in either byte order. *)
From Coq Require Import List NArith Arith Bool Lia.
From Verif Require Import MathUtilsModel MathUtilsProofs LayoutModel LayoutProofs LayoutProps ArchDataModel ArchDataProofs
  DataViewModel BitArrayProps.
Import ListNotations.
Open Scope N_scope.

(** Byte j of line i; every observation of an ArchData is made of these. *)
Definition at_byte (a : adata) (i : N) (j : nat) : N :=
  match find_line i (a_lines a) with Some x => nth j (l_data x) 0 | None => 0 end.
(** Lines are below 2^31 bytes long and hold as many bytes as they should. *)
Definition wfa (a : adata) : Prop :=
  a_lsb a <= 31 /\ forall i x, find_line i (a_lines a) = Some x -> length (l_data x) = N.to_nat (a_L a).
(** A placed view: its line exists and it lies in the line. *)
Definition placed (a : adata) (v : view) : Prop :=
  find_line (v_line v) (a_lines a) <> None /\ v_off v + v_size v <= a_L a.
Definition access_size (sz : nat) : Prop := sz = 1%nat \/ sz = 2%nat \/ sz = 4%nat \/ sz = 8%nat.
(** The value that bytes (lowest address first) mean in a byte order: weights grow upwards for LE, downwards for BE. *)
Fixpoint value_le (l : list N) : N := match l with [] => 0 | b :: r => b + 256 * value_le r end.
Definition value_of (o : border) (l : list N) : N := match o with LE => value_le l | BE => value_le (rev l) end.

(* ---- bytes and values *)
Lemma byte_lt : forall v i, byte v i < 256.
Proof. intros. unfold byte. apply N.mod_lt. discriminate. Qed.
Lemma le_bytes_byte : forall n v, Forall (fun b => b < 256) (le_bytes n v).
Proof. induction n as [|n IH]; intros v; cbn; constructor; auto. apply N.mod_lt. discriminate. Qed.
Lemma le_val_bytes : forall n v, le_val (le_bytes n v) = v mod 2 ^ (8 * N.of_nat n).
Proof.
  induction n as [|n IH]; intros v; cbn [le_bytes le_val].
  - change (8 * N.of_nat 0) with 0. rewrite N.pow_0_r, N.mod_1_r. reflexivity.
  - rewrite IH. replace (8 * N.of_nat (S n)) with (8 + 8 * N.of_nat n) by lia. rewrite N.pow_add_r.
    change (2 ^ 8) with 256. rewrite N.mod_mul_r by (try discriminate; apply N.pow_nonzero; discriminate). reflexivity.
Qed.
Lemma le_bytes_val : forall l, Forall (fun b => b < 256) l -> le_bytes (length l) (le_val l) = l.
Proof.
  induction l as [|b r IH]; intros F; [reflexivity|]. apply Forall_cons_iff in F. destruct F as [F1 F2].
  cbn [length le_bytes le_val]. f_equal.
  - rewrite (N.mul_comm 256), N.mod_add by discriminate. apply N.mod_small. exact F1.
  - rewrite (N.mul_comm 256), N.div_add by discriminate. rewrite (N.div_small b) by exact F1. rewrite N.add_0_l. auto.
Qed.
Lemma le_val_lt : forall l, Forall (fun b => b < 256) l -> le_val l < 2 ^ (8 * N.of_nat (length l)).
Proof.
  induction l as [|b r IH]; intros F; cbn [le_val length]; [vm_compute; reflexivity|].
  apply Forall_cons_iff in F. destruct F as [F1 F2]. specialize (IH F2).
  replace (8 * N.of_nat (S (length r))) with (8 + 8 * N.of_nat (length r)) by lia. rewrite N.pow_add_r.
  change (2 ^ 8) with 256. lia.
Qed.
Lemma value_le_eq : forall l, value_le l = le_val l.
Proof. induction l as [|b r IH]; cbn; [reflexivity|]. rewrite IH. reflexivity. Qed.

Lemma swap_spec : forall n v, access_size n -> v < 2 ^ (8 * N.of_nat n) -> byte_swap n v = le_val (rev (le_bytes n v)).
Proof.
  intros n v [->|[->|[->| ->]]] H; try reflexivity.
  - change (8 * N.of_nat 1) with 8 in H. change (2 ^ 8) with 256 in H. cbn. rewrite N.mod_small by exact H. lia.
  - change (8 * N.of_nat 2) with 16 in H.
    cbn [byte_swap]. apply N.bits_inj. intros i.
    change (le_val (rev (le_bytes 2 v))) with (v / 256 mod 256 + 256 * (v mod 256 + 256 * 0)).
    rewrite N.mul_0_r, N.add_0_r.
    assert (E : v / 256 mod 256 = v / 256).
    { apply N.mod_small. change (2 ^ 16) with 65536 in H. apply N.div_lt_upper_bound; [discriminate|]. exact H. }
    rewrite E.
    assert (F : v / 256 + 256 * (v mod 256) = N.lor (N.shiftl (v mod 256) 8) (v / 256)).
    { assert (LD : N.land (N.shiftl (v mod 256) 8) (v / 256) = 0).
      { apply N.bits_inj. intros k. rewrite N.land_spec, N.bits_0. destruct (N.lt_ge_cases k 8) as [C|C].
        - rewrite N.shiftl_spec_low by exact C. reflexivity.
        - rewrite (high_bit (v / 256) 8 k); [apply andb_false_r| |exact C]. change (2 ^ 8) with 256.
          change (2 ^ 16) with 65536 in H. apply N.div_lt_upper_bound; [discriminate|]. exact H. }
      rewrite <- N.lxor_lor by exact LD. rewrite <- N.add_nocarry_lxor by exact LD.
      rewrite N.shiftl_mul_pow2. change (2 ^ 8) with 256. lia. }
    rewrite F. destruct (N.lt_ge_cases i 16) as [C|C].
    + rewrite N.mod_pow2_bits_low by exact C. rewrite !N.lor_spec. f_equal.
      * destruct (N.lt_ge_cases i 8) as [D|D].
        -- rewrite !N.shiftl_spec_low by exact D. reflexivity.
        -- rewrite !N.shiftl_spec_high by lia. change 256 with (2 ^ 8). rewrite N.mod_pow2_bits_low by lia. reflexivity.
      * rewrite N.shiftr_div_pow2. reflexivity.
    + rewrite N.mod_pow2_bits_high by exact C. rewrite N.lor_spec.
      rewrite N.shiftl_spec_high by lia. change 256 with (2 ^ 8). rewrite N.mod_pow2_bits_high by lia.
      rewrite <- N.shiftr_div_pow2, N.shiftr_spec by lia. rewrite (high_bit v 16) by (exact H || lia). reflexivity.
Qed.

(** The bytes a value is stored as. *)
Definition stored (o : border) (n : nat) (v : N) : list N := match o with LE => le_bytes n v | BE => rev (le_bytes n v) end.
Lemma stored_len : forall o n v, length (stored o n v) = n.
Proof. intros [] n v; cbn; rewrite ?rev_length, le_bytes_len; reflexivity. Qed.
Lemma stored_spec : forall o n v, access_size n -> v < 2 ^ (8 * N.of_nat n) ->
  le_bytes n (reorder o n v) = stored o n v.
Proof.
  intros [] n v HA H; cbn; [reflexivity|]. rewrite swap_spec by assumption.
  assert (LN : length (rev (le_bytes n v)) = n) by (rewrite rev_length, le_bytes_len; reflexivity).
  rewrite <- LN at 1. apply le_bytes_val. apply Forall_rev. apply le_bytes_byte.
Qed.
Lemma reorder_value : forall o l, access_size (length l) -> Forall (fun b => b < 256) l ->
  reorder o (length l) (le_val l) = value_of o l.
Proof.
  intros [] l HA F; cbn.
  - symmetry. apply value_le_eq.
  - rewrite swap_spec by (auto using le_val_lt). rewrite le_bytes_val by exact F. symmetry. apply value_le_eq.
Qed.
Lemma byte_div : forall v m i, byte (v / 2 ^ (8 * N.of_nat m)) i = byte v (m + i).
Proof.
  intros v m i. unfold byte. rewrite N.div_div by (apply N.pow_nonzero; lia). rewrite <- N.pow_add_r.
  replace (8 * N.of_nat m + 8 * N.of_nat i) with (8 * N.of_nat (m + i)) by lia. reflexivity.
Qed.
Lemma stored_byte : forall o n v, Forall (fun b => b < 256) (stored o n v).
Proof. intros [] n v; cbn; [apply le_bytes_byte|apply Forall_rev, le_bytes_byte]. Qed.

(** The part of a value that a smaller access sees. *)
Lemma stored_slice : forall o n v s j, (0 < s)%nat -> (s * j + s <= n)%nat ->
  firstn s (skipn (s * j) (stored o n v)) =
  stored o s (v / 2 ^ (8 * N.of_nat (match o with LE => s * j | BE => n - s - s * j end))).
Proof.
  intros o n v s j S0 H. apply nth_ext with 0 0.
  - rewrite firstn_length, skipn_length, !stored_len. lia.
  - rewrite firstn_length, skipn_length, stored_len. intros i Hi. rewrite nth_firstn by lia. rewrite nth_skipn.
    destruct o; cbn [stored].
    + rewrite !le_bytes_nth by lia. rewrite byte_div. reflexivity.
    + rewrite !rev_nth by (rewrite le_bytes_len; lia). rewrite !le_bytes_len, !le_bytes_nth by lia. rewrite byte_div.
      f_equal. lia.
Qed.

(* ---- accesses *)
Lemma a_L_le : forall a, wfa a -> a_L a <= 2147483648.
Proof. intros a [H _]. unfold a_L. change 2147483648 with (2 ^ 31). apply N.pow_le_mono_r; lia. Qed.

Lemma in_view : forall sz idx size, (0 < sz)%nat -> idx < size / N.of_nat sz -> idx * N.of_nat sz + N.of_nat sz <= size.
Proof.
  intros sz idx size S0 H. pose proof (N.mul_div_le size (N.of_nat sz) ltac:(lia)) as D.
  assert (X : (idx + 1) * N.of_nat sz <= size / N.of_nat sz * N.of_nat sz) by (apply N.mul_le_mono_r; lia). lia.
Qed.

(** Where an access starts in its line. *)
Definition loc (sz : nat) (v : view) (idx : N) : nat := N.to_nat (v_off v + idx * N.of_nat sz).

Lemma loc_ok : forall a v sz idx, wfa a -> placed a v -> (0 < sz)%nat -> idx < v_size v / N.of_nat sz ->
  w64 (v_off v + w64 (idx * N.of_nat sz)) = N.of_nat (loc sz v idx) /\
  w64 (N.of_nat (loc sz v idx) + N.of_nat sz) = N.of_nat (loc sz v idx) + N.of_nat sz /\
  N.of_nat (loc sz v idx) + N.of_nat sz <= a_L a /\
  (loc sz v idx + sz <= N.to_nat (v_off v + v_size v))%nat.
Proof.
  intros a v sz idx W [P1 P2] S0 H. pose proof (in_view sz idx (v_size v) S0 H) as I. pose proof (a_L_le a W) as L.
  unfold loc. rewrite (w64_small (idx * N.of_nat sz)) by lia. rewrite w64_small by lia. rewrite w64_small by lia. lia.
Qed.

Lemma read_spec : forall a v sz o idx, wfa a -> placed a v -> (0 < sz)%nat -> idx < v_size v / N.of_nat sz ->
  exists x, find_line (v_line v) (a_lines a) = Some x /\ length (l_data x) = N.to_nat (a_L a) /\
    (loc sz v idx + sz <= length (l_data x))%nat /\
    dv_read sz o a v idx = Done (reorder o sz (le_val (firstn sz (skipn (loc sz v idx) (l_data x))))).
Proof.
  intros a v sz o idx W P S0 H. destruct (loc_ok a v sz idx W P S0 H) as [L1 [L2 [L3 _]]].
  destruct P as [P1 P2]. unfold dv_read. destruct (N.ltb_spec idx (v_size v / N.of_nat sz)); [|lia]. cbn [negb].
  destruct (find_line (v_line v) (a_lines a)) as [x|] eqn:E; [|contradiction]. exists x. split; [reflexivity|].
  pose proof (proj2 W _ _ E) as LX. split; [exact LX|]. split; [lia|].
  unfold line_readT. rewrite L1, L2. destruct (N.ltb_spec (a_L a) (N.of_nat (loc sz v idx) + N.of_nat sz)); [lia|].
  rewrite Nnat.Nat2N.id. reflexivity.
Qed.

Lemma write_spec : forall a v sz o val idx, wfa a -> placed a v -> (0 < sz)%nat -> idx < v_size v / N.of_nat sz ->
  exists x, find_line (v_line v) (a_lines a) = Some x /\ length (l_data x) = N.to_nat (a_L a) /\
    (loc sz v idx + sz <= length (l_data x))%nat /\
    dv_write sz o a v val idx = Done (with_lines a (set_line (v_line v)
      (mkLine (firstn (loc sz v idx) (l_data x) ++ le_bytes sz (reorder o sz val) ++ skipn (loc sz v idx + sz) (l_data x)) true)
      (a_lines a))).
Proof.
  intros a v sz o val idx W P S0 H. destruct (loc_ok a v sz idx W P S0 H) as [L1 [L2 [L3 _]]].
  destruct P as [P1 P2]. unfold dv_write. destruct (N.ltb_spec idx (v_size v / N.of_nat sz)); [|lia]. cbn [negb].
  destruct (find_line (v_line v) (a_lines a)) as [x|] eqn:E; [|contradiction]. exists x. split; [reflexivity|].
  pose proof (proj2 W _ _ E) as LX. split; [exact LX|]. split; [lia|].
  unfold line_writeT. rewrite L1, L2. destruct (N.ltb_spec (a_L a) (N.of_nat (loc sz v idx) + N.of_nat sz)); [lia|].
  rewrite Nnat.Nat2N.id. reflexivity.
Qed.

(** Bytes after a line was replaced by one with a slice changed. *)
Lemma patched : forall a i x o buf, wfa a -> find_line i (a_lines a) = Some x -> (o + length buf <= length (l_data x))%nat ->
  let a' := with_lines a (set_line i (mkLine (firstn o (l_data x) ++ buf ++ skipn (o + length buf) (l_data x)) true) (a_lines a)) in
  wfa a' /\ (forall k, find_line k (a_lines a') <> None <-> find_line k (a_lines a) <> None) /\
  forall k j, at_byte a' k j =
    if (k =? i) && (Nat.leb o j && Nat.ltb j (o + length buf)) then nth (j - o) buf 0 else at_byte a k j.
Proof.
  intros a i x o buf W E H a'. destruct (splice_nth (l_data x) buf o H) as [S1 S2].
  assert (NI : find_line i (a_lines a) <> None) by congruence.
  split.
  - destruct W as [W1 W2]. split; [exact W1|]. intros k y Hy. unfold a' in *. cbn [with_lines a_lines] in Hy.
    change (a_L (with_lines a _)) with (a_L a).
    destruct (N.eq_dec i k) as [<-|Ne].
    + rewrite find_set_eq in Hy by exact NI. injection Hy as <-. cbn [l_data]. rewrite S1. eapply W2; eauto.
    + rewrite find_set_ne in Hy by exact Ne. eapply W2; eauto.
  - split.
    + intros k. unfold a'. cbn [with_lines a_lines]. destruct (N.eq_dec i k) as [<-|Ne].
      * rewrite find_set_eq by exact NI. split; [auto|discriminate].
      * rewrite find_set_ne by exact Ne. tauto.
    + intros k j. unfold at_byte, a'. cbn [with_lines a_lines]. destruct (N.eqb_spec k i) as [->|Ne]; cbn [andb].
      * rewrite find_set_eq by exact NI. cbn [l_data]. rewrite E. apply S2.
      * rewrite find_set_ne by auto. reflexivity.
Qed.

Lemma slice_at : forall a i x o n, find_line i (a_lines a) = Some x -> (o + n <= length (l_data x))%nat ->
  firstn n (skipn o (l_data x)) = map (fun k => at_byte a i (o + k)) (seq 0 n).
Proof.
  intros a i x o n E H. apply nth_ext with 0 0.
  - rewrite firstn_length, skipn_length, map_length, seq_length. lia.
  - rewrite firstn_length, skipn_length. intros j Hj. rewrite nth_firstn by lia. rewrite nth_skipn.
    symmetry. rewrite (nth_indep _ 0 (at_byte a i (o + 0))) by (rewrite map_length, seq_length; lia).
    rewrite (map_nth (fun k => at_byte a i (o + k))), seq_nth by lia. unfold at_byte. rewrite E. reflexivity.
Qed.

(** What a read means: the bytes of the view at the index, in the byte order asked for. *)
Theorem C41_read : forall a v sz o idx, wfa a -> placed a v -> access_size sz ->
  (forall i j, at_byte a i j < 256) ->
  if idx <? v_size v / N.of_nat sz
  then dv_read sz o a v idx = Done (value_of o (map (fun k => at_byte a (v_line v) (loc sz v idx + k)) (seq 0 sz)))
  else dv_read sz o a v idx = Asserted.
Proof.
  intros a v sz o idx W P HA HB. assert (S0 : (0 < sz)%nat) by (unfold access_size in HA; lia).
  destruct (N.ltb_spec idx (v_size v / N.of_nat sz)) as [C|C].
  - destruct (read_spec a v sz o idx W P S0 C) as [x [E [LX [LB R]]]]. rewrite R.
    rewrite (slice_at a (v_line v) x _ _ E LB). f_equal.
    rewrite <- reorder_value.
    + rewrite map_length, seq_length. reflexivity.
    + rewrite map_length, seq_length. exact HA.
    + apply Forall_map, Forall_forall. intros k _. apply HB.
  - unfold dv_read. destruct (N.ltb_spec idx (v_size v / N.of_nat sz)); [lia|reflexivity].
Qed.
Print Assumptions C41_read.

Lemma place_arith : forall p Q L i s n, Q <= p -> p - Q + n <= L -> i + s <= n -> 0 < s ->
  p + i - Q = p - Q + i /\ p - Q + i + s <= L /\ p - Q + i < L /\ p + i = Q + (p - Q + i).
Proof. intros. lia. Qed.

(** A view placed at an address reads the bytes that MemoryObject::read shows at that address: view and memory are the
    same storage. *)
Theorem C41_same_memory : forall sh a p n sz o idx, wfa a -> placed a (view_at a p n) -> access_size sz ->
  (forall i j, at_byte a i j < 256) -> p + n <= a_size a -> idx < n / N.of_nat sz ->
  exists l, mem_read sh a (p + idx * N.of_nat sz) (N.of_nat sz) = Done l /\ length l = sz /\
    dv_read sz o a (view_at a p n) idx = Done (value_of o l).
Proof.
  intros sh a p n sz o idx W P HA HB HS C. assert (S0 : (0 < sz)%nat) by (unfold access_size in HA; lia).
  pose proof (C41_read a _ sz o idx W P HA HB) as R. cbn [view_at v_size] in R. destruct (N.ltb_spec idx (n / N.of_nat sz)) as [_|]; [|lia].
  eexists. split; [|split; [|exact R]]; [|rewrite map_length, seq_length; reflexivity].
  destruct (read_spec a _ sz o idx W P S0 C) as [x [E [LX [LB _]]]]. rewrite <- (slice_at a _ x _ _ E LB).
  pose proof (in_view sz idx n S0 C) as IV. destruct P as [_ P]. destruct W as [W _]. unfold loc in *. cbn [view_at v_line v_off v_size] in *.
  assert (LB2 : 2 ^ a_lsb a <= 2 ^ 31) by (apply N.pow_le_mono_r; [discriminate|clear - W; lia]).
  assert (LP : 2 ^ a_lsb a <> 0) by (apply N.pow_nonzero; discriminate).
  unfold a_L in *. rewrite N.shiftl_mul_pow2, N.shiftr_div_pow2 in *.
  assert (B1 : p / 2 ^ a_lsb a * 2 ^ a_lsb a <= p) by (rewrite N.mul_comm; apply N.mul_div_le; exact LP).
  destruct (place_arith p _ _ (idx * N.of_nat sz) (N.of_nat sz) n B1 P IV) as (Q1 & Q2 & Q3 & Q4); [clear - S0; lia|].
  assert (BL : (p + idx * N.of_nat sz) / 2 ^ a_lsb a = p / 2 ^ a_lsb a).
  { symmetry. apply N.div_unique with (p - p / 2 ^ a_lsb a * 2 ^ a_lsb a + idx * N.of_nat sz); [exact Q3|].
    rewrite (N.mul_comm (2 ^ a_lsb a)). exact Q4. }
  unfold mem_read. rewrite N.shiftl_mul_pow2, N.shiftr_div_pow2, BL, E. unfold a_L, line_read. rewrite Q1.
  rewrite w64_small by (eapply N.le_lt_trans; [etransitivity; [exact Q2|exact LB2]|reflexivity]).
  destruct (N.ltb_spec (p + idx * N.of_nat sz) (a_size a)) as [_|X]; [|clear - HS IV S0 X; lia]. cbn [negb].
  destruct (N.ltb_spec (2 ^ a_lsb a) (p - p / 2 ^ a_lsb a * 2 ^ a_lsb a + idx * N.of_nat sz + N.of_nat sz)) as [X|_];
    [apply N.lt_nge in X; contradiction|].
  rewrite Nat2N.id. reflexivity.
Qed.
Print Assumptions C41_same_memory.

(** A value written is read back with the same type and byte order; with a smaller type its parts are read, the low part
    first for LE and the high part first for BE. *)
Theorem C41_round_trip : forall a v sz o val idx a', wfa a -> placed a v -> access_size sz -> val < 2 ^ (8 * N.of_nat sz) ->
  dv_write sz o a v val idx = Done a' ->
  wfa a' /\ placed a' v /\ dv_read sz o a' v idx = Done val /\
  forall s2 m j, access_size s2 -> sz = (s2 * m)%nat -> (j < m)%nat ->
    dv_read s2 o a' v (idx * N.of_nat m + N.of_nat j) =
    Done (val / 2 ^ (8 * N.of_nat (s2 * match o with LE => j | BE => m - 1 - j end)) mod 2 ^ (8 * N.of_nat s2)).
Proof.
  intros a v sz o val idx a' W P HA HV HW. assert (S0 : (0 < sz)%nat) by (unfold access_size in HA; lia).
  assert (C : idx < v_size v / N.of_nat sz).
  { unfold dv_write in HW. destruct (N.ltb_spec idx (v_size v / N.of_nat sz)); [assumption|discriminate]. }
  destruct (write_spec a v sz o val idx W P S0 C) as [x [E [LX [LB R]]]]. rewrite R in HW. injection HW as <-.
  rewrite (stored_spec o sz val HA HV).
  pose proof (patched a (v_line v) x (loc sz v idx) (stored o sz val) W E) as PT. rewrite stored_len in PT.
  specialize (PT LB). cbv zeta in PT. destruct PT as [W' [PL _]]. clear R.
  set (a' := with_lines a _) in *.
  assert (P' : placed a' v).
  { destruct P as [P1 P2]. split; [apply PL; exact P1|]. exact P2. }
  split; [exact W'|]. split; [exact P'|].
  assert (E' : find_line (v_line v) (a_lines a') = Some (mkLine (firstn (loc sz v idx) (l_data x) ++ stored o sz val ++
                     skipn (loc sz v idx + sz) (l_data x)) true)).
  { unfold a'. cbn [with_lines a_lines]. apply find_set_eq. congruence. }
  assert (G : forall s2 m j, access_size s2 -> sz = (s2 * m)%nat -> (j < m)%nat ->
    dv_read s2 o a' v (idx * N.of_nat m + N.of_nat j) =
    Done (val / 2 ^ (8 * N.of_nat (s2 * match o with LE => j | BE => m - 1 - j end)) mod 2 ^ (8 * N.of_nat s2))).
  { intros s2 m j HA2 HM Hj. assert (S2 : (0 < s2)%nat) by (unfold access_size in HA2; lia).
    assert (C2 : idx * N.of_nat m + N.of_nat j < v_size v / N.of_nat s2).
    { pose proof (in_view sz idx (v_size v) S0 C) as I.
      apply N.lt_le_trans with (idx * N.of_nat m + N.of_nat m); [lia|].
      apply N.div_le_lower_bound; [lia|]. rewrite HM in I. lia. }
    destruct (read_spec a' v s2 o _ W' P' S2 C2) as [y [Ey [LY [LB2 R2]]]]. rewrite R2. f_equal.
    rewrite E' in Ey. injection Ey as <-. cbn [l_data].
    assert (LE2 : loc s2 v (idx * N.of_nat m + N.of_nat j) = (loc sz v idx + s2 * j)%nat).
    { unfold loc. rewrite HM. rewrite Nnat.Nat2N.inj_mul. lia. }
    rewrite LE2.
    assert (JB : (s2 * j + s2 <= sz)%nat).
    { rewrite HM. assert (s2 * S j <= s2 * m)%nat by (apply Nat.mul_le_mono_l; exact Hj). lia. }
    assert (SL : firstn s2 (skipn (loc sz v idx + s2 * j) (firstn (loc sz v idx) (l_data x) ++ stored o sz val ++
              skipn (loc sz v idx + sz) (l_data x))) = firstn s2 (skipn (s2 * j) (stored o sz val))).
    { pose proof (splice_nth (l_data x) (stored o sz val) (loc sz v idx)) as SN. rewrite stored_len in SN.
      destruct (SN LB) as [S1 S2']. apply nth_ext with 0 0.
      - rewrite !firstn_length, !skipn_length, S1, stored_len. lia.
      - rewrite firstn_length, skipn_length, S1. intros i Hi. rewrite !nth_firstn by lia. rewrite !nth_skipn. rewrite S2'.
        destruct (Nat.leb_spec (loc sz v idx) (loc sz v idx + s2 * j + i)); [|lia].
        destruct (Nat.ltb_spec (loc sz v idx + s2 * j + i) (loc sz v idx + sz)); [|lia]. cbn [andb]. f_equal. lia. }
    rewrite SL, stored_slice by lia.
    set (w := val / _).
    assert (Q : forall u, reorder o s2 (le_val (stored o s2 u)) = u mod 2 ^ (8 * N.of_nat s2)).
    { intros u. pose proof (reorder_value o (stored o s2 u)) as RV. rewrite stored_len in RV.
      rewrite RV; [|exact HA2|apply stored_byte].
      destruct o; cbn [stored value_of]; rewrite value_le_eq, ?rev_involutive; apply le_val_bytes. }
    rewrite Q. unfold w. destruct o; [reflexivity|]. do 5 f_equal. rewrite HM, !Nat.mul_sub_distr_l. clear. lia. }
  split; [|exact G].
  specialize (G sz 1%nat 0%nat HA ltac:(lia) ltac:(lia)).
  change (N.of_nat 1) with 1 in G. change (N.of_nat 0) with 0 in G. rewrite N.mul_1_r, N.add_0_r in G. rewrite G. f_equal.
  assert (Z : (sz * match o with LE => 0 | BE => 1 - 1 - 0 end = 0)%nat) by (destruct o; lia).
  rewrite Z. change (8 * N.of_nat 0) with 0. rewrite N.pow_0_r, N.div_1_r. apply N.mod_small. exact HV.
Qed.
Print Assumptions C41_round_trip.

(** Writes inside the view succeed and change no byte outside the written range, of this or of any other line; others
    are rejected. *)
Theorem C41_write_frame : forall a v sz o val idx, wfa a -> placed a v -> access_size sz -> val < 2 ^ (8 * N.of_nat sz) ->
  if idx <? v_size v / N.of_nat sz
  then exists a', dv_write sz o a v val idx = Done a' /\ wfa a' /\ (forall w, placed a w -> placed a' w) /\
    forall i j, i <> v_line v \/ (j < loc sz v idx)%nat \/ (loc sz v idx + sz <= j)%nat -> at_byte a' i j = at_byte a i j
  else dv_write sz o a v val idx = Asserted.
Proof.
  intros a v sz o val idx W P HA HV. assert (S0 : (0 < sz)%nat) by (unfold access_size in HA; lia).
  destruct (N.ltb_spec idx (v_size v / N.of_nat sz)) as [C|C].
  - destruct (write_spec a v sz o val idx W P S0 C) as [x [E [LX [LB R]]]]. rewrite R.
    eexists. split; [reflexivity|]. rewrite (stored_spec o sz val HA HV).
    pose proof (patched a (v_line v) x (loc sz v idx) (stored o sz val) W E) as PT. rewrite stored_len in PT.
    specialize (PT LB). cbv zeta in PT. destruct PT as [W' [PL AB]]. split; [exact W'|]. split.
    + intros w [Q1 Q2]. split; [apply PL; exact Q1|exact Q2].
    + intros i j H. rewrite AB. destruct (N.eqb_spec i (v_line v)) as [->|]; cbn [andb]; [|reflexivity].
      destruct H as [H|[H|H]]; [contradiction| |].
      * destruct (Nat.leb_spec (loc sz v idx) j); [lia|reflexivity].
      * destruct (Nat.ltb_spec j (loc sz v idx + sz)); [lia|]. rewrite andb_false_r. reflexivity.
  - unfold dv_write. destruct (N.ltb_spec idx (v_size v / N.of_nat sz)); [lia|reflexivity].
Qed.
Print Assumptions C41_write_frame.

(** Views at disjoint ranges of the ArchData - as a layout gives them (C36) - never disturb each other. *)
Theorem C41_disjoint_views : forall a p q n m sz o val idx sz2 o2 idx2 a',
  wfa a -> placed a (view_at a p n) -> placed a (view_at a q m) -> access_size sz -> access_size sz2 ->
  val < 2 ^ (8 * N.of_nat sz) -> (p + n <= q \/ q + m <= p) ->
  dv_write sz o a (view_at a p n) val idx = Done a' ->
  dv_read sz2 o2 a' (view_at a q m) idx2 = dv_read sz2 o2 a (view_at a q m) idx2.
Proof.
  intros a p q n m sz o val idx sz2 o2 idx2 a' W P Q HA HA2 HV D HW.
  assert (S0 : (0 < sz)%nat) by (unfold access_size in HA; lia).
  assert (S2 : (0 < sz2)%nat) by (unfold access_size in HA2; lia).
  pose proof (C41_write_frame a _ sz o val idx W P HA HV) as F.
  destruct (N.ltb_spec idx (v_size (view_at a p n) / N.of_nat sz)) as [C|C]; [|congruence].
  destruct F as [a2 [F1 [F2 [F3 F4]]]]. assert (a2 = a') by congruence. subst a2.
  destruct (N.lt_ge_cases idx2 (v_size (view_at a q m) / N.of_nat sz2)) as [C2|C2].
  2:{ unfold dv_read. destruct (N.ltb_spec idx2 (v_size (view_at a q m) / N.of_nat sz2)); [lia|reflexivity]. }
  destruct (read_spec a _ sz2 o2 idx2 W Q S2 C2) as [x [E [LX [LB R]]]].
  destruct (read_spec a' _ sz2 o2 idx2 F2 (F3 _ Q) S2 C2) as [x' [E' [LX' [LB' R']]]].
  rewrite R, R'. do 3 f_equal. rewrite (slice_at a _ _ _ _ E LB), (slice_at a' _ _ _ _ E' LB').
  apply map_ext_in. intros k Hk. apply in_seq in Hk. apply F4.
  destruct (N.eq_dec (v_line (view_at a q m)) (v_line (view_at a p n))) as [EL|NE]; [right|left; exact NE].
  pose proof (in_view sz idx _ S0 C) as I1. pose proof (in_view sz2 idx2 _ S2 C2) as I2.
  unfold loc, view_at in *. cbn [v_line v_off v_size] in *. rewrite EL in *.
  assert (B1 : N.shiftl (N.shiftr p (a_lsb a)) (a_lsb a) <= p).
  { rewrite N.shiftl_mul_pow2, N.shiftr_div_pow2, N.mul_comm. apply N.mul_div_le, N.pow_nonzero. lia. }
  assert (B2 : N.shiftl (N.shiftr p (a_lsb a)) (a_lsb a) <= q).
  { rewrite <- EL. rewrite N.shiftl_mul_pow2, N.shiftr_div_pow2, N.mul_comm. apply N.mul_div_le, N.pow_nonzero. lia. }
  generalize dependent (N.shiftl (N.shiftr p (a_lsb a)) (a_lsb a)). intros. lia.
Qed.
Print Assumptions C41_disjoint_views.

(** Copying a view copies its bytes. *)
Theorem C41_assign : forall a v w, wfa a -> placed a v -> placed a w -> v_size v = v_size w ->
  v_line v <> v_line w \/ v_off v + v_size v <= v_off w \/ v_off w + v_size w <= v_off v ->
  exists a', dv_assign a v w = Done a' /\ wfa a' /\
    (forall j, (j < N.to_nat (v_size v))%nat ->
       at_byte a' (v_line v) (N.to_nat (v_off v) + j) = at_byte a (v_line w) (N.to_nat (v_off w) + j)) /\
    (forall i j, i <> v_line v \/ (j < N.to_nat (v_off v))%nat \/ (N.to_nat (v_off v + v_size v) <= j)%nat ->
       at_byte a' i j = at_byte a i j).
Proof.
  intros a v w W [P1 P2] [Q1 Q2] ES D. unfold dv_assign. rewrite ES, N.eqb_refl. cbn [negb].
  destruct (find_line (v_line v) (a_lines a)) as [x|] eqn:E; [|contradiction].
  destruct (find_line (v_line w) (a_lines a)) as [y|] eqn:Ey; [|contradiction].
  assert (OV : (v_line v =? v_line w) && (v_off v <? v_off w + v_size w) && (v_off w <? v_off v + v_size w) = false).
  { destruct D as [D|[D|D]].
    - apply N.eqb_neq in D. rewrite D. reflexivity.
    - destruct (N.ltb_spec (v_off w) (v_off v + v_size w)); [lia|]. apply andb_false_r.
    - destruct (N.ltb_spec (v_off v) (v_off w + v_size w)); [lia|]. rewrite andb_false_r. reflexivity. }
  rewrite OV. pose proof (proj2 W _ _ E) as LX. pose proof (proj2 W _ _ Ey) as LY. pose proof (a_L_le a W) as LL.
  set (src := firstn (N.to_nat (v_size w)) (skipn (N.to_nat (v_off w)) (l_data y))).
  assert (LS : length src = N.to_nat (v_size w)) by (unfold src; rewrite firstn_length, skipn_length; lia).
  unfold line_write. rewrite LS, Nnat.N2Nat.id. rewrite w64_small by lia.
  destruct (N.ltb_spec (a_L a) (v_off v + v_size w)); [lia|].
  pose proof (patched a (v_line v) x (N.to_nat (v_off v)) src W E) as PT. rewrite LS in PT.
  specialize (PT ltac:(lia)). cbv zeta in PT. destruct PT as [W' [_ AB]]. cbn [put_line].
  eexists. split; [reflexivity|]. split; [exact W'|]. split.
  - intros j Hj. rewrite AB, N.eqb_refl. cbn [andb].
    destruct (Nat.leb_spec (N.to_nat (v_off v)) (N.to_nat (v_off v) + j)); [|lia].
    destruct (Nat.ltb_spec (N.to_nat (v_off v) + j) (N.to_nat (v_off v) + N.to_nat (v_size w))); [|lia]. cbn [andb].
    unfold src. rewrite nth_firstn by lia. rewrite nth_skipn. unfold at_byte. rewrite Ey. f_equal. lia.
  - intros i j H'. rewrite AB. destruct (N.eqb_spec i (v_line v)) as [->|]; cbn [andb]; [|reflexivity].
    destruct H' as [H'|[H'|H']]; [contradiction| |].
    + destruct (Nat.leb_spec (N.to_nat (v_off v)) j); [lia|reflexivity].
    + destruct (Nat.ltb_spec j (N.to_nat (v_off v) + N.to_nat (v_size w))); [lia|]. rewrite andb_false_r. reflexivity.
Qed.
Print Assumptions C41_assign.

(** Writing the initial bytes of a view makes exactly these bytes its content. *)
Lemma init_spec : forall buf a v i, wfa a -> placed a v -> i + N.of_nat (length buf) <= v_size v ->
  Forall (fun b => b < 256) buf ->
  exists a', dv_init a v buf i = Done a' /\ wfa a' /\ placed a' v /\
    forall k j, at_byte a' k j =
      if (k =? v_line v) && (Nat.leb (N.to_nat (v_off v + i)) j && Nat.ltb j (N.to_nat (v_off v + i) + length buf))
      then nth (j - N.to_nat (v_off v + i)) buf 0 else at_byte a k j.
Proof.
  induction buf as [|b r IH]; intros a v i W P H F; cbn [dv_init].
  - exists a. split; [reflexivity|]. split; [exact W|]. split; [exact P|]. intros k j. cbn [length].
    destruct (N.eqb_spec k (v_line v)); cbn [andb]; [|reflexivity].
    destruct (Nat.leb_spec (N.to_nat (v_off v + i)) j); cbn [andb]; [|reflexivity].
    destruct (Nat.ltb_spec j (N.to_nat (v_off v + i) + 0)); [lia|reflexivity].
  - apply Forall_cons_iff in F. destruct F as [F1 F2]. cbn [length] in H.
    assert (C : i < v_size v / N.of_nat 1) by (change (N.of_nat 1) with 1; rewrite N.div_1_r; lia).
    destruct (write_spec a v 1 LE b i W P ltac:(lia) C) as [x [E [LX [LB R]]]]. rewrite R.
    assert (EB : le_bytes 1 (reorder LE 1 b) = [b]) by (cbn; rewrite N.mod_small by exact F1; reflexivity). rewrite EB.
    pose proof (patched a (v_line v) x (loc 1 v i) [b] W E LB) as PT. cbv zeta in PT. cbn [length] in PT.
    destruct PT as [W' [PL AB]]. clear R. set (a1 := with_lines a _) in *.
    assert (P1 : placed a1 v) by (destruct P as [Q1 Q2]; split; [apply PL; exact Q1|exact Q2]).
    destruct (IH a1 v (i + 1) W' P1 ltac:(lia) F2) as [a2 [I1 [I2 [I3 I4]]]]. exists a2. split; [exact I1|].
    split; [exact I2|]. split; [exact I3|]. intros k j. rewrite I4, AB. unfold loc. change (N.of_nat 1) with 1. rewrite N.mul_1_r.
    cbn [length].
    destruct (N.eqb_spec k (v_line v)); cbn [andb]; [|reflexivity].
    destruct (Nat.leb_spec (N.to_nat (v_off v + (i + 1))) j); destruct (Nat.leb_spec (N.to_nat (v_off v + i)) j);
      cbn [andb]; try lia;
    repeat match goal with |- context [Nat.ltb ?x ?y] => destruct (Nat.ltb_spec x y); try lia end; cbn [andb]; try reflexivity.
    + replace (j - N.to_nat (v_off v + i))%nat with (S (j - N.to_nat (v_off v + (i + 1)))) by lia. reflexivity.
    + replace (j - N.to_nat (v_off v + i))%nat with 0%nat by lia. reflexivity.
Qed.
Theorem C41_initial : forall a v buf, wfa a -> placed a v -> N.of_nat (length buf) = v_size v ->
  Forall (fun b => b < 256) buf ->
  exists a', dv_init a v buf 0 = Done a' /\ wfa a' /\ placed a' v /\
    (forall j, (j < length buf)%nat -> at_byte a' (v_line v) (N.to_nat (v_off v) + j) = nth j buf 0) /\
    (forall i j, i <> v_line v \/ (j < N.to_nat (v_off v))%nat \/ (N.to_nat (v_off v + v_size v) <= j)%nat ->
       at_byte a' i j = at_byte a i j).
Proof.
  intros a v buf W P HL F. destruct (init_spec buf a v 0 W P ltac:(lia) F) as [a' [I1 [I2 [I3 I4]]]].
  exists a'. split; [exact I1|]. split; [exact I2|]. split; [exact I3|]. rewrite N.add_0_r in I4. split.
  - intros j Hj. rewrite I4, N.eqb_refl. cbn [andb].
    destruct (Nat.leb_spec (N.to_nat (v_off v)) (N.to_nat (v_off v) + j)); [|lia].
    destruct (Nat.ltb_spec (N.to_nat (v_off v) + j) (N.to_nat (v_off v) + length buf)); [|lia]. cbn [andb]. f_equal. lia.
  - intros i j H. rewrite I4. destruct (N.eqb_spec i (v_line v)) as [->|]; cbn [andb]; [|reflexivity].
    destruct H as [H|[H|H]]; [contradiction| |].
    + destruct (Nat.leb_spec (N.to_nat (v_off v)) j); [lia|reflexivity].
    + destruct (Nat.ltb_spec j (N.to_nat (v_off v) + length buf)); [lia|]. rewrite andb_false_r. reflexivity.
Qed.
Print Assumptions C41_initial.

(** Accesses of a whole small view through a type at least as wide: readPadded is the read of the view's own width,
    writeTruncated drops the high bytes, and nothing outside the view changes. The whole documented claim - any type and
    index - is false, see below. *)
Lemma read_lt : forall a v sz o idx w, wfa a -> placed a v -> access_size sz -> (forall i j, at_byte a i j < 256) ->
  dv_read sz o a v idx = Done w -> w < 2 ^ (8 * N.of_nat sz).
Proof.
  intros a v sz o idx w W P HA HB HR. pose proof (C41_read a v sz o idx W P HA HB) as R.
  destruct (idx <? v_size v / N.of_nat sz); [|congruence]. rewrite R in HR. injection HR as <-.
  set (l := map _ _). assert (LL : length l = sz) by (unfold l; rewrite map_length, seq_length; reflexivity).
  assert (F : Forall (fun b => b < 256) l) by (apply Forall_map, Forall_forall; intros; apply HB).
  rewrite <- LL. destruct o; cbn [value_of]; rewrite value_le_eq.
  - apply le_val_lt, F.
  - rewrite <- (rev_length l). apply le_val_lt, Forall_rev, F.
Qed.
Lemma padded_choice : forall n v, v_size v = N.of_nat n -> access_size n -> forall sz,
  (v_size v <? N.of_nat sz * 0) = false /\ pow2_or_0 (v_size v - N.of_nat sz * 0) = true /\
  v_size v - N.of_nat sz * 0 = N.of_nat n.
Proof.
  intros n v E HA sz. rewrite N.mul_0_r, N.sub_0_r, E. split; [|split; [|reflexivity]].
  - apply N.ltb_ge. lia.
  - destruct HA as [->|[->|[->| ->]]]; vm_compute; reflexivity.
Qed.
Lemma pow_mono : forall n sz, (n <= sz)%nat -> 2 ^ (8 * N.of_nat n) <= 2 ^ (8 * N.of_nat sz).
Proof. intros. apply N.pow_le_mono_r; lia. Qed.
Lemma padded_read : forall a v n sz o, wfa a -> placed a v -> v_size v = N.of_nat n -> access_size n -> (n <= sz)%nat ->
  (exists w, dv_read n o a v 0 = Done w /\ w < 2 ^ (8 * N.of_nat n)) -> dv_read_padded sz o a v 0 = dv_read n o a v 0.
Proof.
  intros a v n sz o W P E HA HS [w [HR HL]]. destruct (padded_choice n v E HA sz) as [P1 [P2 P3]].
  assert (CUT : w mod 2 ^ (8 * N.of_nat sz) = w).
  { apply N.mod_small. eapply N.lt_le_trans; [exact HL|]. apply pow_mono. exact HS. }
  unfold dv_read in HR. unfold dv_read_padded, dv_read. rewrite P1, P2, P3. cbn [negb]. rewrite E in *.
  destruct (negb (0 <? N.of_nat n / N.of_nat n)); [discriminate|].
  destruct (find_line (v_line v) (a_lines a)); [|discriminate]. rewrite HR.
  destruct HA as [->|[->|[->| ->]]]; cbn [N.of_nat Pos.of_succ_nat Pos.succ N.leb N.eqb N.compare Pos.compare Pos.compare_cont Pos.eqb];
    rewrite HR, CUT; reflexivity.
Qed.
Theorem C41_padded_partial : forall a v n sz o val, wfa a -> placed a v -> v_size v = N.of_nat n -> access_size n ->
  access_size sz -> (n <= sz)%nat -> val < 2 ^ (8 * N.of_nat sz) ->
  ((forall i j, at_byte a i j < 256) -> dv_read_padded sz o a v 0 = dv_read n o a v 0) /\
  exists a', dv_write_truncated sz o a v val 0 = Done a' /\ dv_write n o a v (val mod 2 ^ (8 * N.of_nat n)) 0 = Done a' /\
    dv_read_padded sz o a' v 0 = Done (val mod 2 ^ (8 * N.of_nat n)) /\
    forall i j, i <> v_line v \/ (j < N.to_nat (v_off v))%nat \/ (N.to_nat (v_off v) + n <= j)%nat ->
      at_byte a' i j = at_byte a i j.
Proof.
  intros a v n sz o val W P E HA HA2 HS HV.
  assert (S0 : (0 < n)%nat) by (unfold access_size in HA; lia).
  assert (C : 0 < v_size v / N.of_nat n) by (rewrite E, N.div_same by lia; lia).
  assert (NZ : 2 ^ (8 * N.of_nat n) <> 0) by (apply N.pow_nonzero; discriminate).
  split.
  - intros HB. apply padded_read; auto. destruct (read_spec a v n o 0 W P S0 C) as [x [_ [_ [_ R]]]].
    eexists. split; [exact R|]. eapply read_lt; eauto.
  - set (val' := val mod 2 ^ (8 * N.of_nat n)) in *.
    assert (HV' : val' < 2 ^ (8 * N.of_nat n)) by (apply N.mod_lt; exact NZ).
    pose proof (C41_write_frame a v n o val' 0 W P HA HV') as F.
    destruct (N.ltb_spec 0 (v_size v / N.of_nat n)); [|lia]. destruct F as [a' [F1 [F2 [F3 F4]]]].
    destruct (C41_round_trip a v n o val' 0 a' W P HA HV' F1) as [_ [P' [R _]]].
    exists a'. split; [|split; [exact F1|split]].
    + destruct (padded_choice n v E HA sz) as [P1 [P2 P3]].
      unfold dv_write in F1. unfold dv_write_truncated. rewrite P1, P2, P3. cbn [negb]. rewrite E in *.
      destruct (negb (0 <? N.of_nat n / N.of_nat n)); [discriminate|].
      destruct (find_line (v_line v) (a_lines a)); [|discriminate].
      destruct HA as [->|[->|[->| ->]]]; exact F1.
    + rewrite (padded_read a' v n sz o F2 P' E HA HS); [exact R|]. exists val'. split; [exact R|exact HV'].
    + intros i j Hj. apply F4. unfold loc. rewrite N.mul_0_l, N.add_0_r. exact Hj.
Qed.
Print Assumptions C41_padded_partial.

(** A 64-byte line with bytes 0, 1, 2, ... *)
Definition ex_ad : adata :=
  mkAD 6 64 0 4 true [(0, mkLine (map N.of_nat (seq 0 64)) false)].
Definition after (r : outcome adata) (f : adata -> Prop) : Prop := match r with Done a => f a | _ => False end.
Lemma ex_wfa : wfa ex_ad.
Proof.
  split; [vm_compute; discriminate|]. intros i x. unfold ex_ad. cbn [a_lines find_line].
  destruct (0 =? i); intros E; [injection E as <-; reflexivity|discriminate].
Qed.
Lemma ex_bytes : forall i j, at_byte ex_ad i j < 256.
Proof.
  intros i j. unfold at_byte, ex_ad. cbn [a_lines find_line]. destruct (0 =? i); [|reflexivity]. cbn [l_data].
  destruct (Nat.lt_ge_cases j 64) as [H|H].
  - change 0 with (N.of_nat 0). rewrite map_nth, seq_nth by exact H. lia.
  - rewrite nth_overflow by exact H. reflexivity.
Qed.
(** A 16-byte view at 32 and an 8-byte view at 48. *)
Example C41_ex : wfa ex_ad /\ (forall i j, at_byte ex_ad i j < 256) /\
  placed ex_ad (view_at ex_ad 32 16) /\ placed ex_ad (view_at ex_ad 48 8) /\
  dv_read 4 LE ex_ad (view_at ex_ad 32 16) 1 = Done 656811300 (* 0x27262524 *) /\
  dv_read 4 BE ex_ad (view_at ex_ad 32 16) 1 = Done 606414375 (* 0x24252627 *) /\
  dv_read 4 BE ex_ad (view_at ex_ad 32 16) 4 = Asserted /\
  after (dv_write 4 BE ex_ad (view_at ex_ad 32 16) 287454020 (* 0x11223344 *) 2) (fun a =>
    dv_read 4 BE a (view_at ex_ad 32 16) 2 = Done 287454020 /\
    dv_read 2 BE a (view_at ex_ad 32 16) 4 = Done 4386 (* 0x1122 *) /\
    dv_read 2 LE a (view_at ex_ad 32 16) 4 = Done 8721 (* 0x2211 *) /\
    dv_read 8 LE a (view_at ex_ad 48 8) 0 = dv_read 8 LE ex_ad (view_at ex_ad 48 8) 0).
Proof.
  split; [exact ex_wfa|]. split; [exact ex_bytes|].
  split; [split; vm_compute; discriminate|]. split; [split; vm_compute; discriminate|].
  vm_compute. repeat split; reflexivity.
Qed.
(** Four-byte lines, the second of which is held; a two-byte view at 6. *)
Example C41_same_memory_ex : let a := mkAD 2 16 0 4 true [(1, mkLine [10; 11; 12; 13] false)] in
  wfa a /\ placed a (view_at a 6 2) /\ mem_read (fun _ => None) a 6 2 = Done [12; 13] /\ dv_read 2 BE a (view_at a 6 2) 0 = Done 3085.
Proof.
  cbv zeta. split; [|split; [split; vm_compute; discriminate|split; vm_compute; reflexivity]].
  split; [vm_compute; discriminate|]. intros i x. cbn [a_lines find_line].
  destruct (1 =? i); intros E; [injection E as <-; reflexivity|discriminate].
Qed.
Example C41_copy_ex :
  placed ex_ad (view_at ex_ad 0 4) /\ placed ex_ad (view_at ex_ad 8 4) /\ placed ex_ad (view_at ex_ad 2 4) /\
  after (dv_assign ex_ad (view_at ex_ad 0 4) (view_at ex_ad 8 4)) (fun a =>
    dv_read 4 BE a (view_at ex_ad 0 4) 0 = Done 134810123 (* 0x08090a0b *)) /\
  (* overlapping views of one register: memcpy of overlapping ranges *)
  dv_assign ex_ad (view_at ex_ad 0 4) (view_at ex_ad 2 4) = Undefined /\
  after (dv_init ex_ad (view_at ex_ad 0 4) [1; 2; 3; 255] 0) (fun a =>
    dv_read 4 LE a (view_at ex_ad 0 4) 0 = Done 4278387201 (* 0xff030201 *)).
Proof.
  split; [split; vm_compute; discriminate|]. split; [split; vm_compute; discriminate|].
  split; [split; vm_compute; discriminate|]. vm_compute. repeat split; reflexivity.
Qed.
Example C41_padded_ex : placed ex_ad (view_at ex_ad 4 2) /\
  dv_read_padded 8 LE ex_ad (view_at ex_ad 4 2) 0 = Done 1284 (* 0x0504 *) /\
  after (dv_write_truncated 8 BE ex_ad (view_at ex_ad 4 2) 305419896 (* 0x12345678 *) 0) (fun a =>
    dv_read_padded 4 BE a (view_at ex_ad 4 2) 0 = Done 22136 (* 0x5678 *)).
Proof. split; [split; vm_compute; discriminate|]. vm_compute. repeat split; reflexivity. Qed.

(** readPadded and writeTruncated with a type narrower than the view leave the view: with uint32_t at index 2 of a 16-byte
    view they access the 8 bytes behind it. *)
Theorem C41_padded_outside_refuted : exists a v, wfa a /\ placed a v /\ v_size v = 16 /\ N.of_nat 4 * 2 + 4 <= v_size v /\
  dv_read_padded 4 LE a v 2 <> dv_read 4 LE a v 2 /\
  exists a' j, dv_write_truncated 4 LE a v 0 2 = Done a' /\
    (N.to_nat (v_off v + v_size v) <= j)%nat /\ at_byte a' (v_line v) j <> at_byte a (v_line v) j.
Proof.
  exists ex_ad, (view_at ex_ad 32 16). split; [exact ex_wfa|]. split; [split; vm_compute; discriminate|].
  split; [reflexivity|]. split; [vm_compute; discriminate|]. split; [vm_compute; discriminate|].
  eexists. exists 48%nat. split; [vm_compute; reflexivity|]. split; [vm_compute; lia|]. vm_compute. discriminate.
Qed.
Print Assumptions C41_padded_outside_refuted.
(** writeTruncated<uint32_t> at index 0 of an 8-byte view also clears the other 4 bytes. *)
Theorem C41_truncated_widens_refuted : exists a v, wfa a /\ placed a v /\ v_size v = 8 /\
  exists a', dv_write_truncated 4 LE a v 1 0 = Done a' /\ dv_read 4 LE a v 1 <> Done 0 /\ dv_read 4 LE a' v 1 = Done 0.
Proof.
  exists ex_ad, (view_at ex_ad 32 8). split; [exact ex_wfa|]. split; [split; vm_compute; discriminate|].
  split; [reflexivity|]. eexists. split; [vm_compute; reflexivity|]. split; vm_compute; [discriminate|reflexivity].
Qed.
Print Assumptions C41_truncated_widens_refuted.
(** readPadded<uint32_t, BE> at index 0 of an 8-byte view returns bytes 4..7, not 0..3. *)
Theorem C41_padded_big_endian_refuted : exists a v, wfa a /\ placed a v /\ v_size v = 8 /\
  dv_read_padded 4 BE a v 0 = dv_read 4 BE a v 1 /\ dv_read 4 BE a v 1 <> dv_read 4 BE a v 0.
Proof.
  exists ex_ad, (view_at ex_ad 32 8). split; [exact ex_wfa|]. split; [split; vm_compute; discriminate|].
  split; [reflexivity|]. split; [vm_compute; reflexivity|vm_compute; discriminate].
Qed.
Print Assumptions C41_padded_big_endian_refuted.
(** A 32-byte view cannot be read with readPadded<uint64_t> at index 1, where read<uint64_t> is fine. *)
Theorem C41_padded_rejects_refuted : exists a v w, wfa a /\ placed a v /\ v_size v = 32 /\
  dv_read 8 LE a v 1 = Done w /\ dv_read_padded 8 LE a v 1 = Asserted.
Proof.
  exists ex_ad, (view_at ex_ad 32 32). eexists. split; [exact ex_wfa|]. split; [split; vm_compute; discriminate|].
  split; [reflexivity|]. split; vm_compute; reflexivity.
Qed.
Print Assumptions C41_padded_rejects_refuted.
