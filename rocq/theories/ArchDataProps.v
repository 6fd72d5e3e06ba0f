(** C37: ArchData reads return the last write. *)
From Coq Require Import List NArith Arith Bool Lia.
From Verif Require Import MathUtilsModel LayoutModel LayoutProofs LayoutProps ArchDataModel ArchDataProofs BitArrayProps.
Import ListNotations.
Open Scope N_scope.

(** The specification: a byte per address, [None] where nothing was written since the last clean. *)
Definition smem := N -> option N.
(** The byte of the repeated fill pattern at an address: the pattern restarts at every line. *)
Definition fill_at (k fill : N) (fsz : nat) (b : N) : N := byte fill (Nat.modulo (N.to_nat (b mod 2 ^ k)) fsz).
Definition content (k fill : N) (fsz : nat) (m : smem) (b : N) : N :=
  match m b with Some v => v | None => fill_at k fill fsz b end.
(** An access is legal if it starts inside the memory and does not leave its line. *)
Definition legal (k total addr size : N) : bool := (addr <? total) && (addr mod 2 ^ k + size <=? 2 ^ k).
Definition swrite (m : smem) (addr : N) (buf : list N) : smem :=
  fun b => if (addr <=? b) && (b <? addr + N.of_nat (length buf)) then Some (nth (N.to_nat (b - addr)) buf 0) else m b.
Definition sstep (k total : N) (m : smem) (o : mop) : smem :=
  match o with
  | MWrite addr buf => if legal k total addr (N.of_nat (length buf)) then swrite m addr buf else m
  | MRead _ _ => m
  | MClean => fun _ => None
  end.
Definition sread (k fill : N) (fsz : nat) (m : smem) (addr size : N) : list N :=
  map (fun i => content k fill fsz m (addr + N.of_nat i)) (seq 0 (N.to_nat size)).
(** Address and size of a call do not wrap. *)
Definition op_small (o : mop) : Prop :=
  match o with MWrite addr buf => addr + N.of_nat (length buf) < 2 ^ 64 | MRead addr size => addr + size < 2 ^ 64 | MClean => True end.
Definition rejected {A} (o : outcome A) : Prop := o = Asserted \/ o = Refused.

Lemma map_seq_nth : forall (f : nat -> N) n m, (n < m)%nat -> nth n (map f (seq 0 m)) 0 = f n.
Proof.
  intros f n m H. rewrite (nth_indep _ 0 (f 0%nat)) by (rewrite map_length, seq_length; exact H).
  rewrite map_nth, seq_nth by exact H. reflexivity.
Qed.
Lemma sread_nth : forall k fill fsz m addr size n, (n < N.to_nat size)%nat ->
  nth n (sread k fill fsz m addr size) 0 = content k fill fsz m (addr + N.of_nat n).
Proof. intros. unfold sread. apply (map_seq_nth (fun i => content k fill fsz m (addr + N.of_nat i))). assumption. Qed.

Section AD.
  Variables (sh : overshift) (k total fill : N) (fsz : nat) (free : bool).
  Hypothesis Hk : k <= 30.
  Hypothesis HT : total < 2 ^ 64.
  Hypothesis HM : total mod 2 ^ k = 0.
  Hypothesis HZ : fsz_ok fsz.
  Hypothesis HF : fill < 2 ^ (8 * N.of_nat fsz).
  Hypothesis HS : sh_ok sh fsz fill.
  Notation L := (2 ^ k).

  Record RI (a : adata) (m : smem) : Prop := mkRI {
    ri_lsb : a_lsb a = k; ri_size : a_size a = total; ri_fill : a_fill a = fill; ri_fsz : a_fsz a = fsz; ri_free : a_free a = free;
    ri_line : forall i x, find_line i (a_lines a) = Some x -> length (l_data x) = N.to_nat L /\
       forall j, j < L -> nth (N.to_nat j) (l_data x) 0 = content k fill fsz m (i * L + j);
    ri_none : forall b, find_line (b / L) (a_lines a) = None -> m b = None
  }.

  Lemma Lpos : 0 < L. Proof. clear. apply N.neq_0_lt_0, N.pow_nonzero. lia. Qed.
  Lemma Lle : L <= 1073741824.
  Proof. clear - Hk. change 1073741824 with (2 ^ 30). apply N.pow_le_mono_r; lia. Qed.
  Lemma fsz_pos : (0 < fsz)%nat. Proof. clear - HZ. unfold fsz_ok in HZ. lia. Qed.

  Lemma fill_at_line : forall i j, j < L -> fill_at k fill fsz (i * L + j) = byte fill (Nat.modulo (N.to_nat j) fsz).
  Proof.
    intros i j H. unfold fill_at. pose proof Lpos as P. clear - P H.
    rewrite N.add_comm, N.mod_add by lia. rewrite N.mod_small by exact H. reflexivity.
  Qed.

  Lemma fill_line_ok : forall a m, RI a m -> exists d, fill_line sh a = Done d /\ length d = N.to_nat L /\
    forall i j, j < L -> nth (N.to_nat j) d 0 = fill_at k fill fsz (i * L + j).
  Proof.
    intros a m R. unfold fill_line, a_L. rewrite (ri_lsb a m R), (ri_fill a m R), (ri_fsz a m R).
    pose proof Lle as LL. pose proof fsz_pos as FP.
    destruct (fill_spec sh L fill fsz 0 HZ HF FP (fun _ => HS)) as [l [E1 [E2 E3]]].
    { change (2 ^ 32) with 4294967296. lia. }
    exists l. split; [exact E1|]. split; [exact E2|]. intros i j Hj. rewrite E3 by lia.
    rewrite fill_at_line by exact Hj. reflexivity.
  Qed.

  Lemma idx_split : forall b, b = b / L * L + b mod L.
  Proof. clear. intros b. pose proof (N.div_mod b L) as H. rewrite N.mul_comm. apply H. apply N.pow_nonzero. lia. Qed.

  Lemma alloc_ok : forall a m addr, RI a m -> addr < total -> find_line (addr / L) (a_lines a) = None ->
    exists d, allocate sh a (addr / L) = Done (with_lines a (a_lines a ++ [(addr / L, mkLine d true)])) /\
      RI (with_lines a (a_lines a ++ [(addr / L, mkLine d true)])) m.
  Proof.
    intros a m addr R HA HN. destruct (fill_line_ok a m R) as [d [D1 [D2 D3]]]. exists d.
    unfold allocate, a_L. rewrite (ri_lsb a m R), (ri_size a m R), D1.
    assert (B : addr / L * L <= addr) by (pose proof (idx_split addr); lia).
    rewrite w64_small by (change (2 ^ 64) with 18446744073709551616 in HT; lia).
    destruct (N.ltb_spec total (addr / L * L)); [lia|]. split; [reflexivity|].
    destruct R as [R1 R2 R3 R4 R5 R6 R7]. constructor; cbn [with_lines a_lsb a_size a_fill a_fsz a_free a_lines]; auto.
    - intros i x Hx. destruct (N.eq_dec (addr / L) i) as [<-|Ne].
      + rewrite find_app_new in Hx by exact HN. injection Hx as <-. cbn [l_data]. split; [exact D2|].
        intros j Hj. rewrite (D3 (addr / L) j Hj). unfold content. rewrite R7; [reflexivity|].
        pose proof Lpos. rewrite N.div_add_l by lia. rewrite (N.div_small j) by exact Hj. rewrite N.add_0_r. exact HN.
      + rewrite find_app_old in Hx by exact Ne. apply R6. exact Hx.
    - intros b Hb. apply R7. destruct (N.eq_dec (addr / L) (b / L)) as [E|Ne].
      + rewrite E in *. rewrite find_app_new in Hb by exact HN. discriminate.
      + rewrite find_app_old in Hb by exact Ne. exact Hb.
  Qed.

  Lemma get_line_ok : forall a m addr, RI a m ->
    if addr <? total then exists a' x, get_line sh a addr = Done (a', x) /\ RI a' m /\
                          find_line (addr / L) (a_lines a') = Some x
    else get_line sh a addr = Asserted.
  Proof.
    intros a m addr R. unfold get_line. rewrite (ri_lsb a m R), (ri_size a m R), N.shiftr_div_pow2.
    destruct (N.ltb_spec addr total) as [C|C]; cbn [negb]; [|reflexivity].
    destruct (find_line (addr / L) (a_lines a)) as [x|] eqn:E; [eauto|].
    destruct (alloc_ok a m addr R C E) as [d [A1 A2]]. rewrite A1. cbn [with_lines a_lines].
    rewrite find_app_new by exact E. eexists _, _. split; [reflexivity|]. split; [exact A2|].
    cbn [with_lines a_lines]. apply find_app_new. exact E.
  Qed.

  Lemma off_eq : forall addr, addr - N.shiftl (N.shiftr addr k) k = addr mod L.
  Proof.
    clear. intros addr. rewrite N.shiftl_mul_pow2, N.shiftr_div_pow2. pose proof (idx_split addr) as H. revert H.
    generalize (addr / L * L) (addr mod L). intros. lia.
  Qed.

  Lemma modL : forall addr, addr mod L < L. Proof. clear. intros. apply N.mod_lt, N.pow_nonzero. lia. Qed.

  Lemma write_ok : forall a m addr buf, RI a m -> addr + N.of_nat (length buf) < 2 ^ 64 ->
    if legal k total addr (N.of_nat (length buf))
    then exists a', mem_write sh a addr buf = (a', Done tt) /\ RI a' (swrite m addr buf)
    else exists a', mem_write sh a addr buf = (a', Asserted) /\ RI a' m.
  Proof.
    intros a m addr buf R HB. unfold legal, mem_write. pose proof (get_line_ok a m addr R) as G.
    destruct (N.ltb_spec addr total) as [C|C]; cbn [andb].
    2:{ rewrite G. eauto. }
    destruct G as [a' [x [G1 [G2 G3]]]]. rewrite G1. unfold a_L. rewrite (ri_lsb a m R), off_eq, N.shiftr_div_pow2.
    unfold line_write. pose proof (modL addr) as ML. pose proof Lle as LL. pose proof Lpos as LP.
    assert (MA : addr mod L <= addr) by (apply N.mod_le; lia).
    rewrite w64_small by (change (2 ^ 64) with 18446744073709551616 in HB; lia).
    destruct (N.leb_spec (addr mod L + N.of_nat (length buf)) L) as [D|D].
    2:{ destruct (N.ltb_spec L (addr mod L + N.of_nat (length buf))); [|lia]. eauto. }
    destruct (N.ltb_spec L (addr mod L + N.of_nat (length buf))); [lia|].
    eexists. split; [reflexivity|]. pose proof G2 as G2'. destruct G2 as [R1 R2 R3 R4 R5 R6 R7].
    destruct (R6 _ _ G3) as [X1 X2].
    assert (OB : (N.to_nat (addr mod L) + length buf <= length (l_data x))%nat) by (rewrite X1; lia).
    destruct (splice_nth (l_data x) buf (N.to_nat (addr mod L)) OB) as [S1 S2].
    pose proof (idx_split addr) as IA.
    constructor; cbn [with_lines a_lsb a_size a_fill a_fsz a_free a_lines]; auto.
    - intros i y Hy. destruct (N.eq_dec (addr / L) i) as [<-|Ne].
      + rewrite find_set_eq in Hy by congruence. injection Hy as <-. cbn [l_data]. split; [congruence|].
        intros j Hj. rewrite S2. unfold content, swrite.
        destruct (Nat.leb_spec (N.to_nat (addr mod L)) (N.to_nat j)) as [A|A];
          destruct (N.leb_spec addr (addr / L * L + j)) as [A'|A']; try lia; cbn [andb].
        * destruct (Nat.ltb_spec (N.to_nat j) (N.to_nat (addr mod L) + length buf)) as [B|B];
            destruct (N.ltb_spec (addr / L * L + j) (addr + N.of_nat (length buf))) as [B'|B']; try lia.
          -- f_equal. lia.
          -- apply X2. exact Hj.
        * apply X2. exact Hj.
      + rewrite find_set_ne in Hy by exact Ne. destruct (R6 i y Hy) as [Y1 Y2]. split; [exact Y1|].
        intros j Hj. rewrite Y2 by exact Hj. unfold content, swrite.
        destruct (N.leb_spec addr (i * L + j)) as [A|A]; cbn [andb]; [|reflexivity].
        destruct (N.ltb_spec (i * L + j) (addr + N.of_nat (length buf))) as [B|B]; [|reflexivity].
        exfalso. apply Ne.
        assert (I1 : i * L < (addr / L + 1) * L) by lia. assert (I2 : addr / L * L < (i + 1) * L) by lia.
        apply N.mul_lt_mono_pos_r in I1; [|exact LP]. apply N.mul_lt_mono_pos_r in I2; [|exact LP]. lia.
    - intros b Hb. unfold swrite.
      destruct (N.eq_dec (addr / L) (b / L)) as [E|Ne].
      + rewrite E in Hb. rewrite find_set_eq in Hb by congruence. discriminate.
      + rewrite find_set_ne in Hb by exact Ne. pose proof (idx_split b) as IB. pose proof (modL b).
        destruct (N.leb_spec addr b) as [A|A]; cbn [andb]; [|apply R7; exact Hb].
        destruct (N.ltb_spec b (addr + N.of_nat (length buf))) as [B|B]; [|apply R7; exact Hb].
        exfalso. apply Ne.
        assert (I1 : b / L * L < (addr / L + 1) * L) by lia. assert (I2 : addr / L * L < (b / L + 1) * L) by lia.
        apply N.mul_lt_mono_pos_r in I1; [|exact LP]. apply N.mul_lt_mono_pos_r in I2; [|exact LP]. lia.
  Qed.

  Lemma clean_ok : forall a m, RI a m -> exists a', mem_clean sh a = (a', Done tt) /\ RI a' (fun _ => None).
  Proof.
    intros a m R. pose proof R as R'. destruct R as [R1 R2 R3 R4 R5 R6 R7].
    assert (E0 : RI (with_lines a []) (fun _ => None)).
    { constructor; cbn [with_lines a_lsb a_size a_fill a_fsz a_free a_lines find_line]; auto. intros i x H. discriminate. }
    unfold mem_clean. destruct (a_free a) eqn:EF; [eauto|].
    destruct (a_lines a) as [|p r] eqn:EL.
    { exists a. split; [reflexivity|]. constructor; auto; try (rewrite EL; cbn; intros; discriminate). congruence. }
    rewrite <- EL in *. destruct (fill_line_ok a m R') as [d [D1 [D2 D3]]]. rewrite D1.
    eexists. split; [reflexivity|].
    constructor; cbn [with_lines a_lsb a_size a_fill a_fsz a_free a_lines]; auto; try congruence.
    intros i x Hx. rewrite (find_map (fun y => mkLine d (l_dirty y))) in Hx.
    destruct (find_line i (a_lines a)); [|discriminate]. injection Hx as <-. cbn [l_data]. split; [exact D2|].
    intros j Hj. rewrite (D3 i j Hj). reflexivity.
  Qed.

  Lemma read_ok : forall a m addr size, RI a m -> addr + size < 2 ^ 64 ->
    if legal k total addr size then mem_read sh a addr size = Done (sread k fill fsz m addr size)
    else rejected (mem_read sh a addr size).
  Proof.
    intros a m addr size R HB. unfold legal, mem_read, a_L.
    pose proof R as R'. destruct R as [R1 R2 R3 R4 R5 R6 R7]. rewrite R1, R2, R3, R4, N.shiftr_div_pow2.
    destruct (N.ltb_spec addr total) as [C|C]; cbn [andb negb]; [|left; reflexivity].
    pose proof (modL addr) as ML. pose proof Lle as LL. pose proof Lpos as LP. pose proof (idx_split addr) as IA.
    assert (MA : addr mod L <= addr) by (apply N.mod_le; clear - LP; lia).
    change (2 ^ 64) with 18446744073709551616 in HB.
    destruct (find_line (addr / L) (a_lines a)) as [x|] eqn:E.
    - rewrite <- N.shiftr_div_pow2, off_eq. unfold line_read. rewrite w64_small by lia.
      destruct (N.leb_spec (addr mod L + size) L) as [D|D].
      2:{ destruct (N.ltb_spec L (addr mod L + size)); [left; reflexivity|lia]. }
      destruct (N.ltb_spec L (addr mod L + size)); [lia|]. f_equal.
      destruct (R6 _ _ E) as [X1 X2].
      apply nth_ext with 0 0.
      + rewrite firstn_length, skipn_length, X1. unfold sread. rewrite map_length, seq_length. lia.
      + rewrite firstn_length, skipn_length, X1. intros n Hn.
        rewrite nth_firstn by lia. rewrite nth_skipn. rewrite sread_nth by lia.
        specialize (X2 (addr mod L + N.of_nat n) ltac:(lia)).
        replace (N.to_nat (addr mod L) + n)%nat with (N.to_nat (addr mod L + N.of_nat n)) by lia. rewrite X2.
        f_equal. lia.
    - unfold can_access, a_L. rewrite R1, R2. unfold in_line_ok.
      rewrite (land_mask k addr) by lia. rewrite (w64_small (addr + size)) by lia.
      assert (B : addr / L * L <= addr) by lia.
      assert (EW : w64 (addr + size + 2 ^ 64 - addr / L * L) = addr mod L + size).
      { change (2 ^ 64) with 18446744073709551616.
        replace (addr + size + 18446744073709551616 - addr / L * L) with (addr mod L + size + 1 * 18446744073709551616) by lia.
        unfold w64. change (2 ^ 64) with 18446744073709551616. rewrite N.mod_add by lia. apply N.mod_small. lia. }
      rewrite EW.
      destruct (N.leb_spec (addr mod L + size) L) as [D|D].
      2:{ destruct (N.ltb_spec L (addr mod L + size)); [right; reflexivity|lia]. }
      destruct (N.ltb_spec L (addr mod L + size)); [lia|]. cbn [negb].
      assert (TE : addr / L * L + L <= total).
      { pose proof (N.div_mod total L ltac:(lia)) as DT. rewrite HM, N.add_0_r in DT.
        assert (X : addr / L < total / L).
        { apply N.mul_lt_mono_pos_r with L; [exact LP|]. lia. }
        assert (Y : (addr / L + 1) * L <= total / L * L) by (apply N.mul_le_mono_r; lia). lia. }
      destruct (N.ltb_spec total (addr + size)); [lia|].
      pose proof fsz_pos as FP.
      destruct (fill_spec sh size fill fsz (Nat.modulo (N.to_nat (addr mod L)) fsz) HZ HF) as [l [E1 [E2 E3]]].
      + apply Nat.mod_upper_bound. lia.
      + intros _. exact HS.
      + change (2 ^ 32) with 4294967296. lia.
      + rewrite E1. f_equal. apply nth_ext with 0 0.
        * rewrite E2. unfold sread. rewrite map_length, seq_length. reflexivity.
        * rewrite E2. intros n Hn. rewrite E3 by exact Hn. rewrite sread_nth by lia.
          assert (Q : addr + N.of_nat n = addr / L * L + (addr mod L + N.of_nat n)) by lia.
          assert (QL : addr mod L + N.of_nat n < L) by lia.
          unfold content. rewrite Q. rewrite R7.
          -- rewrite fill_at_line by exact QL. rewrite Nat.add_mod_idemp_l by lia. f_equal. f_equal. lia.
          -- rewrite N.div_add_l by lia. rewrite (N.div_small (addr mod L + N.of_nat n)) by exact QL.
             rewrite N.add_0_r. exact E.
  Qed.

  Lemma run_ok : forall ops a m, RI a m -> Forall op_small ops ->
    exists a', mrun sh a ops = Some a' /\ RI a' (fold_left (sstep k total) ops m).
  Proof.
    induction ops as [|o r IH]; intros a m R HO; cbn [mrun fold_left]; [eauto|].
    apply Forall_cons_iff in HO. destruct HO as [H1 H2]. destruct o as [addr buf|addr size|]; cbn [sstep op_small] in *.
    - pose proof (write_ok a m addr buf R H1) as Wk. destruct (legal k total addr (N.of_nat (length buf)));
        destruct Wk as [a' [W1 W2]]; rewrite W1; apply IH; assumption.
    - pose proof (read_ok a m addr size R H1) as Rk. destruct (legal k total addr size).
      + rewrite Rk. apply IH; assumption.
      + destruct Rk as [-> | ->]; apply IH; assumption.
    - destruct (clean_ok a m R) as [a' [C1 C2]]. rewrite C1. apply IH; assumption.
  Qed.

  Lemma make_ok : forall a, mem_make k total fill fsz free = Done a -> RI a (fun _ => None).
  Proof.
    intros a H. unfold mem_make in H. destruct (negb _); [discriminate|]. destruct (negb _); [discriminate|].
    destruct (line_mask L); try discriminate. destruct ((total =? 0) || _); [discriminate|]. injection H as <-.
    constructor; cbn; auto. intros i x X. discriminate.
  Qed.
End AD.

(** What construction guarantees. *)
Lemma make_facts : forall k total fill fsz free a, mem_make k total fill fsz free = Done a ->
  k <= 30 /\ total mod 2 ^ k = 0 /\ fsz_ok fsz /\ (fsz <> 8%nat -> fill < 2 ^ (8 * N.of_nat fsz)).
Proof.
  intros k total fill fsz free a H. unfold mem_make in H.
  destruct (negb (Nat.eqb fsz 1 || _ || _ || _)) eqn:E1; [discriminate|]. destruct (negb (Nat.eqb fsz 8 || _)) eqn:E2; [discriminate|].
  assert (KB : k <= 30).
  { destruct (N.le_gt_cases k 30) as [C|C]; [exact C|]. exfalso.
    assert (P : 2 ^ 31 <= 2 ^ k) by (apply N.pow_le_mono_r; lia). unfold line_mask in H.
    destruct (N.eqb_spec (2 ^ k) 0) as [Z|Z]; [apply N.pow_nonzero in Z; [contradiction|lia]|].
    destruct (N.ltb_spec (2 ^ 31) (2 ^ k)) as [D|D]; [discriminate|].
    destruct (negb (is_power_of_2 _)); [discriminate|]. destruct (N.eqb_spec (2 ^ k) (2 ^ 31)) as [F|F]; [discriminate|]. lia. }
  rewrite mask_pow in H by exact KB. destruct ((total =? 0) || _) eqn:E3; [discriminate|].
  apply orb_false_elim in E3. destruct E3 as [_ E3]. apply negb_false_iff, N.eqb_eq in E3.
  apply negb_false_iff in E1, E2.
  split; [exact KB|]. split; [exact E3|]. split.
  - unfold fsz_ok. apply orb_prop in E1. destruct E1 as [E1|E1]; [apply orb_prop in E1; destruct E1 as [E1|E1];
      [apply orb_prop in E1; destruct E1 as [E1|E1]|]|]; apply Nat.eqb_eq in E1; auto.
  - intros N8. apply orb_prop in E2. destruct E2 as [E2|E2]; [apply Nat.eqb_eq in E2; contradiction|].
    apply N.eqb_eq in E2. rewrite N.shiftr_div_pow2 in E2.
    apply N.div_small_iff in E2; [exact E2|]. apply N.pow_nonzero. lia.
Qed.

(** Whatever was written, read and cleaned before, a legal read returns for each byte the last byte written there since
    the last clean, or else the fill pattern; an illegal one is rejected. "Partial": calls whose address and size do not
    wrap, and four and eight byte patterns only where an over-wide shift is harmless - see below. *)
Theorem C37_reads_partial : forall sh k total fill fsz free a ops,
  mem_make k total fill fsz free = Done a -> total < 2 ^ 64 -> fill < 2 ^ 64 -> sh_ok sh fsz fill -> Forall op_small ops ->
  exists a', mrun sh a ops = Some a' /\
    forall addr size, addr + size < 2 ^ 64 ->
      if legal k total addr size
      then mem_read sh a' addr size = Done (sread k fill fsz (fold_left (sstep k total) ops (fun _ => None)) addr size)
      else rejected (mem_read sh a' addr size).
Proof.
  intros sh k total fill fsz free a ops HMk HT HF HS HO.
  destruct (make_facts _ _ _ _ _ _ HMk) as [Hk [HM [HZ HF8]]].
  assert (HF' : fill < 2 ^ (8 * N.of_nat fsz)).
  { destruct (Nat.eq_dec fsz 8) as [->|N8]; [exact HF|apply HF8; exact N8]. }
  pose proof (make_ok k total fill fsz free a HMk) as R0.
  destruct (run_ok sh k total fill fsz free Hk HT HM HZ HF' HS ops a _ R0 HO) as [a' [E R]].
  exists a'. split; [exact E|]. intros addr size HB.
  exact (read_ok sh k total fill fsz free Hk HT HM HZ HF' HS a' _ addr size R HB).
Qed.
Print Assumptions C37_reads_partial.

(** Every write that is legal succeeds, every other one is rejected. *)
Theorem C37_writes_partial : forall sh k total fill fsz free a ops a' addr buf,
  mem_make k total fill fsz free = Done a -> total < 2 ^ 64 -> fill < 2 ^ 64 -> sh_ok sh fsz fill -> Forall op_small ops ->
  mrun sh a ops = Some a' -> addr + N.of_nat (length buf) < 2 ^ 64 ->
  if legal k total addr (N.of_nat (length buf)) then snd (mem_write sh a' addr buf) = Done tt
  else rejected (snd (mem_write sh a' addr buf)).
Proof.
  intros sh k total fill fsz free a ops a' addr buf HMk HT HF HS HO E HB.
  destruct (make_facts _ _ _ _ _ _ HMk) as [Hk [HM [HZ HF8]]].
  assert (HF' : fill < 2 ^ (8 * N.of_nat fsz)).
  { destruct (Nat.eq_dec fsz 8) as [->|N8]; [exact HF|apply HF8; exact N8]. }
  pose proof (make_ok k total fill fsz free a HMk) as R0.
  destruct (run_ok sh k total fill fsz free Hk HT HM HZ HF' HS ops a _ R0 HO) as [a2 [E2 R]].
  assert (a2 = a') by congruence. subst a2.
  pose proof (write_ok sh k total fill fsz free Hk HT HM HZ HF' HS a' _ addr buf R HB) as Wk.
  destruct (legal _ _ _ _); destruct Wk as [a3 [W1 _]]; rewrite W1; [reflexivity|left; reflexivity].
Qed.
Print Assumptions C37_writes_partial.

(** Sixteen-byte lines, a two-byte pattern, writes to two lines out of order, an illegal write in between. *)
Definition ex_ops : list mop :=
  [MWrite 35 [1; 2; 3]; MWrite 30 [9; 9; 9]; MRead 3 4; MWrite 16 [7]; MWrite 36 [8]].
Example C37_ex :
  match mem_make 4 64 43981 2 true with
  | Done a => Forall op_small ex_ops /\ sh_ok (fun _ => None) 2 43981 /\
      match mrun (fun _ => None) a ex_ops with
      | Some a' => mem_read (fun _ => None) a' 33 8 = Done [171; 205; 1; 8; 3; 205; 171; 205] /\
                   mem_read (fun _ => None) a' 51 2 = Done [171; 205] /\
                   legal 4 64 33 8 = true /\ legal 4 64 30 3 = false
      | None => False
      end
  | _ => False
  end.
Proof.
  vm_compute mem_make. cbn match. split; [repeat constructor; vm_compute; auto|]. split; [left; lia|].
  vm_compute. auto.
Qed.

(** Read strictly, a pattern of four or eight bytes has no defined meaning: filling any line shifts by the full width of
    the type (ad 1249 with buf_offset 0). *)
Theorem C37_wide_fill_refuted : forall fsz k total fill free a addr buf, fsz = 4%nat \/ fsz = 8%nat ->
  mem_make k total fill fsz free = Done a -> addr < total -> snd (mem_write (fun _ => None) a addr buf) = Undefined.
Proof.
  intros fsz k total fill free a addr buf HZ H HA. unfold mem_make in H.
  destruct (negb _); [discriminate|]. destruct (negb _); [discriminate|].
  destruct (line_mask (2 ^ k)); try discriminate. destruct ((total =? 0) || _); [discriminate|]. injection H as <-.
  unfold mem_write, get_line. cbn [a_size a_lsb a_lines find_line].
  destruct (N.ltb_spec addr total); [|lia]. cbn [negb]. unfold allocate, a_L. cbn [a_size a_lsb].
  assert (B : w64 (N.shiftr addr k * 2 ^ k) <= addr).
  { rewrite N.shiftr_div_pow2. unfold w64. etransitivity; [apply N.mod_le; discriminate|].
    rewrite N.mul_comm. apply N.mul_div_le. apply N.pow_nonzero. lia. }
  destruct (N.ltb_spec total (w64 (N.shiftr addr k * 2 ^ k))); [lia|].
  unfold fill_line, fill_value, shifted_fill. cbn [a_fsz a_fill]. destruct HZ as [-> | ->]; reflexivity.
Qed.
Print Assumptions C37_wide_fill_refuted.
Example C37_wide_fill_ex : exists a, mem_make 4 64 3735928559 4 true = Done a /\
  snd (mem_write (fun _ => None) a 0 [1]) = Undefined /\
  (* a machine that masks the shift count *)
  sh_ok (fun f => Some f) 4 3735928559 /\ snd (mem_write (fun f => Some f) a 0 [1]) = Done tt.
Proof.
  eexists. split; [vm_compute; reflexivity|]. split; [vm_compute; reflexivity|]. split; [|vm_compute; reflexivity].
  right. exists 3735928559. vm_compute. auto.
Qed.

(** A wrapping access is not rejected: the checks add address and size modulo 2^64 (ad 336, 867-870, 934). *)
Theorem C37_wrapping_access_refuted : exists a addr size, addr < 64 /\ 2 ^ 64 <= addr + size /\
  mem_make 4 64 204 1 true = Done a /\
  mem_read (fun _ => None) (fst (mem_write (fun _ => None) a 0 [1])) addr size = Undefined.
Proof.
  eexists. exists 8, (2 ^ 64 - 4). split; [reflexivity|]. split; [vm_compute; discriminate|].
  split; [vm_compute; reflexivity|]. vm_compute. reflexivity.
Qed.
Print Assumptions C37_wrapping_access_refuted.

(** updateFrom does not make two memories equal: a line the other one never touched keeps its old bytes. *)
Theorem C37_update_from_refuted : exists a b a', mem_make 4 64 204 1 true = Done b /\
  mrun (fun _ => None) b [MWrite 16 [5]] = Some a /\ update_from (fun _ => None) a b = Done a' /\
  mem_read (fun _ => None) a' 16 1 = Done [5] /\ mem_read (fun _ => None) b 16 1 = Done [204].
Proof. eexists _, _, _. split; [vm_compute; reflexivity|]. vm_compute. auto. Qed.
Print Assumptions C37_update_from_refuted.
