(** Lemmas on ArchDataModel. *)
From Coq Require Import List NArith Arith Bool Lia.
From Verif Require Import MathUtilsModel LayoutModel LayoutProofs LayoutProps ArchDataModel BitArrayProps.
Import ListNotations.
Open Scope N_scope.

(** Byte [i] of a number. *)
Definition byte (v : N) (i : nat) : N := v / 2 ^ (8 * N.of_nat i) mod 256.

Lemma byte_bit : forall v i n, N.testbit (byte v i) n = (n <? 8) && N.testbit v (n + 8 * N.of_nat i).
Proof.
  intros v i n. unfold byte. rewrite <- N.shiftr_div_pow2. change 256 with (2 ^ 8).
  destruct (N.ltb_spec n 8) as [H|H].
  - rewrite N.mod_pow2_bits_low by exact H. rewrite N.shiftr_spec by lia. reflexivity.
  - rewrite N.mod_pow2_bits_high by exact H. reflexivity.
Qed.

Lemma le_bytes_len : forall n v, length (le_bytes n v) = n.
Proof. induction n as [|n IH]; intros v; cbn; [reflexivity|]. rewrite IH. reflexivity. Qed.

Lemma le_bytes_nth : forall n v i, (i < n)%nat -> nth i (le_bytes n v) 0 = byte v i.
Proof.
  induction n as [|n IH]; intros v i Hi; [lia|]. cbn [le_bytes].
  destruct i as [|i]; cbn [nth].
  - unfold byte. change (8 * N.of_nat 0) with 0. rewrite N.pow_0_r, N.div_1_r. reflexivity.
  - rewrite IH by lia. unfold byte. change 256 with (2 ^ 8) at 1.
    rewrite N.div_div by (apply N.pow_nonzero; lia). rewrite <- N.pow_add_r.
    replace (8 + 8 * N.of_nat i) with (8 * N.of_nat (S i)) by lia. reflexivity.
Qed.

Lemma high_bit : forall v w n, v < 2 ^ w -> w <= n -> N.testbit v n = false.
Proof.
  intros v w n H Hn. destruct (N.eq_dec v 0) as [->|Z]; [apply N.bits_0|]. apply N.bits_above_log2.
  apply N.lt_le_trans with w; [|exact Hn]. apply N.log2_lt_pow2; [lia|exact H].
Qed.

(** An over-wide shift that does no harm for this pattern. *)
Definition sh_ok (sh : overshift) (fsz : nat) (fill : N) : Prop :=
  (fsz <= 2)%nat \/ exists v, sh fill = Some v /\ N.lor fill v mod 2 ^ (8 * N.of_nat fsz) = fill.

Lemma shifted_spec : forall sh fsz fill off, fill < 2 ^ (8 * N.of_nat fsz) -> (off < fsz)%nat ->
  (off = 0%nat -> sh_ok sh fsz fill) ->
  exists v, shifted_fill sh fsz fill off = Some v /\
    forall i, (i < fsz)%nat -> byte v i = byte fill (Nat.modulo (off + i) fsz).
Proof.
  intros sh fsz fill off HF HO HS. unfold shifted_fill.
  destruct (Nat.eqb_spec off 0) as [E|E].
  - subst off. change (8 * N.of_nat 0) with 0. rewrite N.shiftr_0_r. cbn [Nat.add].
    destruct (Nat.leb_spec fsz 2) as [C|C].
    + exists fill. rewrite N.lor_0_r, N.mod_small by exact HF. split; [reflexivity|].
      intros i Hi. rewrite Nat.mod_small by exact Hi. reflexivity.
    + destruct (HS eq_refl) as [X|[v [X1 X2]]]; [lia|]. rewrite X1, X2. exists fill. split; [reflexivity|].
      intros i Hi. rewrite Nat.mod_small by exact Hi. reflexivity.
  - eexists. split; [reflexivity|]. intros i Hi. apply N.bits_inj. intros n. rewrite !byte_bit.
    destruct (N.ltb_spec n 8) as [H8|H8]; [|reflexivity]. cbn [andb].
    rewrite N.mod_pow2_bits_low by lia. rewrite N.lor_spec, N.shiftr_spec by lia.
    destruct (Nat.lt_ge_cases (off + i) fsz) as [C|C].
    + rewrite N.shiftl_spec_low by lia. rewrite orb_false_r. rewrite Nat.mod_small by exact C. f_equal. lia.
    + rewrite N.shiftl_spec_high by lia.
      rewrite (high_bit fill _ (n + 8 * N.of_nat i + 8 * N.of_nat off) HF) by lia. cbn [orb]. f_equal.
      assert (Q : Nat.modulo (off + i) fsz = (off + i - fsz)%nat).
      { symmetry. apply Nat.mod_unique with 1%nat; lia. }
      rewrite Q. lia.
Qed.

Lemma fill_loop_spec : forall pat, pat <> [] -> forall fuel rem, (rem <= fuel)%nat ->
  length (fill_loop fuel pat rem) = rem /\
  forall j, (j < rem)%nat -> nth j (fill_loop fuel pat rem) 0 = nth (Nat.modulo j (length pat)) pat 0.
Proof.
  intros pat NE. assert (LP : (0 < length pat)%nat) by (destruct pat; [contradiction|cbn; lia]).
  induction fuel as [|f IH]; intros rem Hr; cbn [fill_loop]; destruct (Nat.leb_spec rem (length pat)) as [C|C].
  - split; [rewrite firstn_length; lia|]. intros j Hj. lia.
  - lia.
  - split; [rewrite firstn_length; lia|]. intros j Hj. rewrite nth_firstn by exact Hj. rewrite Nat.mod_small by lia. reflexivity.
  - destruct (IH (rem - length pat)%nat ltac:(lia)) as [I1 I2]. split; [rewrite app_length, I1; lia|].
    intros j Hj. destruct (Nat.lt_ge_cases j (length pat)) as [D|D].
    + rewrite app_nth1 by exact D. rewrite Nat.mod_small by exact D. reflexivity.
    + rewrite app_nth2 by exact D. rewrite I2 by lia. f_equal.
      replace j with ((j - length pat) + 1 * length pat)%nat at 2 by lia. rewrite Nat.mod_add by lia. reflexivity.
Qed.

Definition fsz_ok (fsz : nat) : Prop := fsz = 1%nat \/ fsz = 2%nat \/ fsz = 4%nat \/ fsz = 8%nat.

Lemma fill_spec : forall sh size fill fsz off, fsz_ok fsz -> fill < 2 ^ (8 * N.of_nat fsz) -> (off < fsz)%nat ->
  (off = 0%nat -> sh_ok sh fsz fill) -> size < 2 ^ 32 ->
  exists l, fill_value sh size fill fsz off = Done l /\ length l = N.to_nat size /\
    forall j, (j < N.to_nat size)%nat -> nth j l 0 = byte fill (Nat.modulo (off + j) fsz).
Proof.
  intros sh size fill fsz off HZ HF HO HS HN. unfold fill_value. rewrite (N.mod_small size) by exact HN.
  assert (G : forall m, Nat.leb fsz off = false ->
     exists l, (if Nat.leb fsz off then Asserted
      else match shifted_fill sh fsz (fill mod 2 ^ (8 * N.of_nat fsz)) off with
           | Some v => Done (fill_loop m (le_bytes fsz v) m)
           | None => Undefined
           end) = Done l /\ length l = m /\
       forall j, (j < m)%nat -> nth j l 0 = byte fill (Nat.modulo (off + j) fsz)).
  { intros m HL. rewrite HL. rewrite N.mod_small by exact HF.
    destruct (shifted_spec sh fsz fill off HF HO HS) as [v [V1 V2]]. rewrite V1.
    assert (NE : le_bytes fsz v <> []).
    { intros X. apply (f_equal (@length N)) in X. rewrite le_bytes_len in X. cbn in X. lia. }
    destruct (fill_loop_spec (le_bytes fsz v) NE m m (Nat.le_refl _)) as [F1 F2].
    eexists. split; [reflexivity|]. split; [exact F1|]. intros j Hj. rewrite F2 by exact Hj. rewrite le_bytes_len.
    assert (MB : (Nat.modulo j fsz < fsz)%nat) by (apply Nat.mod_upper_bound; lia).
    rewrite le_bytes_nth by exact MB. rewrite V2 by exact MB. rewrite Nat.add_mod_idemp_r by lia. reflexivity. }
  assert (LB : Nat.leb fsz off = false) by (apply Nat.leb_gt; exact HO).
  destruct HZ as [->|[->|[->| ->]]]; try (apply G; exact LB).
  eexists. split; [reflexivity|]. split; [apply repeat_length|]. intros j Hj.
  rewrite Nat.mod_1_r. unfold byte. change (8 * N.of_nat 0) with 0. rewrite N.pow_0_r, N.div_1_r.
  revert j Hj. generalize (N.to_nat size). induction n as [|n IH]; intros j Hj; [lia|].
  destruct j; [reflexivity|]. cbn. apply IH. lia.
Qed.

Lemma find_set_eq : forall i x l, find_line i l <> None -> find_line i (set_line i x l) = Some x.
Proof.
  induction l as [|[j y] r IH]; cbn; intros H; [contradiction|].
  destruct (N.eqb_spec j i) as [->|E]; cbn.
  - rewrite N.eqb_refl. reflexivity.
  - destruct (N.eqb_spec j i); [contradiction|]. apply IH. exact H.
Qed.
Lemma find_set_ne : forall i j x l, i <> j -> find_line j (set_line i x l) = find_line j l.
Proof.
  induction l as [|[k y] r IH]; cbn; intros H; [reflexivity|].
  destruct (N.eqb_spec k i) as [->|E]; cbn.
  - destruct (N.eqb_spec i j); [contradiction|reflexivity].
  - destruct (N.eqb_spec k j); [reflexivity|]. apply IH. exact H.
Qed.
Lemma find_app_new : forall i x l, find_line i l = None -> find_line i (l ++ [(i, x)]) = Some x.
Proof.
  induction l as [|[k y] r IH]; cbn; intros H; [rewrite N.eqb_refl; reflexivity|].
  destruct (N.eqb_spec k i); [discriminate|]. apply IH. exact H.
Qed.
Lemma find_app_old : forall i j x l, i <> j -> find_line j (l ++ [(i, x)]) = find_line j l.
Proof.
  induction l as [|[k y] r IH]; cbn; intros H.
  - destruct (N.eqb_spec i j); [contradiction|reflexivity].
  - destruct (N.eqb_spec k j); [reflexivity|]. apply IH. exact H.
Qed.
Lemma find_map : forall (f : line -> line) i l,
  find_line i (map (fun p => (fst p, f (snd p))) l) = match find_line i l with Some x => Some (f x) | None => None end.
Proof. induction l as [|[k y] r IH]; cbn; [reflexivity|]. destruct (k =? i); [reflexivity|exact IH]. Qed.

(** Replacing a slice of a list. *)
Lemma splice_nth : forall (d buf : list N) (o : nat), (o + length buf <= length d)%nat ->
  length (firstn o d ++ buf ++ skipn (o + length buf) d) = length d /\
  forall j, nth j (firstn o d ++ buf ++ skipn (o + length buf) d) 0 =
    if (Nat.leb o j && Nat.ltb j (o + length buf))%bool then nth (j - o) buf 0 else nth j d 0.
Proof.
  intros d buf o H. split.
  - rewrite !app_length, firstn_length, skipn_length. lia.
  - intros j. destruct (Nat.leb_spec o j) as [A|A]; cbn [andb].
    + rewrite app_nth2 by (rewrite firstn_length; lia). rewrite firstn_length, Nat.min_l by lia.
      destruct (Nat.ltb_spec j (o + length buf)) as [B|B].
      * rewrite app_nth1 by lia. reflexivity.
      * rewrite app_nth2 by lia. rewrite nth_skipn. f_equal. lia.
    + rewrite app_nth1 by (rewrite firstn_length; lia). rewrite nth_firstn by exact A. reflexivity.
Qed.
