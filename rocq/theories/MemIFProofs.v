(** Lemmas about memory interfaces. *)
From Coq Require Import List NArith Arith Bool Lia.
From Verif Require Import MathUtilsModel LayoutModel LayoutProofs LayoutProps ArchDataModel ArchDataProofs ArchDataProps
  StorageModel MemIFModel.
Import ListNotations.
Open Scope N_scope.

Notation big := 18446744073709551616.

Lemma sub_w_le : forall a b, b <= a -> a < big -> sub_w a b = a - b.
Proof.
  intros a b H1 H2. unfold sub_w. change (2 ^ 64) with big. rewrite (w64_small b) by lia. unfold w64. change (2 ^ 64) with big.
  replace (a + (big - b)) with (a - b + 1 * big) by lia. rewrite N.mod_add by lia. apply N.mod_small. lia.
Qed.

Section K.
  Variable k : N.
  Hypothesis Hk : k <= 30.
  Notation L := (2 ^ k).

  Lemma LP : 0 < L. Proof. clear. apply N.neq_0_lt_0, N.pow_nonzero. lia. Qed.
  Lemma LB : L <= 1073741824.
  Proof. clear - Hk. change 1073741824 with (2 ^ 30). apply N.pow_le_mono_r; lia. Qed.
  Lemma split_L : forall b, b = b / L * L + b mod L.
  Proof. clear. intros b. pose proof (N.div_mod b L) as H. rewrite N.mul_comm. apply H. apply N.pow_nonzero. lia. Qed.
  Lemma mod_L : forall b, b mod L < L. Proof. clear. intros. apply N.mod_lt, N.pow_nonzero. lia. Qed.

  Lemma block_of_eq : forall x, x < big -> block_of k x = x / L * L.
  Proof. intros x H. unfold block_of. apply land_mask; [lia|exact H]. Qed.

  Lemma same_block : forall a n, 0 < n -> ((a / L * L =? (a + n - 1) / L * L) = (a mod L + n <=? L)).
  Proof.
    intros a n Hn. pose proof LP as P. pose proof (split_L a) as SA. pose proof (mod_L a) as MA.
    destruct (N.leb_spec (a mod L + n) L) as [C|C].
    - apply N.eqb_eq. f_equal. symmetry.
      replace (a + n - 1) with (a / L * L + (a mod L + n - 1)) by lia.
      rewrite N.div_add_l by lia. rewrite (N.div_small (a mod L + n - 1)) by lia. apply N.add_0_r.
    - apply N.eqb_neq. intros E. apply N.mul_cancel_r in E; [|lia].
      pose proof (split_L (a + n - 1)) as SB. pose proof (mod_L (a + n - 1)) as MB. rewrite <- E in SB. lia.
  Qed.

  Lemma spans_eq : forall a n, 0 < n -> a + n < big -> spans k a n = negb (a mod L + n <=? L).
  Proof.
    intros a n Hn Hb. unfold spans. rewrite w64_small by lia. rewrite sub_w_le by lia.
    rewrite !block_of_eq by lia. rewrite same_block by exact Hn. reflexivity.
  Qed.

  Lemma in_window_eq : forall lo hi a n, a + n < big -> in_window lo hi a n = (lo <=? a) && (a + n <=? hi).
  Proof. intros. unfold in_window. rewrite w64_small by assumption. reflexivity. Qed.

  Lemma aligned_top : forall hi, hi < big -> hi mod L = 0 -> hi + L <= big.
  Proof.
    intros hi H M. pose proof LP as P. pose proof (split_L hi) as SH. rewrite M, N.add_0_r in SH.
    assert (BE : big = 2 ^ (64 - k) * L).
    { rewrite <- N.pow_add_r. replace (64 - k + k) with 64 by lia. reflexivity. }
    rewrite BE in *. rewrite SH in H |- *. apply N.mul_lt_mono_pos_r in H; [|exact P].
    replace (hi / L * L + L) with ((hi / L + 1) * L) by lia. apply N.mul_le_mono_r. lia.
  Qed.

  Lemma next_block : forall a, a + L < big -> block_of k (w64 (a + L)) = (a / L + 1) * L.
  Proof.
    intros a H. pose proof LP as P. rewrite w64_small by lia. rewrite block_of_eq by lia. f_equal.
    replace (a + L) with (a + 1 * L) by lia. apply N.div_add. lia.
  Qed.

  Variables (fill : N) (fsz : nat).

  Lemma sread_len : forall m a n, length (sread k fill fsz m a n) = N.to_nat n.
  Proof. intros. unfold sread. rewrite map_length, seq_length. reflexivity. Qed.
  Lemma sread_app : forall m a n1 n2, sread k fill fsz m a (n1 + n2) = sread k fill fsz m a n1 ++ sread k fill fsz m (a + n1) n2.
  Proof.
    intros. unfold sread. rewrite N2Nat.inj_add, seq_app, map_app. f_equal. rewrite Nat.add_0_l.
    rewrite <- (Nat.add_0_r (N.to_nat n1)) at 1. generalize (N.to_nat n2) as q. intros q. generalize 0%nat as st.
    induction q as [|q IH]; intros st; cbn [seq map]; [reflexivity|]. f_equal.
    - f_equal. lia.
    - rewrite <- Nat.add_succ_r. apply IH.
  Qed.
  Lemma sread_ext : forall m m' a n, (forall b, m b = m' b) -> sread k fill fsz m a n = sread k fill fsz m' a n.
  Proof. intros m m' a n E. unfold sread. apply map_ext. intros i. unfold content. rewrite E. reflexivity. Qed.

  Lemma swrite_app : forall m a b1 b2 x,
    swrite (swrite m a b1) (a + N.of_nat (length b1)) b2 x = swrite m a (b1 ++ b2) x.
  Proof.
    intros m a b1 b2 x. unfold swrite. rewrite app_length, Nat2N.inj_add.
    destruct (N.leb_spec (a + N.of_nat (length b1)) x) as [A|A]; cbn [andb].
    - destruct (N.ltb_spec x (a + N.of_nat (length b1) + N.of_nat (length b2))) as [B|B].
      + destruct (N.leb_spec a x); [|lia]. destruct (N.ltb_spec x (a + (N.of_nat (length b1) + N.of_nat (length b2)))); [|lia].
        cbn [andb]. f_equal. rewrite app_nth2 by lia. f_equal. lia.
      + destruct (N.ltb_spec x (a + N.of_nat (length b1))); [lia|]. rewrite andb_false_r.
        destruct (N.ltb_spec x (a + (N.of_nat (length b1) + N.of_nat (length b2)))); [lia|]. rewrite andb_false_r. reflexivity.
    - destruct (N.leb_spec a x) as [B|B]; cbn [andb]; [|reflexivity].
      destruct (N.ltb_spec x (a + N.of_nat (length b1))); [|lia].
      destruct (N.ltb_spec x (a + (N.of_nat (length b1) + N.of_nat (length b2)))); [|lia].
      f_equal. rewrite app_nth1 by lia. reflexivity.
  Qed.

  (** A loop of tryPeek over pieces that are answered from [m] answers from [m]. *)
  Lemma peek_loop_ok : forall m f e, e + L <= big ->
    forall fuel a out,
    (forall x n, 0 < n -> a <= x -> x + n <= e -> x mod L + n <= L -> f x n = Done (Some (sread k fill fsz m x n))) ->
    a < e -> (e - 1) / L - a / L < N.of_nat fuel ->
    peek_loop fuel k f a e out = Done (Some (out ++ sread k fill fsz m a (e - a))).
  Proof.
    intros m f e HE. induction fuel as [|n IH]; intros a out HF HA HU; [lia|]. cbn [peek_loop].
    pose proof LP as P. pose proof (split_L a) as SA. pose proof (mod_L a) as MA.
    rewrite next_block by lia.
    destruct (N.leb_spec e ((a / L + 1) * L)) as [C|C].
    - rewrite sub_w_le by lia. rewrite HF by lia. cbn [obind]. reflexivity.
    - rewrite sub_w_le by lia. rewrite HF by lia. cbn [obind].
      assert (DE : (a / L + 1) * L / L = a / L + 1) by (apply N.div_mul; lia).
      rewrite IH.
      + f_equal. f_equal. rewrite <- app_assoc. f_equal.
        replace (e - a) with (((a / L + 1) * L - a) + (e - (a / L + 1) * L)) by lia. rewrite sread_app.
        f_equal. f_equal. lia.
      + intros x q H1 H2 H3 H4. apply HF; lia.
      + exact C.
      + rewrite DE.
        assert (a / L + 1 <= (e - 1) / L).
        { apply N.div_le_lower_bound; [lia|]. rewrite N.mul_comm. lia. }
        lia.
  Qed.

  (** Likewise for tryPoke: a state that reflects [m] ends up reflecting [m] with the bytes written. *)
  Lemma poke_loop_ok : forall S (R : S -> smem -> Prop) (f : S -> N -> list N -> S * outcome bool) e, e + L <= big ->
    (forall s m m', (forall b, m b = m' b) -> R s m -> R s m') ->
    forall fuel a s m buf,
    (forall s x b m, b <> [] -> a <= x -> x + N.of_nat (length b) <= e -> x mod L + N.of_nat (length b) <= L ->
       R s m -> exists s', f s x b = (s', Done true) /\ R s' (swrite m x b)) ->
    a < e -> N.of_nat (length buf) = e - a -> (e - 1) / L - a / L < N.of_nat fuel -> R s m ->
    exists s', poke_loop fuel k f s a e buf = (s', Done true) /\ R s' (swrite m a buf).
  Proof.
    intros S R f e HE HX. induction fuel as [|n IH]; intros a s m buf HF HA HL HU HR; [lia|]. cbn [poke_loop].
    pose proof LP as P. pose proof (split_L a) as SA. pose proof (mod_L a) as MA.
    rewrite next_block by lia.
    destruct (N.leb_spec e ((a / L + 1) * L)) as [C|C].
    - rewrite sub_w_le by lia. destruct (N.ltb_spec (N.of_nat (length buf)) (e - a)); [lia|].
      rewrite firstn_all2 by lia. apply HF; try lia; [|exact HR]. intros ->. cbn in HL. lia.
    - rewrite sub_w_le by lia. destruct (N.ltb_spec (N.of_nat (length buf)) ((a / L + 1) * L - a)); [lia|].
      set (z := (a / L + 1) * L - a) in *.
      assert (ZL : length (firstn (N.to_nat z) buf) = N.to_nat z) by (rewrite firstn_length; lia).
      destruct (HF s a (firstn (N.to_nat z) buf) m) as [s1 [F1 F2]]; try (rewrite ?ZL; unfold z; lia).
      { intros E. rewrite E in ZL. cbn in ZL. unfold z in ZL. lia. }
      { exact HR. }
      rewrite F1. assert (DE : (a / L + 1) * L / L = a / L + 1) by (apply N.div_mul; lia).
      destruct (IH ((a / L + 1) * L) s1 (swrite m a (firstn (N.to_nat z) buf)) (skipn (N.to_nat z) buf)) as [s2 [G1 G2]].
      + intros s0 x b m0 H1 H2 H3 H4 H5. apply HF; try assumption. lia.
      + exact C.
      + rewrite skipn_length. unfold z. lia.
      + rewrite DE.
        assert (a / L + 1 <= (e - 1) / L).
        { apply N.div_le_lower_bound; [lia|]. rewrite N.mul_comm. lia. }
        lia.
      + exact F2.
      + exists s2. split; [exact G1|]. revert G2. apply HX. intros x.
        rewrite <- (firstn_skipn (N.to_nat z) buf) at 3. rewrite <- swrite_app. rewrite ZL. f_equal. unfold z. lia.
  Qed.

  Lemma rounds_enough : forall lo hi a e, lo mod L = 0 -> lo <= a -> a < e -> e <= hi ->
    (e - 1) / L - a / L < N.of_nat (rounds k lo hi).
  Proof.
    intros lo hi a e M H1 H2 H3. unfold rounds. rewrite Nat2N.inj_succ, N2Nat.id. pose proof LP as P.
    assert (A : lo / L <= a / L) by (apply N.div_le_mono; lia).
    assert (B : (e - 1) / L <= (lo / L * L + (hi - lo)) / L).
    { apply N.div_le_mono; [lia|]. pose proof (split_L lo). lia. }
    rewrite N.div_add_l in B by lia. revert A B.
    generalize ((e - 1) / L), (lo / L), (a / L), ((hi - lo) / L). clear. intros. lia.
  Qed.
End K.

Lemma present_set : forall i j x l, find_line i l <> None -> find_line i (set_line j x l) <> None.
Proof.
  intros i j x l H. destruct (N.eq_dec j i) as [->|Ne].
  - rewrite find_set_eq by exact H. discriminate.
  - rewrite find_set_ne by exact Ne. exact H.
Qed.
Lemma present_app : forall i j x l, find_line i l <> None -> find_line i (l ++ [(j, x)]) <> None.
Proof.
  intros i j x l H. induction l as [|[i' y] r IH]; cbn in *; [contradiction|]. destruct (i' =? i); [discriminate|auto].
Qed.
Lemma present_get : forall sh a addr a' x i, get_line sh a addr = Done (a', x) -> find_line i (a_lines a) <> None ->
  find_line i (a_lines a') <> None.
Proof.
  intros sh a addr a' x i H P. unfold get_line in H. destruct (negb _); [discriminate|].
  destruct (find_line (N.shiftr addr (a_lsb a)) (a_lines a)); [injection H as <- _; exact P|].
  unfold allocate in H. destruct (a_size a <? _); [discriminate|]. destruct (fill_line sh a); try discriminate.
  cbn [with_lines a_lines] in H. destruct (find_line _ (a_lines a ++ _)); [|discriminate]. injection H as <- _.
  cbn [with_lines a_lines]. apply present_app. exact P.
Qed.
Lemma present_write : forall sh a addr buf i, find_line i (a_lines a) <> None ->
  find_line i (a_lines (fst (mem_write sh a addr buf))) <> None.
Proof.
  intros sh a addr buf i P. unfold mem_write. destruct (get_line sh a addr) as [[a' x]| | | |] eqn:E; try exact P.
  pose proof (present_get _ _ _ _ _ i E P) as P'.
  destruct (line_write _ _ _ _); cbn [fst]; try exact P'. cbn [with_lines a_lines]. apply present_set. exact P'.
Qed.
