(** Lemmas on LayoutModel. *)
From Coq Require Import List NArith Arith Bool Lia.
From Verif Require Import MathUtilsModel MathUtilsProofs LayoutModel.
Import ListNotations.
Open Scope N_scope.

Lemma w64_small : forall x, x < 18446744073709551616 -> w64 x = x.
Proof. intros x H. apply N.mod_small. exact H. Qed.

Lemma land_mask : forall k a, k <= 64 -> a < 18446744073709551616 ->
  N.land a (2 ^ 64 - 2 ^ k) = a / 2 ^ k * 2 ^ k.
Proof.
  intros k a Hk Ha.
  assert (E : 2 ^ 64 - 2 ^ k = N.ldiff (N.ones 64) (N.ones k)).
  { apply N.add_cancel_r with (p := 2 ^ k).
    assert (B : 2 ^ k <= 2 ^ 64) by (apply N.pow_le_mono_r; lia).
    rewrite N.sub_add by exact B.
    rewrite N.ldiff_ones_r, N.shiftr_div_pow2, N.shiftl_mul_pow2, N.ones_equiv.
    assert (E2 : 2 ^ 64 = 2 ^ (64 - k) * 2 ^ k) by (rewrite <- N.pow_add_r; f_equal; lia).
    assert (P : 0 < 2 ^ k) by (apply N.neq_0_lt_0, N.pow_nonzero; lia).
    assert (P2 : 0 < 2 ^ (64 - k)) by (apply N.neq_0_lt_0, N.pow_nonzero; lia).
    rewrite E2. generalize dependent (2 ^ (64 - k)). intros m _ Hm.
    replace (N.pred (m * 2 ^ k)) with ((m - 1) * 2 ^ k + (2 ^ k - 1)) by nia.
    rewrite N.div_add_l by lia. rewrite (N.div_small (2 ^ k - 1)) by lia. nia. }
  rewrite E.
  assert (E3 : N.land a (N.ldiff (N.ones 64) (N.ones k)) = N.ldiff a (N.ones k)).
  { apply N.bits_inj. intros n. rewrite N.land_spec, !N.ldiff_spec.
    destruct (N.lt_ge_cases n 64) as [L|L].
    - rewrite (N.ones_spec_low 64 n) by exact L. reflexivity.
    - rewrite (N.ones_spec_high 64 n) by exact L.
      assert (T : N.testbit a n = false).
      { destruct (N.eq_dec a 0) as [->|Z]; [apply N.bits_0|]. apply N.bits_above_log2.
        apply N.lt_le_trans with 64; [|exact L]. apply N.log2_lt_pow2; [lia|exact Ha]. }
      rewrite T. reflexivity. }
  rewrite E3, N.ldiff_ones_r, N.shiftr_div_pow2, N.shiftl_mul_pow2. reflexivity.
Qed.

(** What registration establishes. *)
Definition wfsegs (L : N) (segs : list seg) : Prop :=
  (forall s, In s segs -> 0 < g_size s <= L) /\
  (forall i j s t id, nth_error segs i = Some s -> nth_error segs j = Some t -> g_id s = Some id -> g_id t = Some id ->
     i = j).

Lemma same_id_spec : forall a b, same_id a b = true <-> exists x, a = Some x /\ b = Some x.
Proof.
  intros [a|] [b|]; cbn; split; try discriminate; try (intros [x [A B]]; discriminate).
  - intros H. apply N.eqb_eq in H. subst. eauto.
  - intros [x [A B]]. injection A as ->. injection B as ->. apply N.eqb_refl.
Qed.

Lemma register_wf : forall L segs s segs', L <> 0 -> wfsegs L segs -> register L segs s = Done segs' ->
  segs' = segs ++ [s] /\ wfsegs L segs'.
Proof.
  intros L segs s segs' HL [W1 W2] H. unfold register in H.
  destruct (seg_ctor s); [|discriminate]. cbn [negb] in H.
  destruct (data_size_ok L (g_size s)) eqn:D; [|discriminate]. cbn [negb] in H.
  destruct (existsb _ segs) eqn:E; [discriminate|]. injection H as <-. split; [reflexivity|].
  assert (HS : 0 < g_size s <= L).
  { unfold data_size_ok in D. apply andb_prop in D. destruct D as [D1 D2].
    destruct (N.eqb_spec (g_size s) 0); [discriminate|].
    destruct (N.eqb_spec L 0); [lia|]. cbn in D2. destruct (N.ltb_spec L (g_size s)); [discriminate|]. lia. }
  assert (NI : forall j t id, nth_error segs j = Some t -> g_id s = Some id -> g_id t = Some id -> False).
  { intros j t id Hj A B. apply nth_error_In in Hj.
    assert (X : existsb (fun o => same_id (g_id s) (g_id o)) segs = true).
    { apply existsb_exists. exists t. split; [exact Hj|]. apply same_id_spec. eauto. }
    rewrite X in E. discriminate. }
  split.
  - intros t Ht. apply in_app_or in Ht. destruct Ht as [Ht|[<-|[]]]; auto.
  - intros i j a b id Hi Hj A B.
    destruct (Nat.lt_ge_cases i (length segs)) as [Li|Li]; destruct (Nat.lt_ge_cases j (length segs)) as [Lj|Lj].
    + rewrite nth_error_app1 in Hi, Hj by assumption. eapply W2; eauto.
    + rewrite nth_error_app1 in Hi by assumption. rewrite nth_error_app2 in Hj by assumption.
      destruct (j - length segs)%nat as [|n]; cbn in Hj; [|destruct n; discriminate]. injection Hj as <-.
      exfalso. eapply NI; eauto.
    + rewrite nth_error_app1 in Hj by assumption. rewrite nth_error_app2 in Hi by assumption.
      destruct (i - length segs)%nat as [|n]; cbn in Hi; [|destruct n; discriminate]. injection Hi as <-.
      exfalso. eapply NI; eauto.
    + rewrite nth_error_app2 in Hi, Hj by assumption.
      destruct (i - length segs)%nat as [|n] eqn:Ei; cbn in Hi; [|destruct n; discriminate].
      destruct (j - length segs)%nat as [|n] eqn:Ej; cbn in Hj; [|destruct n; discriminate]. lia.
Qed.

Lemma register_all_wf : forall L l segs segs', L <> 0 -> wfsegs L segs -> register_all L segs l = Done segs' ->
  segs' = segs ++ l /\ wfsegs L segs'.
Proof.
  induction l as [|s r IH]; intros segs segs' HL W H; cbn [register_all] in H.
  - injection H as <-. rewrite app_nil_r. auto.
  - destruct (register L segs s) eqn:E; try discriminate.
    destruct (register_wf _ _ _ _ HL W E) as [-> W']. destruct (IH _ _ HL W' H) as [-> W''].
    rewrite <- app_assoc in *. auto.
Qed.

Lemma wf_nil : forall L, wfsegs L [].
Proof. split; [intros s []|]. intros i j s t id H. destruct i; discriminate. Qed.

Lemma find_id_some : forall segs id i j, find_id segs id i = Some j ->
  exists s, (i <= j)%nat /\ nth_error segs (j - i) = Some s /\ g_id s = Some id.
Proof.
  induction segs as [|s r IH]; intros id i j H; cbn [find_id] in H; [discriminate|].
  destruct (same_id (g_id s) (Some id)) eqn:E.
  - injection H as <-. exists s. rewrite Nat.sub_diag. apply same_id_spec in E. destruct E as [x [A B]].
    injection B as <-. auto.
  - destruct (IH _ _ _ H) as [t [A [B C]]]. exists t. split; [lia|].
    replace (j - i)%nat with (S (j - S i)) by lia. auto.
Qed.

Lemma find_id_none : forall segs id i, find_id segs id i = None ->
  forall j s, nth_error segs j = Some s -> g_id s <> Some id.
Proof.
  induction segs as [|s r IH]; intros id i H j t Hj; cbn [find_id] in H; [destruct j; discriminate|].
  destruct (same_id (g_id s) (Some id)) eqn:E; [discriminate|].
  destruct j as [|j]; cbn in Hj.
  - injection Hj as <-. intros X. rewrite X in E. cbn in E. rewrite N.eqb_refl in E. discriminate.
  - eapply IH; eauto.
Qed.

Lemma wf_dup : forall L segs, wfsegs L segs -> dup_id segs = false.
Proof.
  induction segs as [|s r IH]; intros [W1 W2]; [reflexivity|]. cbn [dup_id].
  rewrite IH.
  - rewrite orb_false_r. destruct (existsb _ r) eqn:E; [|reflexivity].
    apply existsb_exists in E. destruct E as [t [Ht S]]. apply same_id_spec in S. destruct S as [x [A B]].
    apply In_nth_error in Ht. destruct Ht as [n Hn].
    specialize (W2 0%nat (S n) s t x eq_refl Hn A B). discriminate.
  - split; [intros t Ht; apply W1; right; exact Ht|].
    intros i j a b id Hi Hj A B. specialize (W2 (S i) (S j) a b id Hi Hj A B). lia.
Qed.

(** Number of placed segments among the first n. *)
Definition cnt (n : nat) (y : lay) : nat :=
  length (filter (fun i => match y_at y i with Some _ => true | None => false end) (seq 0 n)).

Lemma filter_len_ext : forall (f g : nat -> bool) l, (forall x, In x l -> f x = g x) ->
  length (filter f l) = length (filter g l).
Proof.
  induction l as [|a l IH]; intros H; [reflexivity|]. cbn. rewrite (H a) by (left; reflexivity).
  assert (E : length (filter f l) = length (filter g l)) by (apply IH; intros; apply H; right; assumption).
  destruct (g a); cbn; lia.
Qed.

Lemma filter_len_add : forall (f g : nat -> bool) l i, NoDup l -> In i l -> f i = false -> g i = true ->
  (forall x, x <> i -> f x = g x) -> length (filter g l) = S (length (filter f l)).
Proof.
  induction l as [|a l IH]; intros i ND HI Fi Gi E; [destruct HI|].
  apply NoDup_cons_iff in ND. destruct ND as [NA ND]. destruct (Nat.eq_dec a i) as [->|Ne].
  - cbn. rewrite Fi, Gi. cbn. f_equal. apply filter_len_ext. intros x Hx. symmetry. apply E. intros ->. contradiction.
  - destruct HI as [HI|HI]; [contradiction|]. cbn. rewrite (E a Ne). specialize (IH i ND HI Fi Gi E).
    destruct (g a); cbn; lia.
Qed.

Lemma filter_len_le : forall (f : nat -> bool) l, (length (filter f l) <= length l)%nat.
Proof. induction l as [|a l IH]; cbn; [lia|]. destruct (f a); cbn; lia. Qed.

Section Lay.
  Variables (k L mask : N) (segs : list seg).
  Hypothesis HL2 : L = 2 ^ k.
  Hypothesis Hmask : mask = 2 ^ 64 - L.
  Notation n := (length segs).
  Hypothesis Hk : k <= 30.
  Hypothesis Hn : N.of_nat (length segs) < 2 ^ 32.
  Hypothesis W : wfsegs L segs.
  (** The sum of size and subset offset does not wrap. *)
  Hypothesis NW : forall s, In s segs -> g_size s + g_off s < 2 ^ 64.

  (** Relation between a subset segment and the segment it lies in. *)
  Definition parent (i j : nat) : Prop :=
    exists s ps id, nth_error segs i = Some s /\ g_sub s = Some id /\ nth_error segs j = Some ps /\ g_id ps = Some id.

  Record J (y : lay) : Prop := mkJ {
    j_size : y_size y <= N.of_nat (cnt n y) * (2 * L + 3);
    j_lines : y_lines y <= N.of_nat (cnt n y);
    j_last : 4 <= L -> y_size y <= y_lines y * L /\ (0 < y_lines y -> (y_lines y - 1) * L < y_size y);
    j_at : forall i p, y_at y i = Some p -> exists s, nth_error segs i = Some s /\
      p + g_size s <= y_size y /\ p / L = (p + g_size s - 1) / L /\
      match g_sub s with
      | None => p mod 4 = 0
      | Some _ => exists j ps o, parent i j /\ nth_error segs j = Some ps /\ y_at y j = Some o /\
                    p = o + g_off s /\ g_size s + g_off s <= g_size ps
      end;
    j_apart : forall i j p q s t, i <> j -> y_at y i = Some p -> y_at y j = Some q ->
      nth_error segs i = Some s -> nth_error segs j = Some t -> g_sub s = None -> g_sub t = None ->
      p + g_size s <= q \/ q + g_size t <= p;
    j_rank : exists r : nat -> nat, forall i j, y_at y i <> None -> parent i j -> (r j < r i)%nat
  }.

  Lemma L_pos : 0 < L. Proof. rewrite HL2. apply N.neq_0_lt_0, N.pow_nonzero. lia. Qed.
  Lemma L_le : L <= 1073741824.
  Proof. rewrite HL2. change 1073741824 with (2 ^ 30). apply N.pow_le_mono_r; lia. Qed.

  Lemma L_4 : 4 <= L -> exists m, L = 4 * m.
  Proof.
    intros H. exists (2 ^ (k - 2)). rewrite HL2 in *. destruct (N.lt_ge_cases k 2) as [C|C].
    - exfalso. assert (2 ^ k <= 2 ^ 1) by (apply N.pow_le_mono_r; lia). cbn in H0. lia.
    - change 4 with (2 ^ 2). rewrite <- N.pow_add_r. f_equal. lia.
  Qed.
  Lemma L_small : L < 4 -> exists m, 4 = L * m.
  Proof.
    intros H. exists (2 ^ (2 - k)). rewrite HL2 in *. destruct (N.lt_ge_cases k 2) as [C|C].
    - rewrite <- N.pow_add_r. replace (k + (2 - k)) with 2 by lia. reflexivity.
    - exfalso. assert (2 ^ 2 <= 2 ^ k) by (apply N.pow_le_mono_r; lia). cbn in H0. lia.
  Qed.

  Lemma cnt_le : forall y, (cnt n y <= n)%nat.
  Proof. intros y. unfold cnt. etransitivity; [apply filter_len_le|]. rewrite seq_length. lia. Qed.

  Definition upd (y : lay) (i : nat) (p : N) (sz lines : N) : lay :=
    mkLay sz lines (fun x => if Nat.eqb x i then Some p else y_at y x).

  Lemma cnt_upd : forall y i p sz lines, (i < n)%nat -> y_at y i = None ->
    cnt n (upd y i p sz lines) = S (cnt n y).
  Proof.
    intros y i p sz lines Hi H. unfold cnt. apply filter_len_add with (i := i).
    - apply seq_NoDup.
    - apply in_seq. lia.
    - rewrite H. reflexivity.
    - cbn. rewrite Nat.eqb_refl. reflexivity.
    - intros x Hx. cbn. apply Nat.eqb_neq in Hx. rewrite Hx. reflexivity.
  Qed.

  Lemma size_bound : forall y, y_size y <= N.of_nat (cnt n y) * (2 * L + 3) -> y_size y < 9223376434901286912.
  Proof.
    intros y H. pose proof (cnt_le y). pose proof L_le. pose proof Hn as Hn'.
    change (2 ^ 32) with 4294967296 in Hn'.
    assert (N.of_nat (cnt n y) < 4294967296) by lia.
    assert (N.of_nat (cnt n y) * (2 * L + 3) <= 4294967295 * 2147483651) by (apply N.mul_le_mono; lia).
    lia.
  Qed.

  Lemma landm : forall a, a < 18446744073709551616 -> N.land a mask = a / L * L.
  Proof. intros a H. rewrite Hmask, HL2. apply land_mask; [lia|exact H]. Qed.

  (** The recomputed size after padding. *)
  Definition pad (z : N) : N := if z mod 4 =? 0 then z else z + (4 - z mod 4).
  Lemma pad_spec : forall z, pad z mod 4 = 0 /\ z <= pad z <= z + 3.
  Proof.
    intros z. unfold pad. destruct (N.eqb_spec (z mod 4) 0) as [E|E]; [split; [exact E|lia]|].
    pose proof (N.mod_lt z 4 ltac:(lia)). split; [|lia].
    rewrite (N.div_mod z 4) at 1 by lia.
    replace (4 * (z / 4) + z mod 4 + (4 - z mod 4)) with ((z / 4 + 1) * 4) by lia.
    apply N.mod_mul. lia.
  Qed.
  Lemma pad_le : forall z m, z <= 4 * m -> pad z <= 4 * m.
  Proof.
    intros z m H. unfold pad. destruct (N.eqb_spec (z mod 4) 0) as [E|E]; [exact H|].
    pose proof (N.mod_lt z 4 ltac:(lia)). pose proof (N.div_mod z 4 ltac:(lia)).
    assert (z / 4 < m) by nia. nia.
  Qed.

  Lemma put_done : forall s i p y, y_at y i = None -> 0 < g_size s -> g_size s <= L -> p + g_size s <= y_size y ->
    y_size y < 18446744073709551616 ->
    p / L = (p + g_size s - 1) / L -> put L mask s i p y = Done (upd y i p (y_size y) (y_lines y)).
  Proof.
    intros s i p y HN S0 SL HP HY HL. unfold put. rewrite HN.
    pose proof L_pos as LP.
    assert (A : segment_ok L mask (y_size y) p (g_size s) = true).
    { unfold segment_ok, data_size_ok, in_line_ok.
      rewrite (w64_small (p + g_size s)) by lia.
      rewrite (landm p) by lia.
      assert (B : p / L * L <= p) by (pose proof (N.mul_div_le p L ltac:(lia)); lia).
      assert (E : w64 (p + g_size s + 2 ^ 64 - p / L * L) = p + g_size s - p / L * L).
      { change (2 ^ 64) with 18446744073709551616.
        replace (p + g_size s + 18446744073709551616 - p / L * L)
          with (p + g_size s - p / L * L + 1 * 18446744073709551616) by lia.
        unfold w64. change (2 ^ 64) with 18446744073709551616.
        rewrite N.mod_add by lia.
        apply N.mod_small. apply N.le_lt_trans with (p + g_size s); [apply N.le_sub_l|lia]. }
      rewrite E.
      assert (C : p + g_size s - p / L * L <= L).
      { pose proof (N.mod_lt (p + g_size s - 1) L ltac:(lia)).
        pose proof (N.div_mod (p + g_size s - 1) L ltac:(lia)). rewrite <- HL in H0. nia. }
      destruct (N.eqb_spec (g_size s) 0); [lia|]. destruct (N.eqb_spec L 0); [lia|].
      destruct (N.ltb_spec L (g_size s)); [lia|].
      destruct (N.ltb_spec L (p + g_size s - p / L * L)); [lia|].
      destruct (N.ltb_spec (y_size y) (p + g_size s)); [lia|]. reflexivity. }
    rewrite A. rewrite andb_false_r.
    destruct (N.ltb_spec p (y_size y)); [|lia]. rewrite andb_false_r. reflexivity.
  Qed.

  Lemma div_same : forall p s, 0 < s -> s <= L -> p mod L = 0 -> p / L = (p + s - 1) / L.
  Proof.
    intros p s S0 SL M. pose proof L_pos as LP. rewrite (N.div_mod p L) at 2 by lia. rewrite M.
    generalize (p / L). intros q. clear M.
    assert (E : L * q + 0 + s - 1 = q * L + (s - 1)) by nia. rewrite E.
    rewrite N.div_add_l by lia. rewrite (N.div_small (s - 1)) by lia. lia.
  Qed.

  (** A segment outside subsets is always placed, after everything placed before. *)
  Lemma place_root_ok : forall i s y, J y -> nth_error segs i = Some s -> g_sub s = None -> y_at y i = None ->
    exists p lines, place_root L mask s i y = Done (upd y i p (p + g_size s) lines) /\
      y_size y <= p /\ J (upd y i p (p + g_size s) lines).
  Proof.
    intros i s y HJ Hi Hsub Hat.
    assert (IN : In s segs) by (eapply nth_error_In; eauto).
    destruct (proj1 W s IN) as [S0 SL].
    assert (Li : (i < n)%nat) by (apply nth_error_Some; rewrite Hi; discriminate).
    pose proof (size_bound y (j_size y HJ)) as SB. pose proof L_pos as LP. pose proof L_le as LL.
    assert (Cn : (S (cnt n y) <= n)%nat).
    { pose proof (cnt_le (upd y i 0 0 0)) as H. rewrite cnt_upd in H by assumption. exact H. }
    assert (Lines : y_lines y + 1 < 4294967296).
    { pose proof (j_lines y HJ). pose proof Hn as Hn'. change (2 ^ 32) with 4294967296 in Hn'. lia. }
    destruct (pad_spec (y_size y)) as [P4 PB]. set (sz := pad (y_size y)) in *.
    (* the common end *)
    assert (FIN : forall p lines, p mod 4 = 0 -> sz <= p -> p <= y_size y + L + 3 ->
       lines <= y_lines y + 1 -> p / L = (p + g_size s - 1) / L ->
       (4 <= L -> p + g_size s <= lines * L /\ (0 < lines -> (lines - 1) * L < p + g_size s)) ->
       put L mask s i p (mkLay (w64 (p + g_size s)) lines (y_at y)) = Done (upd y i p (p + g_size s) lines) /\
       J (upd y i p (p + g_size s) lines)).
    { intros p lines Pm Pl Pu Ll SP LST. split.
      - rewrite w64_small by lia.
        rewrite put_done; [reflexivity|exact Hat|exact S0|exact SL|cbn [y_size]; lia|cbn [y_size]; lia|exact SP].
      - pose proof (j_size y HJ) as JS. pose proof (j_lines y HJ) as JL.
        constructor.
        + rewrite cnt_upd by assumption. cbn [y_size upd]. lia.
        + rewrite cnt_upd by assumption. cbn [y_lines upd]. lia.
        + exact LST.
        + intros x q Hx. cbn [y_at upd] in Hx. cbn [y_size upd y_at].
          destruct (Nat.eqb_spec x i) as [E|E].
          * subst x. injection Hx as <-. exists s. split; [exact Hi|]. split; [lia|]. split; [exact SP|].
            rewrite Hsub. exact Pm.
          * destruct (j_at y HJ x q Hx) as [t [T1 [T2 [T3 T4]]]]. exists t. split; [exact T1|]. split; [lia|].
            split; [exact T3|]. destruct (g_sub t); [|exact T4].
            destruct T4 as [j [ps [o [U1 [U2 [U3 U4]]]]]]. exists j, ps, o. split; [exact U1|].
            split; [exact U2|]. split; [|exact U4].
            destruct (Nat.eqb_spec j i) as [->|]; [congruence|exact U3].
        + intros a b pa pb sa sb Nab Ha Hb Na Nb Sa Sb. cbn [y_at upd] in Ha, Hb.
          destruct (Nat.eqb_spec a i) as [Ea|Ea]; destruct (Nat.eqb_spec b i) as [Eb|Eb].
          * lia.
          * subst a. assert (sa = s) by congruence. subst sa. injection Ha as <-.
            destruct (j_at y HJ b pb Hb) as [t [T1 [T2 _]]]. assert (t = sb) by congruence. subst t. right. lia.
          * subst b. assert (sb = s) by congruence. subst sb. injection Hb as <-.
            destruct (j_at y HJ a pa Ha) as [t [T1 [T2 _]]]. assert (t = sa) by congruence. subst t. left. lia.
          * exact (j_apart y HJ a b pa pb sa sb Nab Ha Hb Na Nb Sa Sb).
        + destruct (j_rank y HJ) as [r R]. exists r. intros a b Ha Pab. cbn [y_at upd] in Ha.
          destruct (Nat.eqb_spec a i) as [->|]; [|apply R; assumption].
          destruct Pab as [s' [ps [id [A [B _]]]]]. congruence. }
    unfold place_root. change host_int with 4.
    assert (E0 : (if y_size y mod 4 =? 0 then y_size y else w64 (y_size y + (4 - y_size y mod 4))) = sz).
    { unfold sz, pad. destruct (y_size y mod 4 =? 0) eqn:E; [reflexivity|]. apply w64_small.
      pose proof (N.mod_lt (y_size y) 4 ltac:(lia)). lia. }
    rewrite E0.
    assert (E1 : w64 (sz + g_size s + 2 ^ 64 - 1) = sz + g_size s - 1).
    { change (2 ^ 64) with 18446744073709551616.
      replace (sz + g_size s + 18446744073709551616 - 1) with (sz + g_size s - 1 + 1 * 18446744073709551616) by lia.
      unfold w64. change (2 ^ 64) with 18446744073709551616. rewrite N.mod_add by lia. apply N.mod_small. lia. }
    rewrite E1, !landm by lia.
    pose proof (N.div_mod sz L ltac:(lia)) as D. pose proof (N.mod_lt sz L ltac:(lia)) as M.
    pose proof (N.div_mod (sz + g_size s - 1) L ltac:(lia)) as D2.
    pose proof (N.mod_lt (sz + g_size s - 1) L ltac:(lia)) as M2.
    assert (DM : sz / L <= (sz + g_size s - 1) / L) by (apply N.div_le_mono; lia).
    destruct (N.lt_ge_cases L 4) as [Lsm|Lbig].
    - (* tiny lines: every multiple of 4 starts a line *)
      destruct (L_small Lsm) as [m Hm].
      assert (Z : sz mod L = 0).
      { rewrite (N.div_mod sz 4) by lia. rewrite P4, N.add_0_r, Hm.
        rewrite <- N.mul_assoc, N.mul_comm. apply N.mod_mul. lia. }
      pose proof (div_same sz (g_size s) S0 SL Z) as SAME. rewrite <- SAME.
      rewrite N.eqb_refl. cbn [negb].
      assert (B0 : sz - sz / L * L = 0) by lia. rewrite B0. rewrite N.eqb_refl.
      assert (Q : (sz mod 4 =? 0) = true) by (rewrite P4; reflexivity). rewrite Q.
      assert (U : sz <= y_size y + L + 3) by (clear - PB; lia).
      assert (NL4 : forall z w : N, 4 <= L -> sz + g_size s <= z /\ (0 < w -> (w - 1) * L < sz + g_size s)) by
        (intros z w H4; clear - Lsm H4; lia).
      destruct (N.leb_spec (y_lines y * L) (sz / L * L)) as [C|C].
      + change (2 ^ 32) with 4294967296. rewrite (N.mod_small (y_lines y + 1)) by exact Lines.
        destruct (FIN sz (y_lines y + 1) P4 (N.le_refl _) U (N.le_refl _) SAME (NL4 _ _)) as [F1 F2].
        exists sz, (y_lines y + 1). rewrite F1. split; [reflexivity|]. split; [apply PB|exact F2].
      + destruct (FIN sz (y_lines y) P4 (N.le_refl _) U (N.le_add_r _ _) SAME (NL4 _ _)) as [F1 F2].
        exists sz, (y_lines y). rewrite F1. split; [reflexivity|]. split; [apply PB|exact F2].
    - destruct (L_4 Lbig) as [m Hm].
      destruct (j_last y HJ Lbig) as [JA JB].
      assert (SZL : sz <= y_lines y * L).
      { replace (y_lines y * L) with (4 * (y_lines y * m)) by (rewrite Hm; lia). apply pad_le.
        replace (4 * (y_lines y * m)) with (y_lines y * L) by (rewrite Hm; lia). exact JA. }
      assert (U : sz <= y_size y + L + 3) by (clear - PB; lia).
      destruct (N.eqb_spec (sz / L * L) ((sz + g_size s - 1) / L * L)) as [E|E]; cbn [negb].
      + assert (SAME : sz / L = (sz + g_size s - 1) / L) by (apply N.mul_cancel_r in E; [exact E|lia]).
        rewrite <- SAME in D2.
        assert (Q : (sz mod 4 =? 0) = true) by (rewrite P4; reflexivity). rewrite Q.
        destruct (N.leb_spec (y_lines y * L) (sz / L * L)) as [C|C].
        * assert (B0 : sz - sz / L * L = 0) by lia. rewrite B0. rewrite N.eqb_refl.
          change (2 ^ 32) with 4294967296. rewrite (N.mod_small (y_lines y + 1)) by exact Lines.
          destruct (FIN sz (y_lines y + 1) P4 (N.le_refl _) U (N.le_refl _) SAME) as [F1 F2].
          { intros _. clear - C SZL D M D2 M2 SL S0. replace (y_lines y + 1 - 1) with (y_lines y) by lia. lia. }
          exists sz, (y_lines y + 1). rewrite F1. split; [reflexivity|]. split; [apply PB|exact F2].
        * assert (Y : 0 < y_lines y).
          { destruct (N.eq_dec (y_lines y) 0) as [Z|Z]; [rewrite Z in C; cbn in C; lia|lia]. }
          specialize (JB Y).
          assert (B1 : sz / L < y_lines y) by (apply N.mul_lt_mono_pos_r with L; assumption).
          assert (B2 : (sz / L + 1) * L <= y_lines y * L) by (apply N.mul_le_mono_r; clear - B1; lia).
          destruct (FIN sz (y_lines y) P4 (N.le_refl _) U (N.le_add_r _ _) SAME) as [F1 F2].
          { intros _. split; [clear - B2 D2 M2 S0; lia|]. intros _. clear - JB PB S0. lia. }
          exists sz, (y_lines y). rewrite F1. split; [reflexivity|]. split; [apply PB|exact F2].
      + assert (DM2 : sz / L * L <= (sz + g_size s - 1) / L * L) by (apply N.mul_le_mono_r; exact DM).
        destruct (N.ltb_spec (sz / L * L) ((sz + g_size s - 1) / L * L)) as [C|C]; [|clear - C DM2 E; lia].
        assert (ND : sz mod L <> 0).
        { intros Z. apply E. rewrite <- (div_same sz (g_size s) S0 SL Z). reflexivity. }
        assert (Y : 0 < y_lines y).
        { destruct (N.eq_dec (y_lines y) 0) as [Z|Z]; [|lia]. rewrite Z in SZL. cbn in SZL.
          assert (Z0 : sz = 0) by lia. exfalso. apply ND. rewrite Z0. apply N.mod_0_l. lia. }
        specialize (JB Y).
        assert (B1 : sz / L < y_lines y).
        { apply N.mul_lt_mono_pos_r with L; [exact LP|]. clear - D ND SZL M. lia. }
        assert (B2 : y_lines y - 1 < sz / L + 1).
        { apply N.mul_lt_mono_pos_r with L; [exact LP|]. clear - JB D M PB. lia. }
        assert (NL : sz / L + 1 = y_lines y) by (clear - B1 B2; lia).
        rewrite w64_small by (clear - D PB SB LL; lia).
        assert (PE : sz / L * L + L = y_lines y * L) by (rewrite <- NL; clear; lia).
        assert (PU : sz <= sz / L * L + L /\ sz / L * L + L <= y_size y + L + 3) by (clear - D M PB; lia).
        rewrite PE in *.
        set (p := y_lines y * L) in *.
        assert (PM : p mod 4 = 0).
        { unfold p. rewrite Hm. replace (y_lines y * (4 * m)) with ((y_lines y * m) * 4) by (clear; lia).
          apply N.mod_mul. discriminate. }
        assert (PL : p mod L = 0) by (apply N.mod_mul; clear - LP; lia).
        assert (Q : (p mod 4 =? 0) = true) by (rewrite PM; reflexivity). rewrite Q.
        change (2 ^ 32) with 4294967296. rewrite (N.mod_small (y_lines y + 1)) by exact Lines.
        destruct (FIN p (y_lines y + 1) PM (proj1 PU) (proj2 PU) (N.le_refl _) (div_same p (g_size s) S0 SL PL)) as [F1 F2].
        { intros _. replace (y_lines y + 1 - 1) with (y_lines y) by (clear; lia). fold p. 
          replace ((y_lines y + 1) * L) with (p + L) by (unfold p; clear; lia). clear - S0 SL. lia. }
        exists p, (y_lines y + 1). rewrite F1. split; [reflexivity|]. split; [clear - PU PB; lia|exact F2].
  Qed.
  Definition ranked (r : nat -> nat) (y : lay) : Prop := forall i j, y_at y i <> None -> parent i j -> (r j < r i)%nat.
  (** A subset request that cannot be met. *)
  Definition bad (i : nat) : Prop :=
    exists s id, nth_error segs i = Some s /\ g_sub s = Some id /\
      forall j ps, nth_error segs j = Some ps -> g_id ps = Some id -> g_size ps < g_size s + g_off s.

  Lemma place_inv : forall fuel i y, J y -> (i < n)%nat ->
    match place fuel L mask segs i y with
    | Done y' => J y' /\ y_at y' i <> None /\ y_size y <= y_size y' /\
        (forall x, y_at y x <> None -> y_at y' x = y_at y x) /\
        (forall r, ranked r y' -> forall x, y_at y x = None -> y_at y' x <> None -> (r x <= r i)%nat)
    | Refused => exists x, bad x
    | TooDeep => True
    | _ => False
    end.
  Proof.
    induction fuel as [|f IH]; intros i y HJ Li; cbn [place]; [exact I|].
    destruct (y_at y i) as [p|] eqn:Ei.
    { split; [exact HJ|]. split; [congruence|]. split; [lia|]. split; [auto|]. intros r _ x A B. contradiction. }
    destruct (nth_error segs i) as [s|] eqn:Es.
    2:{ apply nth_error_None in Es. lia. }
    assert (IN : In s segs) by (eapply nth_error_In; eauto).
    destruct (g_sub s) as [id|] eqn:Eg.
    2:{ destruct (place_root_ok i s y HJ Es Eg Ei) as [p [lines [P1 [P2 P3]]]]. rewrite P1.
        split; [exact P3|]. split; [cbn; rewrite Nat.eqb_refl; discriminate|]. split; [cbn [y_size upd]; lia|].
        split.
        - intros x Hx. cbn. destruct (Nat.eqb_spec x i) as [->|]; [contradiction|reflexivity].
        - intros r _ x A B. cbn in B. destruct (Nat.eqb_spec x i) as [->|]; [lia|contradiction]. }
    destruct (find_id segs id 0) as [j|] eqn:Ef.
    2:{ exists i. exists s, id. split; [exact Es|]. split; [exact Eg|]. intros j ps Hj Hid.
        exfalso. exact (find_id_none _ _ _ Ef j ps Hj Hid). }
    destruct (find_id_some _ _ _ _ Ef) as [ps [_ [Hps Hid]]]. rewrite Nat.sub_0_r in Hps.
    assert (PAR : parent i j) by (exists s, ps, id; auto).
    assert (Lj : (j < n)%nat) by (apply nth_error_Some; rewrite Hps; discriminate).
    specialize (IH j y HJ Lj). destruct (place f L mask segs j y) as [y'| | | |] eqn:Ep; try exact IH.
    destruct IH as [J' [Nj [SZ [MON RK]]]]. destruct (y_at y' j) as [o|] eqn:Eo; [|contradiction].
    rewrite Hps.
    assert (Ni : y_at y' i = None).
    { destruct (y_at y' i) as [q|] eqn:Eq; [|reflexivity]. exfalso.
      destruct (j_rank y' J') as [r R]. assert (X : y_at y' i <> None) by congruence.
      pose proof (RK r R i Ei X) as RL. pose proof (R i j X PAR). lia. }
    rewrite (w64_small (g_size s + g_off s)) by (apply NW; exact IN).
    destruct (N.ltb_spec (g_size ps) (g_size s + g_off s)) as [C|C].
    { exists i. exists s, id. split; [exact Es|]. split; [exact Eg|]. intros j' ps' Hj' Hid'.
      assert (j' = j) by (eapply (proj2 W); eauto). subst j'. assert (ps' = ps) by congruence. subst. exact C. }
    destruct (j_at y' J' j o Eo) as [ps' [X1 [X2 [X3 X4]]]]. assert (ps' = ps) by congruence. subst ps'.
    destruct (proj1 W s IN) as [S0 SL].
    pose proof (size_bound y' (j_size y' J')) as SB. pose proof L_pos as LP.
    rewrite (w64_small (o + g_off s)) by (clear - C X2 SB; lia).
    assert (SP : (o + g_off s) / L = (o + g_off s + g_size s - 1) / L).
    { assert (A1 : o / L <= (o + g_off s) / L) by (apply N.div_le_mono; clear - LP; lia).
      assert (A2 : (o + g_off s) / L <= (o + g_off s + g_size s - 1) / L) by (apply N.div_le_mono; clear - LP S0; lia).
      assert (A3 : (o + g_off s + g_size s - 1) / L <= (o + g_size ps - 1) / L) by
        (apply N.div_le_mono; clear - LP S0 C; lia).
      rewrite <- X3 in A3. clear - A1 A2 A3. lia. }
    rewrite put_done; [|exact Ni|exact S0|exact SL|clear - C X2; lia|clear - SB; lia|exact SP].
    set (y2 := upd y' i (o + g_off s) (y_size y') (y_lines y')).
    assert (CN : cnt n y2 = S (cnt n y')) by (apply cnt_upd; assumption).
    split.
    { constructor.
      - rewrite CN. pose proof (j_size y' J') as Q. unfold y2. cbn [y_size upd]. clear - Q. lia.
      - rewrite CN. pose proof (j_lines y' J') as Q. unfold y2. cbn [y_lines upd]. clear - Q. lia.
      - exact (j_last y' J').
      - intros x q Hx. unfold y2 in *. cbn [y_at upd] in Hx. cbn [y_size upd y_at].
        destruct (Nat.eqb_spec x i) as [E|E].
        + subst x. injection Hx as <-. exists s. split; [exact Es|]. split; [clear - C X2; lia|]. split; [exact SP|].
          rewrite Eg. exists j, ps, o. split; [exact PAR|]. split; [exact Hps|]. split; [|auto].
          destruct (Nat.eqb_spec j i) as [->|]; [congruence|exact Eo].
        + destruct (j_at y' J' x q Hx) as [t [T1 [T2 [T3 T4]]]]. exists t. split; [exact T1|]. split; [exact T2|].
          split; [exact T3|]. destruct (g_sub t); [|exact T4].
          destruct T4 as [j2 [ps2 [o2 [U1 [U2 [U3 U4]]]]]]. exists j2, ps2, o2. split; [exact U1|].
          split; [exact U2|]. split; [|exact U4].
          destruct (Nat.eqb_spec j2 i) as [->|]; [congruence|exact U3].
      - intros a b pa pb sa sb Nab Ha Hb Na Nb Sa Sb. unfold y2 in *. cbn [y_at upd] in Ha, Hb.
        destruct (Nat.eqb_spec a i) as [Ea|Ea]; [subst a; congruence|].
        destruct (Nat.eqb_spec b i) as [Eb|Eb]; [subst b; congruence|].
        exact (j_apart y' J' a b pa pb sa sb Nab Ha Hb Na Nb Sa Sb).
      - destruct (j_rank y' J') as [r R].
        exists (fun x => if Nat.eqb x i then S (r j) else r x). intros a b Ha Pab. unfold y2 in Ha. cbn [y_at upd] in Ha.
        destruct (Nat.eqb_spec a i) as [->|Na].
        + assert (b = j).
          { destruct Pab as [s1 [p1 [d1 [B1 [B2 [B3 B4]]]]]]. assert (s1 = s) by congruence. subst s1.
            assert (d1 = id) by congruence. subst d1. eapply (proj2 W); eauto. }
          subst b. destruct (Nat.eqb_spec j i) as [->|]; [congruence|]. lia.
        + destruct (Nat.eqb_spec b i) as [->|]; [|apply R; assumption].
          exfalso. destruct (y_at y' a) as [q|] eqn:Ea; [|contradiction].
          destruct (j_at y' J' a q Ea) as [t [T1 [T2 [T3 T4]]]].
          destruct Pab as [s1 [p1 [d1 [B1 [B2 [B3 B4]]]]]]. assert (s1 = t) by congruence. subst s1. rewrite B2 in T4.
          destruct T4 as [j2 [ps2 [o2 [U1 [U2 [U3 U4]]]]]].
          destruct U1 as [s2 [p2 [d2 [V1 [V2 [V3 V4]]]]]]. assert (s2 = t) by congruence. subst s2.
          assert (d2 = d1) by congruence. subst d2.
          assert (j2 = i) by exact (proj2 W j2 i p2 p1 d1 V3 B3 V4 B4). subst j2. congruence. }
    split; [unfold y2; cbn; rewrite Nat.eqb_refl; discriminate|].
    split; [exact SZ|].
    split.
    { intros x Hx. unfold y2. cbn. destruct (Nat.eqb_spec x i) as [->|]; [contradiction|]. apply MON. exact Hx. }
    intros r R x A B. unfold y2 in B. cbn in B. destruct (Nat.eqb_spec x i) as [->|Ne]; [lia|].
    assert (R' : ranked r y').
    { intros a b Ha Pab. apply R; [|exact Pab]. unfold y2. cbn. destruct (Nat.eqb_spec a i); [discriminate|exact Ha]. }
    pose proof (RK r R' x A B).
    assert (r j < r i)%nat.
    { apply R; [|exact PAR]. unfold y2. cbn. rewrite Nat.eqb_refl. discriminate. }
    lia.
  Qed.

  Lemma place_all_inv : forall fuel todo y, J y -> (forall i, In i todo -> (i < n)%nat) ->
    match place_all fuel L mask segs todo y with
    | Done y' => J y' /\ (forall x, y_at y x <> None -> y_at y' x = y_at y x) /\
                 (forall i, In i todo -> y_at y' i <> None)
    | Refused => exists x, bad x
    | TooDeep => True
    | _ => False
    end.
  Proof.
    induction todo as [|i r IH]; intros y HJ HT; cbn [place_all].
    - split; [exact HJ|]. split; [auto|]. intros i [].
    - pose proof (place_inv fuel i y HJ (HT i (or_introl eq_refl))) as P.
      destruct (place fuel L mask segs i y) as [y'| | | |]; try exact P.
      destruct P as [J' [Pi [_ [MON _]]]].
      specialize (IH y' J' (fun k Hk => HT k (or_intror Hk))).
      destruct (place_all fuel L mask segs r y') as [y2| | | |]; try exact IH.
      destruct IH as [J2 [M2 T2]]. split; [exact J2|]. split.
      + intros x Hx. rewrite M2; [apply MON; exact Hx|]. rewrite MON; exact Hx.
      + intros x [<-|Hx]; [|apply T2; exact Hx]. rewrite M2; exact Pi.
  Qed.

  Lemma J0 : J (mkLay 0 0 (fun _ => None)).
  Proof.
    constructor; cbn [y_size y_lines y_at].
    - lia.
    - lia.
    - intros _. split; lia.
    - intros i p H. discriminate.
    - intros i j p q s t _ H. discriminate.
    - exists (fun _ => 0%nat). intros i j H. contradiction.
  Qed.

  (** With bounded nesting the recursion ends. *)
  Lemma place_deep : forall r, (forall i j, parent i j -> (r j < r i)%nat) ->
    forall fuel i y, (r i < fuel)%nat -> place fuel L mask segs i y <> TooDeep.
  Proof.
    intros r R. induction fuel as [|f IH]; intros i y Hf; [lia|]. cbn [place].
    destruct (y_at y i); [discriminate|]. destruct (nth_error segs i) as [s|] eqn:Es; [|discriminate].
    destruct (g_sub s) as [id|] eqn:Eg.
    - destruct (find_id segs id 0) as [j|] eqn:Ef; [|discriminate].
      destruct (find_id_some _ _ _ _ Ef) as [ps [_ [Hps Hid]]]. rewrite Nat.sub_0_r in Hps.
      assert (PAR : parent i j) by (exists s, ps, id; auto). pose proof (R i j PAR).
      specialize (IH j y ltac:(lia)).
      destruct (place f L mask segs j y) as [y'| | | |]; try discriminate; try contradiction.
      destruct (y_at y' j); [|discriminate]. rewrite Hps.
      destruct (_ <? _); [discriminate|]. unfold put. destruct (y_at y' i); [discriminate|].
      destruct (g_view s && _); [discriminate|]. destruct (g_view s && _); discriminate.
    - unfold place_root, put. cbn [y_at].
      repeat (match goal with |- context [if ?b then _ else _] => destruct b | |- context [match y_at y i with _ => _ end] =>
        destruct (y_at y i) end; try discriminate).
  Qed.

  Lemma place_all_deep : forall r, (forall i j, parent i j -> (r j < r i)%nat) ->
    forall fuel todo y, (forall i, In i todo -> (r i < fuel)%nat) -> place_all fuel L mask segs todo y <> TooDeep.
  Proof.
    intros r R fuel. induction todo as [|i t IH]; intros y H; cbn [place_all]; [discriminate|].
    pose proof (place_deep r R fuel i y (H i (or_introl eq_refl))) as P.
    destruct (place fuel L mask segs i y); try discriminate; try contradiction.
    apply IH. intros x Hx. apply H. right. exact Hx.
  Qed.
End Lay.

(** More fuel never changes an answer. *)
Lemma place_more : forall L mask segs f g i y r, (f <= g)%nat -> place f L mask segs i y = r -> r <> TooDeep ->
  place g L mask segs i y = r.
Proof.
  induction f as [|f IH]; intros g i y r Hg H Hr; [cbn in H; congruence|].
  destruct g as [|g]; [lia|]. cbn [place] in *.
  destruct (y_at y i); [exact H|]. destruct (nth_error segs i) as [s|]; [|exact H].
  destruct (g_sub s) as [id|]; [|exact H]. destruct (find_id segs id 0) as [j|]; [|exact H].
  destruct (place f L mask segs j y) as [y'| | | |] eqn:E.
  - rewrite (IH g j y _ ltac:(lia) E ltac:(discriminate)). exact H.
  - rewrite (IH g j y _ ltac:(lia) E ltac:(discriminate)). exact H.
  - rewrite (IH g j y _ ltac:(lia) E ltac:(discriminate)). exact H.
  - rewrite (IH g j y _ ltac:(lia) E ltac:(discriminate)). exact H.
  - congruence.
Qed.

Lemma place_all_more : forall L mask segs f g todo y r, (f <= g)%nat -> place_all f L mask segs todo y = r -> r <> TooDeep ->
  place_all g L mask segs todo y = r.
Proof.
  intros L mask segs f g. induction todo as [|i t IH]; intros y r Hg H Hr; cbn [place_all] in *; [exact H|].
  destruct (place f L mask segs i y) as [y'| | | |] eqn:E;
    try (rewrite (place_more _ _ _ f g i y _ Hg E ltac:(discriminate)); auto; fail).
  congruence.
Qed.
