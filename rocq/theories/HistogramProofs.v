(** Lemmas about the histogram model. *)
From Coq Require Import Arith NArith List Bool Lia Permutation Sorted.
From Verif Require Import MathUtilsModel MathUtilsProofs StatModel StatProps LayoutModel HistogramModel.
Import ListNotations.
Open Scope N_scope.

(** The number of values with a property. *)
Definition tally (f : N -> bool) (vs : list N) : N := N.of_nat (length (filter f vs)).

Lemma tally_cons : forall f v vs, tally f (v :: vs) = (if f v then 1 else 0) + tally f vs.
Proof. intros f v vs. unfold tally. cbn [filter]. destruct (f v); cbn [length]; lia. Qed.

Lemma w64_step : forall a b c, w64 (w64 (a + b) + c) = w64 (a + (b + c)).
Proof.
  intros a b c. unfold w64. rewrite N.add_mod_idemp_l by (intros Z; discriminate Z).
  now rewrite N.add_assoc.
Qed.

Lemma w64_id : forall a, a < 2 ^ 64 -> w64 a = a.
Proof. intros a L. apply N.mod_small, L. Qed.

(** What the constructor accepts. *)
Lemma h_new_inv : forall lo up per p, up < 2 ^ 64 -> per < 2 ^ 32 -> h_new lo up per = Some p ->
  exists k, per = 2 ^ k /\ k < 32 /\ lo < up /\
    p = mkHp lo up per (w64 ((up - lo) / per + 1)) k /\
    w64 ((up - lo) / per + 1) < 2 ^ 32.
Proof.
  intros lo up per p UB PB E. unfold h_new in E.
  destruct (N.ltb_spec lo up) as [L|]; [|discriminate]. cbn [negb] in E.
  destruct (is_power_of_2 per) eqn:Q; [|discriminate]. cbn [negb] in E.
  apply is_power_of_2_correct in Q as [k ->]; [|change (2 ^ 32) with 4294967296 in PB; change (2 ^ 64) with 18446744073709551616; lia].
  destruct (N.ltb_spec (w64 ((up - lo) / 2 ^ k + 1)) (2 ^ 32)) as [B|]; [|discriminate].
  injection E as <-. exists k. split; [reflexivity|].
  assert (K : k < 32) by (apply N.pow_lt_mono_r_iff with 2; [reflexivity|exact PB]).
  split; [exact K|]. split; [exact L|]. split; [|exact B].
  rewrite floor_log2_32_correct; [|pose proof (N.pow_nonzero 2 k ltac:(lia)); lia|exact PB].
  now rewrite N.log2_pow2 by lia.
Qed.

(** The whole range of 64-bit numbers with one value for each bin. *)
Definition whole (lo up per : N) : Prop := lo = 0 /\ up = 2 ^ 64 - 1 /\ per = 1.

Lemma bins_small : forall lo up per, up < 2 ^ 64 -> per <> 0 -> ~ whole lo up per ->
  (up - lo) / per + 1 < 2 ^ 64.
Proof.
  intros lo up per UB P0 W. unfold whole in W. change (2 ^ 64) with 18446744073709551616 in *.
  destruct (N.eq_dec per 1) as [->|NE].
  - rewrite N.div_1_r. lia.
  - assert ((up - lo) / per <= (up - lo) / 2) by (apply N.div_le_compat_l; lia).
    assert ((up - lo) / 2 <= up / 2) by (apply N.div_le_mono; lia).
    assert (up / 2 < 9223372036854775808) by (apply N.div_lt_upper_bound; lia). lia.
Qed.

(** What is in a bin. *)
Definition in_bin (lo up per : N) (i : nat) (v : N) : bool :=
  (lo + N.of_nat i * per <=? v) && (v <? lo + (N.of_nat i + 1) * per) && (v <=? up).

(** ** The largest values *)

(** The tracked values are the largest. *)
Definition tops (ms all : list N) : Prop :=
  StronglySorted N.le ms /\
  exists rest, Permutation (rest ++ ms) all /\ Forall (fun r => Forall (N.le r) ms) rest.

Lemma put_perm : forall v l, Permutation (put_in v l) (v :: l).
Proof.
  intros v l. induction l as [|x l IH]; cbn; [reflexivity|].
  destruct (v <? x); [reflexivity|]. rewrite IH. apply perm_swap.
Qed.

Lemma put_sorted : forall v l, StronglySorted N.le l -> StronglySorted N.le (put_in v l).
Proof.
  intros v l S. induction S as [|x l S IH F]; cbn; [constructor; constructor|].
  destruct (N.ltb_spec v x) as [L|L].
  - constructor; [constructor; auto|]. constructor; [lia|]. eapply Forall_impl; [|exact F]. cbn. lia.
  - constructor; [exact IH|]. eapply Permutation_Forall; [apply Permutation_sym, put_perm|].
    constructor; [lia|exact F].
Qed.

Lemma copy_same : forall a b : list N, length a = length b -> copy_over a b = Some a.
Proof.
  induction a as [|x a IH]; intros [|y b] L; cbn in *; try lia; [reflexivity|].
  rewrite IH by lia. reflexivity.
Qed.

Lemma tops_low : forall m r all v, tops (m :: r) all -> v <= m -> tops (m :: r) (v :: all).
Proof.
  intros m r all v (S & rest & P & F) L. split; [exact S|]. exists (v :: rest). split.
  - cbn. now constructor.
  - constructor; [|exact F]. inversion S as [|? ? S' F']; subst. constructor; [exact L|].
    eapply Forall_impl; [|exact F']. cbn. lia.
Qed.

Lemma tops_high : forall m r all v, tops (m :: r) all -> m < v -> tops (put_in v r) (v :: all).
Proof.
  intros m r all v (S & rest & P & F) L. inversion S as [|? ? S' F']; subst.
  split; [now apply put_sorted|]. exists (m :: rest). split.
  - rewrite put_perm. cbn. rewrite <- P. rewrite <- !Permutation_middle. apply perm_swap.
  - assert (G : forall z, z <= m -> Forall (N.le z) (put_in v r)).
    { intros z Z. eapply Permutation_Forall; [apply Permutation_sym, put_perm|].
      constructor; [lia|]. eapply Forall_impl; [|exact F']. cbn. lia. }
    constructor; [apply G; lia|]. eapply Forall_impl; [|exact F]. cbn. intros a A.
    apply G. now inversion A.
Qed.

Section Run.
Variables lo up per k : N.
Hypothesis LU : lo < up.
Hypothesis EK : per = 2 ^ k.
Hypothesis K32 : k < 32.
Variable q : N.
Hypothesis EQ : q = (up - lo) / per + 1.
Hypothesis Q32 : q < 2 ^ 32.

Let p := mkHp lo up per q k.

Lemma per_pos : per <> 0.
Proof. rewrite EK. apply N.pow_nonzero. lia. Qed.

Lemma index_ok : forall v, lo <= v <= up ->
  N.shiftr (v - lo) k mod 2 ^ 32 = (v - lo) / per /\ (v - lo) / per < q.
Proof.
  intros v [A B]. rewrite N.shiftr_div_pow2, <- EK.
  assert (Z : (v - lo) / per < q).
  { rewrite EQ. assert ((v - lo) / per <= (up - lo) / per) by (apply N.div_le_mono; [apply per_pos|lia]). lia. }
  split; [|exact Z]. apply N.mod_small. lia.
Qed.

Lemma in_bin_index : forall v i, lo <= v <= up ->
  in_bin lo up per i v = Nat.eqb i (N.to_nat ((v - lo) / per)).
Proof.
  intros v i [A B]. unfold in_bin. pose proof per_pos as P0.
  pose proof (N.div_mod (v - lo) per P0) as D. pose proof (N.mod_lt (v - lo) per P0) as M.
  set (d := (v - lo) / per) in *. set (m := (v - lo) mod per) in *.
  destruct (N.leb_spec v up) as [_|]; [|lia]. rewrite andb_true_r.
  destruct (Nat.eqb_spec i (N.to_nat d)) as [->|NE].
  - rewrite N2Nat.id. destruct (N.leb_spec (lo + d * per) v); [|lia].
    destruct (N.ltb_spec v (lo + (d + 1) * per)); [reflexivity|lia].
  - assert (NE' : N.of_nat i <> d) by lia.
    destruct (N.leb_spec (lo + N.of_nat i * per) v) as [L1|]; [|reflexivity].
    destruct (N.ltb_spec v (lo + (N.of_nat i + 1) * per)) as [L2|]; [|reflexivity].
    exfalso. assert (N.of_nat i < d \/ d < N.of_nat i) as [X|X] by lia.
    + assert ((N.of_nat i + 1) * per <= d * per) by (apply N.mul_le_mono_r; lia). lia.
    + assert ((d + 1) * per <= N.of_nat i * per) by (apply N.mul_le_mono_r; lia). lia.
Qed.

Lemma in_bin_range : forall v i, in_bin lo up per i v = true -> lo <= v <= up.
Proof.
  intros v i E. unfold in_bin in E. rewrite !andb_true_iff in E. destruct E as [[A _] B].
  apply N.leb_le in A, B. lia.
Qed.

(** ** All values *)

Definition adds (s s' : hs) (v : N) : Prop :=
  v_total s' = w64 (v_total s + 1) /\ v_sum s' = w64 (v_sum s + v) /\
  v_uf s' = (if v <? lo then w64 (v_uf s + 1) else v_uf s) /\
  v_of s' = (if up <? v then w64 (v_of s + 1) else v_of s) /\
  length (v_bin s') = length (v_bin s) /\
  forall i, (i < length (v_bin s))%nat ->
    nth i (v_bin s') 0 = (if in_bin lo up per i v then w64 (nth i (v_bin s) 0 + 1) else nth i (v_bin s) 0).

Lemma in_bin_out : forall v i, v < lo \/ up < v -> in_bin lo up per i v = false.
Proof.
  intros v i O. destruct (in_bin lo up per i v) eqn:E; [|reflexivity].
  apply in_bin_range in E. lia.
Qed.

Lemma one_value : forall s v all, v_ctr s = v_max s -> tops (v_max s) all ->
  length (v_bin s) = N.to_nat q ->
  exists s', h_value p v s = Some s' /\ adds s s' v /\ v_ctr s' = v_max s' /\
    length (v_max s') = length (v_max s) /\ (v_max s <> [] -> tops (v_max s') (v :: all)).
Proof.
  intros s v all EC TP LB.
  assert (ST : exists s1,
    (if v <? lo then Some (mkHs (w64 (v_total s + 1)) (w64 (v_sum s + v)) (w64 (v_uf s + 1)) (v_of s) (v_bin s) (v_ctr s) (v_max s))
    else if up <? v then Some (mkHs (w64 (v_total s + 1)) (w64 (v_sum s + v)) (v_uf s) (w64 (v_of s + 1)) (v_bin s) (v_ctr s) (v_max s))
    else match bump (v_bin s) (N.to_nat (N.shiftr (v - lo) k mod 2 ^ 32)) with
         | Some b => Some (mkHs (w64 (v_total s + 1)) (w64 (v_sum s + v)) (v_uf s) (v_of s) b (v_ctr s) (v_max s))
         | None => None
         end) = Some s1 /\ adds s s1 v /\ v_ctr s1 = v_ctr s /\ v_max s1 = v_max s).
  { unfold adds. destruct (N.ltb_spec v lo) as [A|A].
    - eexists. split; [reflexivity|]. cbn. split; [|auto].
      destruct (N.ltb_spec up v); [lia|]. repeat (split; [reflexivity|]).
      intros i L. rewrite in_bin_out by lia. reflexivity.
    - destruct (N.ltb_spec up v) as [B|B].
      + eexists. split; [reflexivity|]. cbn. split; [|auto]. repeat (split; [reflexivity|]).
        intros i L. rewrite in_bin_out by lia. reflexivity.
      + destruct (index_ok v ltac:(lia)) as [I1 I2]. rewrite I1.
        destruct (bump_spec (v_bin s) (N.to_nat ((v - lo) / per))) as (b & E & L & C); [lia|].
        rewrite E. eexists. split; [reflexivity|]. cbn. split; [|auto]. repeat (split; [reflexivity|]).
        split; [exact L|]. intros i Li. rewrite in_bin_index by lia. rewrite C by lia.
        rewrite Nat.eqb_sym. destruct (Nat.eqb_spec (N.to_nat ((v - lo) / per)) i); reflexivity. }
  destruct ST as (s1 & E1 & A1 & C1 & M1).
  unfold h_value. cbn [p p_lo p_up p_shift]. cbv zeta. rewrite E1, C1.
  destruct (v_ctr s) as [|c cs] eqn:CT.
  - exists s1. split; [reflexivity|]. split; [exact A1|]. split; [congruence|]. split; [congruence|].
    intros NE. congruence.
  - unfold up_max. rewrite M1, C1, <- EC. rewrite <- EC in TP. destruct (N.leb_spec v c) as [L|L].
    + exists s1. split; [reflexivity|]. split; [exact A1|]. split; [congruence|]. split; [congruence|].
      intros _. rewrite M1, <- EC. now apply tops_low.
    + rewrite copy_same; [|rewrite (Permutation_length (put_perm v cs)); reflexivity].
      eexists. split; [reflexivity|]. cbn. split; [exact A1|]. split; [reflexivity|].
      split; [apply (Permutation_length (put_perm v cs))|].
      intros _. now apply tops_high with c.
Qed.

(** The state after the values [seen]. *)
Definition counted (m : nat) (s : hs) (seen : list N) : Prop :=
  v_total s = w64 (N.of_nat (length seen)) /\ v_sum s = w64 (fold_right N.add 0 seen) /\
  v_uf s = w64 (tally (fun v => v <? lo) seen) /\ v_of s = w64 (tally (fun v => up <? v) seen) /\
  length (v_bin s) = N.to_nat q /\
  (forall i, (i < N.to_nat q)%nat -> nth i (v_bin s) 0 = w64 (tally (in_bin lo up per i) seen)) /\
  v_ctr s = v_max s /\ length (v_max s) = m /\ tops (v_max s) (repeat 0 m ++ seen).

Lemma tally_snoc : forall f vs v, tally f (vs ++ [v]) = tally f vs + (if f v then 1 else 0).
Proof.
  intros f vs v. unfold tally. rewrite filter_app, app_length. cbn. destruct (f v); cbn; lia.
Qed.

Lemma w64_add : forall a b, w64 (w64 a + b) = w64 (a + b).
Proof. intros a b. unfold w64. now rewrite N.add_mod_idemp_l by (intros Z; discriminate Z). Qed.

Lemma tally_next : forall f seen v c, c = w64 (tally f seen) ->
  (if f v then w64 (c + 1) else c) = w64 (tally f (seen ++ [v])).
Proof.
  intros f seen v c ->. rewrite tally_snoc. destruct (f v); [apply w64_add|]. now rewrite N.add_0_r.
Qed.

Lemma sum_snoc : forall l v, fold_right N.add 0 (l ++ [v]) = fold_right N.add 0 l + v.
Proof. induction l as [|x l IH]; intros v; cbn; [lia|]. rewrite IH. lia. Qed.

Lemma counted_step : forall m s seen v, counted m s seen ->
  exists s', h_value p v s = Some s' /\ counted m s' (seen ++ [v]).
Proof.
  intros m s seen v (T & U & F & O & L & B & C & M & P).
  destruct (one_value s v _ C P L) as (s' & E & (T' & U' & F' & O' & L' & B') & C' & M' & P').
  exists s'. split; [exact E|]. unfold counted.
  split; [rewrite T', T, w64_add, app_length; f_equal; cbn; lia|].
  split; [rewrite U', U, w64_add, sum_snoc; reflexivity|].
  split; [rewrite F'; now apply (tally_next (fun v => v <? lo))|].
  split; [rewrite O'; now apply (tally_next (fun v => up <? v))|].
  split; [congruence|].
  split; [intros i Li; rewrite B' by lia; apply (tally_next (in_bin lo up per i)); now apply B|].
  split; [exact C'|]. split; [congruence|].
  destruct (v_max s) as [|x r] eqn:VM.
  - cbn in M. subst m. cbn in M'. destruct (v_max s') as [|y t]; [|discriminate M'].
    cbn. split; [constructor|]. exists (seen ++ [v]). rewrite app_nil_r. split; [reflexivity|].
    apply Forall_forall. intros z _. constructor.
  - destruct (P' ltac:(discriminate)) as (S & rest & Q & G). split; [exact S|]. exists rest.
    split; [|exact G]. rewrite Q. rewrite app_assoc. apply Permutation_cons_append.
Qed.

Lemma counted_run : forall vs m s seen, counted m s seen ->
  exists s', h_values p vs s = Some s' /\ counted m s' (seen ++ vs).
Proof.
  induction vs as [|v vs IH]; intros m s seen C; cbn.
  - exists s. rewrite app_nil_r. auto.
  - destruct (counted_step m s seen v C) as (s1 & E & C1). rewrite E.
    destruct (IH m s1 _ C1) as (s2 & E2 & C2). exists s2. rewrite <- app_assoc in C2. auto.
Qed.

Lemma nth_repeat0 : forall n i, nth i (repeat 0 n) 0 = 0.
Proof. induction n as [|n IH]; intros [|i]; cbn; auto. Qed.

Lemma counted_begin : forall m, counted m (h_begin p m) [].
Proof.
  intros m. unfold counted, h_begin. cbn. repeat (split; [reflexivity|]).
  split; [apply repeat_length|]. split; [intros i _; apply nth_repeat0|]. split; [reflexivity|].
  split; [apply repeat_length|]. split.
  - induction m as [|m IH]; cbn; constructor; auto. apply Forall_forall. intros x X.
    apply repeat_spec in X. lia.
  - exists []. rewrite app_nil_r. split; [reflexivity|constructor].
Qed.

(** ** Labels *)

Lemma labels_nth : forall n i a b, up + per <= 2 ^ 64 -> (b < n)%nat -> (i + b < N.to_nat q)%nat ->
  a = lo + N.of_nat i * per ->
  nth b (labels_ p n a (a + per - 1)) (0, 0) =
  (a + N.of_nat b * per, N.min (a + (N.of_nat b + 1) * per - 1) up).
Proof.
  pose proof per_pos as P0.
  induction n as [|n IH]; intros i a b UB Lb Li Ea; [lia|]. cbn [labels_ nth p p_up p_per].
  assert (Z : forall j, (j < N.to_nat q)%nat -> N.of_nat j * per <= up - lo).
  { intros j J. pose proof (N.mul_div_le (up - lo) per P0) as D.
    assert (N.of_nat j * per <= (up - lo) / per * per) by (apply N.mul_le_mono_r; lia). lia. }
  destruct b as [|b].
  - cbn [N.of_nat]. destruct (N.ltb_spec up (a + per - 1)); f_equal; lia.
  - destruct (N.ltb_spec up (a + per - 1)) as [X|X].
    + exfalso. pose proof (Z (i + S b)%nat Li) as Y.
      assert ((N.of_nat i + 1) * per <= N.of_nat (i + S b) * per) by (apply N.mul_le_mono_r; lia). lia.
    + pose proof (Z (S i) ltac:(lia)) as Y. rewrite Nat2N.inj_succ, N.mul_succ_l in Y.
      rewrite !w64_id by lia.
      replace (a + per - 1 + 1) with (a + per) by lia.
      replace (a + per - 1 + per) with (a + per + per - 1) by lia.
      rewrite (IH (S i)); [f_equal; [lia|f_equal; lia]|exact UB|lia|lia|lia].
Qed.

Lemma labels_len : forall n a b, length (labels_ p n a b) = n.
Proof. induction n as [|n IH]; intros a b; cbn; auto. Qed.

(** ** Running sums *)

Lemma tally_split : forall f g h l,
  (forall v, f v = g v || h v) -> (forall v, g v && h v = false) ->
  tally f l = tally g l + tally h l.
Proof.
  intros f g h l A B. induction l as [|v l IH]; [reflexivity|].
  rewrite !tally_cons, IH, A. specialize (B v). destruct (g v), (h v); cbn [andb orb] in B |- *; try discriminate; lia.
Qed.

Lemma below_next : forall i v, (i < N.to_nat q)%nat ->
  (v <=? N.min (lo + (N.of_nat i + 1) * per - 1) up) =
    (v <? lo + N.of_nat i * per) || in_bin lo up per i v /\
  (v <? lo + N.of_nat i * per) && in_bin lo up per i v = false.
Proof.
  intros i v Li. pose proof per_pos as P0. unfold in_bin.
  assert (Z : N.of_nat i * per <= up - lo).
  { pose proof (N.mul_div_le (up - lo) per P0) as D.
    assert (N.of_nat i * per <= (up - lo) / per * per) by (apply N.mul_le_mono_r; lia). lia. }
  destruct (N.leb_spec v (N.min (lo + (N.of_nat i + 1) * per - 1) up));
  destruct (N.ltb_spec v (lo + N.of_nat i * per));
  destruct (N.leb_spec (lo + N.of_nat i * per) v);
  destruct (N.ltb_spec v (lo + (N.of_nat i + 1) * per));
  destruct (N.leb_spec v up); cbn; split; try reflexivity; try lia.
Qed.

Lemma cumul_nth : forall m s seen, counted m s seen -> up + per <= 2 ^ 64 ->
  forall l i b sum, (b < length l)%nat -> length l = (N.to_nat q - i)%nat ->
  (forall j, (j < length l)%nat -> nth j l 0 = nth (i + j) (v_bin s) 0) ->
  sum = w64 (tally (fun v => v <? lo + N.of_nat i * per) seen) ->
  nth b (cumul_ p l (lo + (N.of_nat i + 1) * per - 1) sum) (0, 0, 0) =
    let e := N.min (lo + (N.of_nat (i + b) + 1) * per - 1) up in
    (lo, e, w64 (tally (fun v => v <=? e) seen)).
Proof.
  intros m s seen C UB. pose proof per_pos as P0.
  assert (Z : forall j, (j < N.to_nat q)%nat -> N.of_nat j * per <= up - lo).
  { intros j J. pose proof (N.mul_div_le (up - lo) per P0) as D.
    assert (N.of_nat j * per <= (up - lo) / per * per) by (apply N.mul_le_mono_r; lia). lia. }
  destruct C as (_ & _ & _ & _ & LB & BN & _).
  induction l as [|x l IH]; intros i b sum Lb Ll Ex Es; cbn [length] in *; [lia|].
  assert (Li : (i < N.to_nat q)%nat) by lia.
  assert (EX : w64 (sum + x) =
    w64 (tally (fun v => v <=? N.min (lo + (N.of_nat i + 1) * per - 1) up) seen)).
  { pose proof (Ex 0%nat ltac:(lia)) as E0. cbn [nth] in E0. rewrite Nat.add_0_r in E0.
    rewrite E0, BN, Es by exact Li. rewrite w64_add, N.add_comm, w64_add, N.add_comm. f_equal.
    symmetry. apply tally_split; intros v; apply (below_next i v Li). }
  cbn [cumul_ p p_up p_lo p_per]. destruct b as [|b]; cbn [nth].
  - rewrite Nat.add_0_r. cbv zeta. rewrite EX. f_equal. f_equal.
    destruct (N.ltb_spec up (lo + (N.of_nat i + 1) * per - 1)); lia.
  - destruct (N.ltb_spec up (lo + (N.of_nat i + 1) * per - 1)) as [X|X].
    + exfalso. pose proof (Z (S i) ltac:(lia)) as Y. rewrite Nat2N.inj_succ, N.mul_succ_l in Y. lia.
    + pose proof (Z (S i) ltac:(lia)) as Y. rewrite Nat2N.inj_succ, N.mul_succ_l in Y. rewrite w64_id by lia.
      replace (lo + (N.of_nat i + 1) * per - 1 + per) with (lo + (N.of_nat (S i) + 1) * per - 1) by lia.
      rewrite (IH (S i)); [|lia|lia| |].
      * cbv zeta. replace (S i + b)%nat with (i + S b)%nat by lia. reflexivity.
      * intros j J. pose proof (Ex (S j) ltac:(lia)) as E1. cbn [nth] in E1. rewrite E1. f_equal. lia.
      * rewrite EX. f_equal. unfold tally. f_equal. f_equal. apply filter_ext. intros v.
        destruct (N.leb_spec v (N.min (lo + (N.of_nat i + 1) * per - 1) up));
          destruct (N.ltb_spec v (lo + N.of_nat (S i) * per)); lia.
Qed.

Lemma fold_w64 : forall l a, fold_left (fun a b => w64 (a + b)) l (w64 a) = w64 (a + fold_right N.add 0 l).
Proof.
  induction l as [|x l IH]; intros a; cbn; [now rewrite N.add_0_r|].
  rewrite w64_add, IH. f_equal. lia.
Qed.

Lemma sum_nth : forall f seen (l : list N), (forall i, (i < length l)%nat -> nth i l 0 = w64 (tally (f i) seen)) ->
  w64 (fold_right N.add 0 l) = w64 (fold_right (fun i a => tally (f i) seen + a) 0 (seq 0 (length l))).
Proof.
  intros f seen l. revert f. induction l as [|x l IH]; intros f A; cbn; [reflexivity|].
  pose proof (A 0%nat ltac:(cbn; lia)) as E0. cbn in E0. rewrite E0, w64_add.
  rewrite N.add_comm, <- w64_add, (IH (fun i => f (S i))), w64_add, N.add_comm.
  - f_equal. f_equal. rewrite <- seq_shift. clear. induction (seq 0 (length l)); cbn; congruence.
  - intros i L. apply (A (S i)). cbn. lia.
Qed.

Lemma bins_tally : forall seen n, (n <= N.to_nat q)%nat ->
  fold_right (fun i a => tally (in_bin lo up per i) seen + a) 0 (seq 0 n) =
  tally (fun v => (lo <=? v) && (v <? lo + N.of_nat n * per) && (v <=? up)) seen.
Proof.
  intros seen n. induction n as [|n IH]; intros L.
  - cbn. unfold tally. rewrite (filter_ext _ (fun _ => false)).
    + clear. induction seen; auto.
    + intros v. destruct (N.leb_spec lo v), (N.ltb_spec v (lo + 0)); cbn; try reflexivity; lia.
  - rewrite seq_S, fold_right_app. cbn [fold_right plus].
    assert (G : forall l b, fold_right (fun i a => tally (in_bin lo up per i) seen + a) b l =
      fold_right (fun i a => tally (in_bin lo up per i) seen + a) 0 l + b).
    { clear. induction l as [|x l IH]; intros b; cbn; [lia|]. rewrite IH. lia. }
    rewrite G, IH by lia. symmetry. rewrite N.add_0_r. apply tally_split; intros v; unfold in_bin;
      destruct (N.leb_spec lo v), (N.ltb_spec v (lo + N.of_nat (S n) * per)),
        (N.ltb_spec v (lo + N.of_nat n * per)), (N.leb_spec (lo + N.of_nat n * per) v),
        (N.ltb_spec v (lo + (N.of_nat n + 1) * per)), (N.leb_spec v up); cbn; try reflexivity; lia.
Qed.

Lemma last_above : up < lo + q * per.
Proof.
  pose proof per_pos as P0. pose proof (N.mul_succ_div_gt (up - lo) per P0). rewrite EQ. lia.
Qed.

Lemma w64_three : forall a b x c, w64 x = w64 c -> w64 (w64 a + x + w64 b) = w64 (a + c + b).
Proof.
  intros a b x c E. rewrite <- N.add_assoc, w64_add, N.add_assoc, N.add_comm, w64_add.
  rewrite N.add_comm, (N.add_comm a), <- N.add_assoc, <- w64_add, E, w64_add. f_equal. lia.
Qed.

Lemma total_sum : forall m s seen, counted m s seen ->
  w64 (v_uf s + fold_right N.add 0 (v_bin s) + v_of s) = v_total s.
Proof.
  intros m s seen (T & _ & F & O & L & B & _). rewrite T.
  assert (E : w64 (fold_right N.add 0 (v_bin s)) = w64 (tally (fun v => (lo <=? v) && (v <=? up)) seen)).
  { rewrite (sum_nth (in_bin lo up per) seen), L, bins_tally by (rewrite ?L; auto).
    f_equal. unfold tally. f_equal. f_equal. apply filter_ext. intros v. rewrite N2Nat.id.
    pose proof last_above. destruct (N.leb_spec lo v), (N.ltb_spec v (lo + q * per)), (N.leb_spec v up);
      cbn; try reflexivity; lia. }
  rewrite F, O, (w64_three _ _ _ _ E).
  assert (Q : N.of_nat (length seen) = tally (fun v => v <? lo) seen +
     tally (fun v => (lo <=? v) && (v <=? up)) seen + tally (fun v => up <? v) seen).
  { clear - LU. induction seen as [|v seen IH]; [reflexivity|]. rewrite !tally_cons. cbn [length].
    destruct (N.ltb_spec v lo), (N.leb_spec lo v), (N.leb_spec v up), (N.ltb_spec up v); cbn [andb]; lia. }
  now rewrite Q.
Qed.

End Run.
