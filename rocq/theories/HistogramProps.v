(** C75: a histogram counts every value in the bin that its name says. *)
From Coq Require Import Arith NArith List Bool Lia Permutation Sorted.
From Verif Require Import MathUtilsModel MathUtilsProofs StatModel LayoutModel HistogramModel HistogramProofs.
Import ListNotations.
Open Scope N_scope.

(** How many values have a property, as a 64-bit counter shows it. *)
Definition number (f : N -> bool) (vs : list N) : N :=
  N.of_nat (length (filter f vs)) mod 2 ^ 64.

(** The constructor accepts exactly: the lower value is smaller, the number of
    values of a bin is a power of two, and there are less than 2^32 bins; or
    one of 2^64 bins. *)
Theorem C75_new : forall lo up per, up < 2 ^ 64 -> per < 2 ^ 32 ->
  (exists p, h_new lo up per = Some p) <->
  lo < up /\ (exists k, per = 2 ^ k) /\
  ((up - lo) / per + 1 < 2 ^ 32 \/ lo = 0 /\ up = 2 ^ 64 - 1 /\ per = 1).
Proof.
  intros lo up per UB PB. split.
  - intros (p & E). destruct (h_new_inv lo up per p UB PB E) as (k & EK & K & L & _ & Q).
    split; [exact L|]. split; [now exists k|].
    destruct (N.eq_dec lo 0) as [A|A]; [destruct (N.eq_dec up (2 ^ 64 - 1)) as [B|B];
      [destruct (N.eq_dec per 1) as [C|C]; [now right|]|]|].
    all: left; rewrite w64_id in Q; [exact Q|]; apply bins_small; auto;
      try (rewrite EK; apply N.pow_nonzero; lia); unfold whole; tauto.
  - intros (L & (k & EK) & Q). unfold h_new. destruct (N.ltb_spec lo up); [|lia].
    assert (P : is_power_of_2 per = true).
    { apply is_power_of_2_correct; [|now exists k].
      change (2 ^ 32) with 4294967296 in PB. change (2 ^ 64) with 18446744073709551616. lia. }
    rewrite P. cbn [negb]. cbv zeta.
    assert (W : w64 ((up - lo) / per + 1) < 2 ^ 32).
    { destruct Q as [Q|(-> & -> & ->)]; [|vm_compute; reflexivity].
      rewrite w64_id; [exact Q|]. change (2 ^ 32) with 4294967296 in Q. change (2 ^ 64) with 18446744073709551616. lia. }
    destruct (N.ltb_spec (w64 ((up - lo) / per + 1)) (2 ^ 32)); [|lia]. eexists. reflexivity.
Qed.

Example C75_new_ex :
  h_new 10 100 8 = Some (mkHp 10 100 8 12 3) /\ h_new 10 100 6 = None /\
  h_new 0 (2 ^ 40) 128 = None /\ h_new 5 5 1 = None.
Proof. repeat split; vm_compute; reflexivity. Qed.
Print Assumptions C75_new.

Lemma setup : forall lo up per p, up < 2 ^ 64 -> per < 2 ^ 32 -> h_new lo up per = Some p ->
  ~ whole lo up per ->
  exists k, lo < up /\ per = 2 ^ k /\ k < 32 /\ (up - lo) / per + 1 < 2 ^ 32 /\
    p = mkHp lo up per ((up - lo) / per + 1) k.
Proof.
  intros lo up per p UB PB E W. destruct (h_new_inv lo up per p UB PB E) as (k & EK & K & L & EP & Q).
  exists k. rewrite w64_id in EP, Q; auto.
  all: apply bins_small; auto; rewrite EK; apply N.pow_nonzero; lia.
Qed.

(** No value is refused. Each is counted in the total, in the sum and in one
    place: below, above, or the bin with its number; and these add up to the
    total. *)
Theorem C75_counts : forall lo up per p m vs, up < 2 ^ 64 -> per < 2 ^ 32 ->
  h_new lo up per = Some p -> ~ (lo = 0 /\ up = 2 ^ 64 - 1 /\ per = 1) ->
  exists s, h_values p vs (h_begin p m) = Some s /\
    v_total s = number (fun _ => true) vs /\
    v_sum s = fold_right N.add 0 vs mod 2 ^ 64 /\
    v_uf s = number (fun v => v <? lo) vs /\
    v_of s = number (fun v => up <? v) vs /\
    N.of_nat (length (v_bin s)) = (up - lo) / per + 1 /\
    (forall i, (i < length (v_bin s))%nat ->
       nth i (v_bin s) 0 = number (fun v => (lo <=? v) && (v <=? up) && ((v - lo) / per =? N.of_nat i)) vs) /\
    (v_uf s + fold_right N.add 0 (v_bin s) + v_of s) mod 2 ^ 64 = v_total s.
Proof.
  intros lo up per p m vs UB PB E W.
  destruct (setup lo up per p UB PB E W) as (k & LU & EK & K & Q & ->).
  set (q := (up - lo) / per + 1) in *.
  pose proof (counted_begin lo up per k LU EK K q eq_refl Q m) as C0.
  destruct (counted_run lo up per k LU EK K q eq_refl Q vs m _ _ C0) as (s & R & C).
  cbn [app] in C. exists s. split; [exact R|].
  pose proof (total_sum lo up per k LU EK K q eq_refl Q m s vs C) as TS.
  destruct C as (T & U & F & O & L & B & _).
  assert (FT : filter (fun _ : N => true) vs = vs) by (clear; induction vs; cbn; congruence).
  split; [unfold number; rewrite FT; exact T|]. split; [exact U|]. split; [exact F|]. split; [exact O|].
  split; [rewrite L; apply N2Nat.id|]. split; [|exact TS].
  intros i Li. rewrite L in Li. rewrite B by exact Li. unfold number, tally, w64. f_equal. f_equal. f_equal.
  apply filter_ext. intros v.
  destruct (N.leb_spec lo v) as [A1|A1]; [destruct (N.leb_spec v up) as [A2|A2]|]; cbn [andb].
  - rewrite (in_bin_index lo up per k LU EK K q eq_refl Q) by lia.
    destruct (Nat.eqb_spec i (N.to_nat ((v - lo) / per))), (N.eqb_spec ((v - lo) / per) (N.of_nat i)); auto; lia.
  - apply (in_bin_out lo up per k LU EK K q eq_refl Q). lia.
  - apply (in_bin_out lo up per k LU EK K q eq_refl Q). lia.
Qed.

Example C75_counts_ex :
  exists p s, h_new 10 30 8 = Some p /\
    h_values p [5; 10; 17; 18; 30; 31; 26] (h_begin p 0) = Some s /\
    v_total s = 7 /\ v_uf s = 1 /\ v_of s = 1 /\ v_bin s = [2; 1; 2].
Proof.
  exists (mkHp 10 30 8 3 3), (mkHs 7 137 1 1 [2; 1; 2] [] []).
  split; [vm_compute; reflexivity|]. split; [vm_compute; reflexivity|]. auto.
Qed.
Print Assumptions C75_counts.

(** With all 64-bit numbers as range and one value for each bin, the
    constructor succeeds but there is no bin: every value makes it throw. *)
Theorem C75_whole_range_refuted : forall v, v < 2 ^ 64 ->
  exists p, h_new 0 (2 ^ 64 - 1) 1 = Some p /\ p_bins p = 0 /\
    h_value p v (h_begin p 0) = None.
Proof.
  intros v L. eexists. split; [vm_compute; reflexivity|]. split; [reflexivity|].
  unfold h_value. cbn [p_lo p_up p_shift h_begin p_bins v_bin repeat N.to_nat].
  destruct (N.ltb_spec v 0); [lia|].
  destruct (N.ltb_spec 18446744073709551615 v) as [X|X].
  - change (2 ^ 64) with 18446744073709551616 in L. lia.
  - destruct (N.to_nat _); reflexivity.
Qed.
Print Assumptions C75_whole_range_refuted.

(** The numbers in the name of a bin are the smallest and the largest value
    that it counts, if the upper value is not too near to 2^64. *)
Theorem C75_labels : forall lo up per p m vs i, up + per <= 2 ^ 64 -> per < 2 ^ 32 ->
  h_new lo up per = Some p -> ~ (lo = 0 /\ up = 2 ^ 64 - 1 /\ per = 1) ->
  (i < length (h_labels p))%nat ->
  exists s, h_values p vs (h_begin p m) = Some s /\ length (h_labels p) = length (v_bin s) /\
    nth i (v_bin s) 0 =
    number (fun v => (fst (nth i (h_labels p) (0, 0)) <=? v) && (v <=? snd (nth i (h_labels p) (0, 0)))) vs.
Proof.
  intros lo up per p m vs i UB PB E W Li.
  assert (P0 : per <> 0).
  { intros ->. unfold h_new in E. cbn [is_power_of_2 N.eqb negb andb] in E.
    destruct (negb (lo <? up)); discriminate. }
  assert (UB' : up < 2 ^ 64) by lia.
  destruct (setup lo up per p UB' PB E W) as (k & LU & EK & K & Q & ->).
  set (q := (up - lo) / per + 1) in *.
  pose proof (counted_begin lo up per k LU EK K q eq_refl Q m) as C0.
  destruct (counted_run lo up per k LU EK K q eq_refl Q vs m _ _ C0) as (s & R & C).
  cbn [app] in C. exists s. split; [exact R|].
  destruct C as (_ & _ & _ & _ & L & B & _). unfold h_labels in Li |- *.
  cbn [p_bins p_lo p_per] in *. rewrite labels_len in *. split; [congruence|].
  rewrite w64_id by lia.
  pose proof (labels_nth lo up per k LU EK K q eq_refl Q (N.to_nat q) 0 lo i UB Li Li ltac:(lia)) as LN.
  rewrite LN. cbn [fst snd]. rewrite B by exact Li. unfold number, tally, w64. f_equal. f_equal. f_equal.
  apply filter_ext. intros v. unfold in_bin.
  destruct (N.leb_spec (lo + N.of_nat i * per) v), (N.ltb_spec v (lo + (N.of_nat i + 1) * per)),
    (N.leb_spec v up), (N.leb_spec v (N.min (lo + (N.of_nat i + 1) * per - 1) up)); cbn; try reflexivity; lia.
Qed.

Example C75_labels_ex :
  h_labels (mkHp 10 30 8 3 3) = [(10, 17); (18, 25); (26, 30)] /\ 30 + 8 <= 2 ^ 64.
Proof. split; [vm_compute; reflexivity|]. vm_compute. discriminate. Qed.
Print Assumptions C75_labels.

(** Otherwise a bin may be named after a largest value of 1, less than its
    smallest. *)
Theorem C75_labels_refuted :
  exists p, h_new (2 ^ 64 - 6) (2 ^ 64 - 1) 4 = Some p /\
    h_labels p = [(2 ^ 64 - 6, 2 ^ 64 - 3); (2 ^ 64 - 2, 1)].
Proof. exists (mkHp (2 ^ 64 - 6) (2 ^ 64 - 1) 4 2 2). split; vm_compute; reflexivity. Qed.
Print Assumptions C75_labels_refuted.

(** The counters for maximum values hold the largest of the values added, in
    order, zeros standing for those not added yet: every other value is at most
    as large as each of them. *)
Theorem C75_largest : forall lo up per p m vs, up < 2 ^ 64 -> per < 2 ^ 32 ->
  h_new lo up per = Some p -> ~ (lo = 0 /\ up = 2 ^ 64 - 1 /\ per = 1) ->
  exists s others, h_values p vs (h_begin p m) = Some s /\ length (v_ctr s) = m /\
    Sorted N.le (v_ctr s) /\
    Permutation (others ++ v_ctr s) (repeat 0 m ++ vs) /\
    (forall x y, In x others -> In y (v_ctr s) -> x <= y).
Proof.
  intros lo up per p m vs UB PB E W.
  destruct (setup lo up per p UB PB E W) as (k & LU & EK & K & Q & ->).
  set (q := (up - lo) / per + 1) in *.
  pose proof (counted_begin lo up per k LU EK K q eq_refl Q m) as C0.
  destruct (counted_run lo up per k LU EK K q eq_refl Q vs m _ _ C0) as (s & R & C).
  cbn [app] in C. destruct C as (_ & _ & _ & _ & _ & _ & EC & L & S & rest & P & F).
  exists s, rest. rewrite EC. split; [exact R|]. split; [exact L|].
  split; [now apply StronglySorted_Sorted|]. split; [exact P|].
  intros x y X Y. rewrite Forall_forall in F. specialize (F x X). rewrite Forall_forall in F. auto.
Qed.

Example C75_largest_ex :
  exists p s, h_new 10 30 8 = Some p /\
    h_values p [5; 10; 17; 18; 30; 31; 26; 31] (h_begin p 3) = Some s /\ v_ctr s = [30; 31; 31].
Proof.
  exists (mkHp 10 30 8 3 3), (mkHs 8 168 1 2 [2; 1; 2] [30; 31; 31] [30; 31; 31]).
  split; [vm_compute; reflexivity|]. split; [vm_compute; reflexivity|]. reflexivity.
Qed.
Print Assumptions C75_largest.

(** The text of cumulative values: each line tells how many values were at most
    its second number, the last how many there were. *)
Theorem C75_cumulative : forall lo up per p m vs, up + per <= 2 ^ 64 -> per < 2 ^ 32 ->
  h_new lo up per = Some p -> ~ (lo = 0 /\ up = 2 ^ 64 - 1 /\ per = 1) ->
  exists s, h_values p vs (h_begin p m) = Some s /\
    let '(uf, lines, all) := h_cumul p s in
    uf = number (fun v => v <? lo) vs /\ all = number (fun _ => true) vs /\
    forall i, (i < length (h_labels p))%nat ->
      nth i lines (0, 0, 0) =
        (lo, snd (nth i (h_labels p) (0, 0)), number (fun v => v <=? snd (nth i (h_labels p) (0, 0))) vs).
Proof.
  intros lo up per p m vs UB PB E W.
  assert (P0 : per <> 0).
  { intros ->. unfold h_new in E. cbn [is_power_of_2 N.eqb negb andb] in E.
    destruct (negb (lo <? up)); discriminate. }
  assert (UB' : up < 2 ^ 64) by lia.
  destruct (setup lo up per p UB' PB E W) as (k & LU & EK & K & Q & ->).
  set (q := (up - lo) / per + 1) in *.
  pose proof (counted_begin lo up per k LU EK K q eq_refl Q m) as C0.
  destruct (counted_run lo up per k LU EK K q eq_refl Q vs m _ _ C0) as (s & R & C).
  cbn [app] in C. exists s. split; [exact R|].
  pose proof (total_sum lo up per k LU EK K q eq_refl Q m s vs C) as TS. pose proof C as CC.
  destruct C as (T & _ & F & O & L & B & _). unfold h_cumul. split; [exact F|]. split.
  - rewrite F, (fold_w64 lo up per k LU EK K q eq_refl Q). rewrite F in TS.
    assert (FT : filter (fun _ : N => true) vs = vs) by (clear; induction vs; cbn; congruence).
    unfold number. rewrite FT. change (N.of_nat (length vs) mod 2 ^ 64) with (w64 (N.of_nat (length vs))).
    rewrite <- T, <- TS, w64_add, <- !N.add_assoc, w64_add. reflexivity.
  - intros i Li. unfold h_labels in *. cbn [p_bins p_lo p_per] in *. rewrite labels_len in Li.
    rewrite w64_id by lia.
    pose proof (labels_nth lo up per k LU EK K q eq_refl Q (N.to_nat q) 0 lo i UB Li Li ltac:(lia)) as LN.
    rewrite LN. cbn [snd].
    replace (lo + per - 1) with (lo + (N.of_nat 0 + 1) * per - 1) by lia.
    rewrite (cumul_nth lo up per k LU EK K q eq_refl Q m s vs CC UB (v_bin s) 0 i).
    + reflexivity.
    + lia.
    + lia.
    + intros j J. reflexivity.
    + rewrite F. f_equal. unfold tally. f_equal. f_equal. apply filter_ext. intros v. f_equal. lia.
Qed.

Example C75_cumulative_ex :
  exists p s, h_new 10 30 8 = Some p /\
    h_values p [5; 10; 17; 18; 30; 31; 26] (h_begin p 0) = Some s /\
    h_cumul p s = (1, [(10, 17, 3); (10, 25, 4); (10, 30, 6)], 7).
Proof.
  exists (mkHp 10 30 8 3 3), (mkHs 7 137 1 1 [2; 1; 2] [] []).
  split; [vm_compute; reflexivity|]. split; vm_compute; reflexivity.
Qed.
Print Assumptions C75_cumulative.

(** ** Histograms over an enumeration *)

(** The same without the sum and the largest values. *)
Definition forget (s : hs) : hs := mkHs (v_total s) 0 (v_uf s) (v_of s) (v_bin s) [] [].

Lemma e_step : forall p v s s', v_ctr s = [] -> v_max s = [] -> h_value p v s = Some s' ->
  e_value p v (forget s) = Some (forget s') /\ v_ctr s' = [] /\ v_max s' = [].
Proof.
  intros p v s s' C M E. unfold h_value in E. cbv zeta in E. unfold e_value. cbv zeta.
  change (v_bin (forget s)) with (v_bin s).
  destruct (v <? p_lo p).
  - cbn in E. rewrite C in E. injection E as <-. cbn. auto.
  - destruct (p_up p <? v).
    + cbn in E. rewrite C in E. injection E as <-. cbn. auto.
    + destruct (bump (v_bin s) _) as [b|]; [|discriminate].
      cbn in E. rewrite C in E. injection E as <-. cbn. auto.
Qed.

Lemma e_run : forall p vs s s', v_ctr s = [] -> v_max s = [] -> h_values p vs s = Some s' ->
  e_values p vs (forget s) = Some (forget s').
Proof.
  intros p vs. induction vs as [|v vs IH]; intros s s' C M E; cbn in *; [now injection E as <-|].
  destruct (h_value p v s) as [s1|] eqn:E1; [|discriminate].
  destruct (e_step p v s s1 C M E1) as (X & C1 & M1). rewrite X. now apply IH.
Qed.

(** A histogram over an enumeration of at least two constants counts each
    constant in its own bin, and constants outside below or above. *)
Theorem C75_enum : forall first last vs, first + 1 < last -> last <= first + (2 ^ 32 - 1) -> last < 2 ^ 64 ->
  exists p s, e_new first last = Some p /\ e_values p vs (e_begin p) = Some s /\
    v_total s = number (fun _ => true) vs /\
    v_uf s = number (fun v => v <? first) vs /\
    v_of s = number (fun v => last <=? v) vs /\
    N.of_nat (length (v_bin s)) = last - first /\
    (forall c, first <= c < last -> nth (N.to_nat (c - first)) (v_bin s) 0 = number (N.eqb c) vs).
Proof.
  intros first last vs L1 L2 L3.
  assert (EN : e_new first last = h_new first (last - 1) 1).
  { unfold e_new. f_equal. unfold w64. replace (last + (2 ^ 64 - 1)) with (last - 1 + 1 * 2 ^ 64) by lia.
    rewrite N.mod_add by (intros Z; discriminate Z). apply N.mod_small. lia. }
  assert (D1 : (last - 1 - first) / 1 + 1 = last - first) by (rewrite N.div_1_r; lia).
  assert (EX : exists p, h_new first (last - 1) 1 = Some p).
  { apply C75_new; [lia|reflexivity|]. split; [lia|]. split; [now exists 0|]. left. rewrite D1.
    change (2 ^ 32) with 4294967296 in *. lia. }
  destruct EX as [p EP]. exists p.
  assert (W : ~ (first = 0 /\ last - 1 = 2 ^ 64 - 1 /\ 1 = 1)) by lia.
  destruct (C75_counts first (last - 1) 1 p 0 vs ltac:(lia) ltac:(reflexivity) EP W)
    as (s & R & T & _ & F & O & L & B & _).
  exists (forget s). split; [congruence|]. split; [apply (e_run p vs (h_begin p 0) s); auto|].
  cbn. rewrite D1 in L. split; [exact T|]. split; [exact F|]. split.
  - rewrite O. unfold number. f_equal. f_equal. f_equal. apply filter_ext. intros v.
    destruct (N.ltb_spec (last - 1) v), (N.leb_spec last v); auto; lia.
  - split; [exact L|]. intros c C. rewrite B by lia. unfold number. f_equal. f_equal. f_equal.
    apply filter_ext. intros v. rewrite N.div_1_r, N2Nat.id.
    destruct (N.leb_spec first v), (N.leb_spec v (last - 1)), (N.eqb_spec (v - first) (c - first)), (N.eqb_spec c v);
      cbn; auto; lia.
Qed.

Example C75_enum_ex :
  exists p s, e_new 2 5 = Some p /\ e_values p [2; 4; 4; 1; 5] (e_begin p) = Some s /\
    v_total s = 5 /\ v_uf s = 1 /\ v_of s = 1 /\ v_bin s = [1; 0; 2].
Proof.
  exists (mkHp 2 4 1 3 0), (mkHs 5 0 1 1 [1; 0; 2] [] []).
  split; [vm_compute; reflexivity|]. split; [vm_compute; reflexivity|]. auto.
Qed.
Print Assumptions C75_enum.

(** An enumeration with one constant is refused. *)
Theorem C75_enum_one_refuted : forall first, first + 1 < 2 ^ 64 -> e_new first (first + 1) = None.
Proof.
  intros first L. unfold e_new, h_new, w64. replace (first + 1 + (2 ^ 64 - 1)) with (first + 1 * 2 ^ 64) by lia.
  rewrite N.mod_add, N.mod_small by (try (intros Z; discriminate Z); lia).
  destruct (N.ltb_spec first first); [lia|reflexivity].
Qed.
Print Assumptions C75_enum_one_refuted.
