(** C49 CycleCounter, C50 CycleHistogram, C51 BasicHistogram. *)
From Coq Require Import List NArith ZArith Arith Bool Lia Sorted FinFun.
From Verif Require Import MathUtilsModel MathUtilsProofs StatModel.
Import ListNotations.
Open Scope N_scope.

(* ================= C49 ================= *)
(** Counting intervals: closed ones as (start, end, multiplier), and the open one. *)
Definition ivals : Type := list (N * N * N) * option (N * N).
(** The intervals after a call at time [t]: a start opens one, a stop closes the open one, which must not end
    before it starts, and a change of multiplier does both at once. *)
Definition iv_step (s : ivals) (t : N) (o : ccop) : option ivals :=
  match o, s with
  | CStart d, (l, None) => Some (l, Some (t + d, 1))
  | CStartM m d, (l, None) => Some (l, Some (t + d, m))
  | CUpdate m, (l, None) => Some (l, Some (t, m))
  | CUpdate m, (l, Some (b, m0)) => if b <=? t then Some (l ++ [(b, t, m0)], Some (t, m)) else None
  | CStopC d, (l, Some (b, m0)) => if b <=? t + d then Some (l ++ [(b, t + d, m0)], None) else None
  | _, _ => None
  end.
Fixpoint iv_run (s : ivals) (l : list (N * ccop)) : option ivals :=
  match l with [] => Some s | (t, o) :: r => match iv_step s t o with Some s' => iv_run s' r | None => None end end.
(** Length times multiplier, summed, at time [T]. *)
Definition iv_sum (l : list (N * N * N)) : N := fold_right (fun x a => (snd (fst x) - fst (fst x)) * snd x + a) 0 l.
Definition iv_value (s : ivals) (T : N) : N :=
  iv_sum (fst s) + match snd s with Some (b, m) => (T - b) * m | None => 0 end.

Lemma iv_sum_snoc : forall l x, iv_sum (l ++ [x]) = iv_sum l + (snd (fst x) - fst (fst x)) * snd x.
Proof. induction l as [|a l IH]; intros x; cbn [iv_sum fold_right app]; [lia|]. fold (iv_sum (l ++ [x])). rewrite IH. fold (iv_sum l). lia. Qed.

Definition cc_rel (c : ccount) (s : ivals) : Prop :=
  cc_count c = iv_sum (fst s) mod 2 ^ 64 /\
  match snd s with Some (b, m) => cc_on c = true /\ cc_start c = b /\ cc_mult c = m | None => cc_on c = false end.

Lemma cc_stop_rel : forall c l b m t d, cc_rel c (l, Some (b, m)) ->
  match cc_stop c t d with
  | Some c' => b <= t + d /\ cc_rel c' (l ++ [(b, t + d, m)], None)
  | None => t + d < b
  end.
Proof.
  intros c l b m t d [H1 [H2 [H3 H4]]]. cbn [fst snd] in *. unfold cc_stop. rewrite H2, H3, H4. cbn [negb].
  destruct (N.ltb_spec (t + d) b); [auto|]. split; [auto|]. split; cbn [fst snd cc_count cc_on]; [|reflexivity].
  rewrite iv_sum_snoc. cbn [fst snd]. rewrite H1. rewrite N.add_mod_idemp_l by discriminate. reflexivity.
Qed.
Lemma cc_step_rel : forall c s t o, cc_rel c s ->
  match cc_step c t o, iv_step s t o with
  | Some c', Some s' => cc_rel c' s'
  | None, None => True
  | _, _ => False
  end.
Proof.
  intros c [l op] t o H. destruct o as [d|m d|m|d]; cbn [cc_step].
  - destruct H as [H1 H2]. cbn [fst snd] in *. unfold cc_begin. destruct op as [[b m0]|]; cbn [iv_step].
    + destruct H2 as [-> _]. auto.
    + rewrite H2. split; cbn; auto.
  - destruct H as [H1 H2]. cbn [fst snd] in *. unfold cc_startm. destruct op as [[b m0]|]; cbn [iv_step].
    + destruct H2 as [-> _]. auto.
    + rewrite H2. split; cbn; auto.
  - unfold cc_update. destruct op as [[b m0]|]; cbn [iv_step].
    + pose proof (cc_stop_rel c l b m0 t 0 H) as K. pose proof H as [H1 [H2 _]]. cbn [snd] in *. rewrite H2.
      rewrite N.add_0_r in K. destruct (cc_stop c t 0) as [c'|].
      * destruct K as [K1 K2]. destruct (N.leb_spec b t); [|lia]. destruct K2 as [K2 K3]. cbn [fst snd] in *.
        unfold cc_startm. rewrite K3. split; cbn [fst snd cc_count cc_on cc_start cc_mult]; auto. rewrite N.add_0_r. auto.
      * destruct (N.leb_spec b t); [lia|auto].
    + destruct H as [H1 H2]. cbn [fst snd] in *. rewrite H2. unfold cc_startm. rewrite H2. split; cbn; auto.
      rewrite N.add_0_r. auto.
  - destruct op as [[b m0]|]; cbn [iv_step].
    + pose proof (cc_stop_rel c l b m0 t d H) as K. destruct (cc_stop c t d) as [c'|].
      * destruct K as [K1 K2]. destruct (N.leb_spec b (t + d)); [auto|lia].
      * destruct (N.leb_spec b (t + d)); [lia|auto].
    + destruct H as [H1 H2]. cbn [fst snd] in *. unfold cc_stop. rewrite H2. cbn. auto.
Qed.
Lemma cc_run_rel : forall l c s, cc_rel c s ->
  match cc_run c l, iv_run s l with
  | Some c', Some s' => cc_rel c' s'
  | None, None => True
  | _, _ => False
  end.
Proof.
  induction l as [|[t o] l IH]; intros c s H; cbn [cc_run iv_run]; [auto|].
  pose proof (cc_step_rel c s t o H) as K. destruct (cc_step c t o), (iv_step s t o); try tauto. apply IH. auto.
Qed.
Lemma cc_get_rel : forall c s T, cc_rel c s -> cc_get c T = iv_value s T mod 2 ^ 64.
Proof.
  intros c [l op] T [H1 H2]. cbn [fst snd] in *. unfold cc_get, iv_value. cbn [fst snd]. destruct op as [[b m]|].
  - destruct H2 as [-> [-> ->]]. cbn [andb]. destruct (N.ltb_spec b T).
    + rewrite H1. apply N.add_mod_idemp_l. discriminate.
    + rewrite H1. replace (T - b) with 0 by lia. rewrite N.mul_0_l, N.add_0_r. reflexivity.
  - rewrite H2. cbn [andb]. rewrite H1, N.add_0_r. reflexivity.
Qed.
Lemma cc0_rel : cc_rel cc0 ([], None).
Proof. split; reflexivity. Qed.

(** The value is the sum over the counting intervals of length times multiplier (modulo the 64 bits of the
    counter), and a call is refused exactly if it does not form an interval. *)
Theorem C49_intervals : forall l,
  match cc_run cc0 l, iv_run ([], None) l with
  | Some c, Some s => forall T, cc_get c T = iv_value s T mod 2 ^ 64
  | None, None => True
  | _, _ => False
  end.
Proof.
  intros l. pose proof (cc_run_rel l cc0 ([], None) cc0_rel) as K.
  destruct (cc_run cc0 l), (iv_run ([], None) l); try tauto. intros T. apply cc_get_rel. auto.
Qed.
Definition ops49 : list (N * ccop) := [(5, CStart 2); (9, CStopC 3); (20, CStartM 4 0); (25, CUpdate 10); (30, CStopC 0); (40, CStart 1)].
Example C49_intervals_ex : iv_run ([], None) ops49 = Some ([(7, 12, 1); (20, 25, 4); (25, 30, 10)], Some (41, 1))
  /\ option_map (fun c => cc_get c 50) (cc_run cc0 ops49) = Some 84.
Proof. vm_compute. auto. Qed.
Print Assumptions C49_intervals.

Lemma iv_step_mono : forall s t o s', iv_step s t o = Some s' -> iv_value s t <= iv_value s' t.
Proof.
  intros [l op] t o s' H. unfold iv_value. destruct o as [d|m d|m|d]; destruct op as [[b m0]|]; cbn [iv_step] in H; try discriminate.
  - injection H as <-. cbn [fst snd]. lia.
  - injection H as <-. cbn [fst snd]. lia.
  - destruct (N.leb_spec b t); [|discriminate]. injection H as <-. cbn [fst snd]. rewrite iv_sum_snoc. cbn [fst snd]. lia.
  - injection H as <-. cbn [fst snd]. lia.
  - destruct (N.leb_spec b (t + d)); [|discriminate]. injection H as <-. cbn [fst snd]. rewrite iv_sum_snoc. cbn [fst snd].
    assert ((t - b) * m0 <= (t + d - b) * m0) by (apply N.mul_le_mono_r; lia). lia.
Qed.
Lemma iv_time_mono : forall s T T', T <= T' -> iv_value s T <= iv_value s T'.
Proof.
  intros [l [[b m]|]] T T' H; unfold iv_value; cbn [fst snd]; [|lia].
  assert ((T - b) * m <= (T' - b) * m) by (apply N.mul_le_mono_r; lia). lia.
Qed.
Lemma iv_run_app : forall l1 l2 s, iv_run s (l1 ++ l2) = match iv_run s l1 with Some s' => iv_run s' l2 | None => None end.
Proof. induction l1 as [|[t o] l1 IH]; intros; cbn [iv_run app]; [auto|]. destruct (iv_step s t o); auto. Qed.
Lemma cc_run_app : forall l1 l2 s, cc_run s (l1 ++ l2) = match cc_run s l1 with Some s' => cc_run s' l2 | None => None end.
Proof. induction l1 as [|[t o] l1 IH]; intros; cbn [cc_run app]; [auto|]. destruct (cc_step s t o); auto. Qed.

(** Calls from time [T1] to [T2], at non-decreasing times. *)
Fixpoint in_time (T1 : N) (l : list (N * ccop)) (T2 : N) : Prop :=
  match l with [] => T1 <= T2 | (t, _) :: r => T1 <= t /\ in_time t r T2 end.

(** While time advances the value never decreases, as long as the sum fits the counter. *)
Theorem C49_monotone : forall l1 l2 T1 T2 c1 c2 s,
  cc_run cc0 l1 = Some c1 -> cc_run cc0 (l1 ++ l2) = Some c2 -> in_time T1 l2 T2 ->
  iv_run ([], None) (l1 ++ l2) = Some s -> iv_value s T2 < 2 ^ 64 ->
  cc_get c1 T1 <= cc_get c2 T2.
Proof.
  intros l1 l2 T1 T2 c1 c2 s H1 H2 HT HS HB.
  pose proof (cc_run_rel l1 cc0 ([], None) cc0_rel) as K1. rewrite H1 in K1.
  pose proof (cc_run_rel (l1 ++ l2) cc0 ([], None) cc0_rel) as K2. rewrite H2, HS in K2.
  rewrite iv_run_app in HS. destruct (iv_run ([], None) l1) as [s1|]; [|tauto].
  rewrite (cc_get_rel c2 s T2 K2), (N.mod_small _ _ HB), (cc_get_rel c1 s1 T1 K1).
  assert (M : iv_value s1 T1 <= iv_value s T2).
  { clear - HT HS. revert s1 T1 HT HS. induction l2 as [|[t o] l2 IH]; intros s1 T1 HT HS; cbn [in_time iv_run] in *.
    - injection HS as <-. apply iv_time_mono. auto.
    - destruct HT as [HT1 HT2]. destruct (iv_step s1 t o) as [s2|] eqn:E; [|discriminate].
      apply N.le_trans with (iv_value s1 t); [apply iv_time_mono; auto|].
      apply N.le_trans with (iv_value s2 t); [eapply iv_step_mono; eauto|]. eapply IH; eauto. }
  rewrite N.mod_small by lia. exact M.
Qed.
Example C49_monotone_ex : in_time 22 [(25, CUpdate 10); (30, CStopC 0); (40, CStart 1)] 50 /\
  option_map (fun c => cc_get c 22) (cc_run cc0 (firstn 3 ops49)) = Some 13.
Proof. split; [cbn; lia|]. vm_compute. auto. Qed.
Print Assumptions C49_monotone.

(* ================= C50 ================= *)
(** Number of cycles c in [a, e) with f c. *)
Definition cycles (a e : N) : list N := map (fun i => a + N.of_nat i) (seq 0 (N.to_nat (e - a))).
Definition cnt (f : N -> bool) (a e : N) : N := N.of_nat (length (filter f (cycles a e))).

Lemma seq_off : forall n k, seq k n = map (fun i => (k + i)%nat) (seq 0 n).
Proof.
  induction n; intros k; [reflexivity|]. cbn [seq map]. rewrite Nat.add_0_r. f_equal.
  rewrite (IHn (S k)), (IHn 1%nat), map_map. apply map_ext. intros. lia.
Qed.
Lemma cycles_app : forall a m e, a <= m -> m <= e -> cycles a e = cycles a m ++ cycles m e.
Proof.
  intros a m e H1 H2. unfold cycles.
  replace (N.to_nat (e - a)) with (N.to_nat (m - a) + N.to_nat (e - m))%nat by lia.
  rewrite seq_app, map_app. f_equal. cbn [Nat.add].
  rewrite (seq_off _ (N.to_nat (m - a))), map_map. apply map_ext. intros i. lia.
Qed.
Lemma cycles_in : forall a e c, In c (cycles a e) <-> a <= c < e.
Proof.
  intros a e c. unfold cycles. rewrite in_map_iff. split.
  - intros [i [<- H]]. apply in_seq in H. lia.
  - intros H. exists (N.to_nat (c - a)). split; [lia|]. apply in_seq. lia.
Qed.
Lemma cnt_split : forall f a m e, a <= m -> m <= e -> cnt f a e = cnt f a m + cnt f m e.
Proof. intros. unfold cnt. rewrite (cycles_app a m e), filter_app, app_length by auto. lia. Qed.
Lemma filter_all : forall {A} (f : A -> bool) l, (forall x, In x l -> f x = true) -> filter f l = l.
Proof. induction l; intros; cbn; auto. rewrite H by (left; auto). f_equal. apply IHl. intros. apply H. right. auto. Qed.
Lemma filter_none : forall {A} (f : A -> bool) l, (forall x, In x l -> f x = false) -> filter f l = [].
Proof. induction l; intros; cbn; auto. rewrite H by (left; auto). apply IHl. intros. apply H. right. auto. Qed.
Lemma cnt_all : forall f a e, (forall c, a <= c < e -> f c = true) -> cnt f a e = e - a.
Proof.
  intros. unfold cnt. rewrite filter_all; [|intros x Hx; apply H; apply cycles_in; auto].
  unfold cycles. rewrite map_length, seq_length. lia.
Qed.
Lemma cnt_none : forall f a e, (forall c, a <= c < e -> f c = false) -> cnt f a e = 0.
Proof. intros. unfold cnt. rewrite filter_none; auto. intros x Hx; apply H; apply cycles_in; auto. Qed.
Lemma cnt_ext : forall f g a e, (forall c, a <= c < e -> f c = g c) -> cnt f a e = cnt g a e.
Proof. intros. unfold cnt. f_equal. f_equal. apply filter_ext_in. intros x Hx. apply H. apply cycles_in. auto. Qed.
Lemma filter_len : forall {A} (f : A -> bool) l, (length (filter f l) <= length l)%nat.
Proof. induction l as [|a l IH]; cbn; auto. destruct (f a); cbn; lia. Qed.
Lemma cnt_le : forall f a e, cnt f a e <= e - a.
Proof.
  intros. unfold cnt. pose proof (filter_len f (cycles a e)) as H. unfold cycles in H at 2. rewrite map_length, seq_length in H. lia.
Qed.

(** The tracked value cycle by cycle: setValue holds from its cycle on, addValue for its cycle only, after which
    the value is the idle value. *)
Definition track1 (idle : N) (v : N -> N) (t : N) (o : hop) : N -> N :=
  match o with
  | HSet x => fun c => if t <=? c then x else v c
  | HAdd x => fun c => if c =? t then x else if t <? c then idle else v c
  end.
Fixpoint track (idle : N) (v : N -> N) (l : list (N * hop)) : N -> N :=
  match l with [] => v | (t, o) :: r => track idle (track1 idle v t o) r end.
(** Ranges of the counters: underflow below [lo], overflow above [up], bin i from lo + i * per, per values. *)
Definition in_range (lo up per : N) (b : hbin) (v : N) : bool :=
  match b with
  | UF => v <? lo
  | OF => up <? v
  | Bin i => (lo + i * per <=? v) && (v <? lo + (i + 1) * per) && (v <=? up)
  end.

Lemma bin_eqb_eq : forall a b, bin_eqb a b = true <-> a = b.
Proof.
  intros [| |i] [| |j]; cbn [bin_eqb]; split; intros H; try reflexivity; try discriminate.
  - apply N.eqb_eq in H. congruence.
  - injection H as <-. apply N.eqb_refl.
Qed.
Lemma set_bin_eq : forall f b c, set_bin f b c b = c.
Proof. intros. unfold set_bin. now rewrite (proj2 (bin_eqb_eq b b) eq_refl). Qed.
Lemma set_bin_ne : forall f b c x, x <> b -> set_bin f b c x = f x.
Proof. intros. unfold set_bin. destruct (bin_eqb x b) eqn:E; auto. apply bin_eqb_eq in E. congruence. Qed.

(** A usable parameter set: the bin of a value always exists and is the one whose range contains it. *)
Lemma h_make_bin : forall lo up per idle p, h_make lo up per idle = Some p -> per < 2 ^ 64 ->
  h_lo p = lo /\ h_up p = up /\ h_idle p = idle /\ (exists k, per = 2 ^ k) /\ h_nbins p = (up - lo) / per + 1
  /\ forall v, exists b, h_bin p v = Some b /\ In b (h_bins p) /\ forall b', in_range lo up per b' v = bin_eqb b b'.
Proof.
  intros lo up per idle p H HP. unfold h_make in H.
  destruct (N.leb_spec up lo); [discriminate|]. destruct (is_power_of_2 per) eqn:E; [|discriminate]. cbn [negb] in H.
  injection H as <-. cbn [h_lo h_up h_idle h_nbins h_shift]. apply is_power_of_2_correct in E; [|auto]. destruct E as [k ->].
  split; [auto|]. split; [auto|]. split; [auto|]. split; [eauto|]. split; [auto|].
  pose proof (N.pow_nonzero 2 k ltac:(discriminate)) as NZ.
  rewrite floor_log2_64_correct by auto. rewrite N.log2_pow2 by lia.
  intros v. unfold h_bin, h_bins. cbn [h_lo h_up h_shift h_nbins].
  destruct (N.ltb_spec v lo) as [L1|L1].
  { exists UF. split; [auto|]. split; [left; auto|]. intros [| |i]; cbn [in_range bin_eqb].
    - apply N.ltb_lt. auto.
    - apply N.ltb_ge. lia.
    - destruct (N.leb_spec (lo + i * 2 ^ k) v); cbn [andb]; auto. exfalso. pose proof (N.le_0_l (i * 2 ^ k)) as P0. revert P0 H0. generalize (i * 2 ^ k). intros; lia. }
  destruct (N.ltb_spec up v) as [L2|L2].
  { exists OF. split; [auto|]. split; [right; left; auto|]. intros [| |i]; cbn [in_range bin_eqb].
    - apply N.ltb_ge. auto.
    - apply N.ltb_lt. lia.
    - destruct (N.leb_spec v up); [lia|]. apply andb_false_r. }
  rewrite N.shiftr_div_pow2.
  assert (LE : (v - lo) / 2 ^ k <= (up - lo) / 2 ^ k) by (apply N.div_le_mono; [exact NZ|lia]).
  destruct (N.ltb_spec ((v - lo) / 2 ^ k) ((up - lo) / 2 ^ k + 1)) as [L3|L3]; [|lia].
  eexists. split; [reflexivity|]. split.
  { right. right. apply in_map_iff. exists (N.to_nat ((v - lo) / 2 ^ k)). split; [now rewrite N2Nat.id|]. apply in_seq. clear - L3. revert L3. generalize ((v - lo) / 2 ^ k), ((up - lo) / 2 ^ k). intros; lia. }
  set (q := (v - lo) / 2 ^ k) in *.
  pose proof (N.div_mod (v - lo) (2 ^ k) NZ) as DM. pose proof (N.mod_lt (v - lo) (2 ^ k) NZ) as ML. fold q in DM.
  intros [| |i]; cbn [in_range bin_eqb].
  - apply N.ltb_ge. auto.
  - apply N.ltb_ge. auto.
  - destruct (N.leb_spec v up) as [_|]; [|lia]. rewrite andb_true_r.
    destruct (N.eqb_spec q i) as [<-|NE].
    + apply andb_true_iff. split; [apply N.leb_le|apply N.ltb_lt]; nia.
    + destruct (N.leb_spec (lo + i * 2 ^ k) v); cbn [andb]; auto. apply N.ltb_ge.
      destruct (N.lt_ge_cases i q); [nia|]. exfalso. assert (q + 1 <= i) by lia.
      assert ((q + 1) * 2 ^ k <= i * 2 ^ k) by (apply N.mul_le_mono_r; auto). lia.
Qed.

Section HIST.
Variables (p : hpar) (lo up per : N).
Hypothesis BIN : forall v, exists b, h_bin p v = Some b /\ In b (h_bins p) /\ forall b', in_range lo up per b' v = bin_eqb b b'.

(** The counters hold the cycles before [st], from which on the last value is being counted. *)
Record HI (t0 : N) (s : hist) (v : N -> N) (st : N) : Prop := {
  hi_tot : hs_total s = mkCC 0 t0 1 true;
  hi_ge : t0 <= st;
  hi_v : forall c, st <= c -> v c = hs_last s;
  hi_cur : exists b, h_bin p (hs_last s) = Some b /\ (forall b', in_range lo up per b' (hs_last s) = bin_eqb b b')
     /\ (forall x, cc_on (hs_bin s x) = bin_eqb b x) /\ cc_start (hs_bin s b) = st /\ cc_mult (hs_bin s b) = 1;
  hi_cnt : forall x, cc_count (hs_bin s x) = cnt (fun c => in_range lo up per x (v c)) t0 st mod 2 ^ 64
}.

(** Between a stop and the next start: nothing is counting. *)
Record HS (t0 : N) (s : hist) (v : N -> N) (st : N) : Prop := {
  hp_tot : hs_total s = mkCC 0 t0 1 true;
  hp_ge : t0 <= st;
  hp_off : forall x, cc_on (hs_bin s x) = false;
  hp_cnt : forall x, cc_count (hs_bin s x) = cnt (fun c => in_range lo up per x (v c)) t0 st mod 2 ^ 64
}.

Lemma HI_stop : forall t0 s v st t d, HI t0 s v st ->
  match h_stop p s t (hs_last s) d with
  | Some s' => st <= t + d /\ HS t0 s' v (t + d) /\ hs_last s' = hs_last s /\ hs_max s' = hs_max s
  | None => t + d < st
  end.
Proof.
  intros t0 s v st t d [T G V [b [B1 [B2 [B3 [B4 B5]]]]] C]. unfold h_stop. rewrite B1. unfold cc_stop.
  rewrite (B3 b), (proj2 (bin_eqb_eq b b) eq_refl), B4, B5. cbn [negb].
  destruct (N.ltb_spec (t + d) st); [auto|]. split; [auto|]. split; [|auto].
  constructor; cbn [hs_total hs_bin]; auto; [lia| |].
  - intros x. unfold set_bin. destruct (bin_eqb x b) eqn:E; [reflexivity|]. rewrite B3.
    destruct (bin_eqb b x) eqn:E2; auto. apply bin_eqb_eq in E2. subst. rewrite (proj2 (bin_eqb_eq x x) eq_refl) in E. discriminate.
  - intros x. rewrite (cnt_split _ t0 st (t + d)) by lia.
    destruct (bin_eqb x b) eqn:E.
    + apply bin_eqb_eq in E. subst x. rewrite set_bin_eq. cbn [cc_count]. rewrite C, N.mul_1_r.
      rewrite N.add_mod_idemp_l by discriminate. f_equal. f_equal. symmetry. apply cnt_all. intros c Hc. rewrite V by lia.
      rewrite B2. apply bin_eqb_eq. auto.
    + rewrite set_bin_ne by (intros ->; rewrite (proj2 (bin_eqb_eq b b) eq_refl) in E; discriminate).
      rewrite C. f_equal. rewrite (cnt_none _ st (t + d)); [lia|]. intros c Hc. rewrite V by lia. rewrite B2.
      destruct (bin_eqb b x) eqn:E2; auto. apply bin_eqb_eq in E2. subst. rewrite (proj2 (bin_eqb_eq x x) eq_refl) in E. discriminate.
Qed.
Lemma HS_start : forall t0 s v t x d, HS t0 s v (t + d) ->
  exists s', h_start p s t x d = Some s' /\ HI t0 s' (fun c => if t + d <=? c then x else v c) (t + d) /\ hs_last s' = x.
Proof.
  intros t0 s v t x d [T G F C]. unfold h_start. destruct (BIN x) as [b [B1 [_ B2]]]. rewrite B1. unfold cc_begin. rewrite F.
  eexists. split; [reflexivity|]. split; [|reflexivity]. constructor; cbn [hs_total hs_bin hs_last]; auto.
  - intros c Hc. destruct (N.leb_spec (t + d) c); [auto|lia].
  - exists b. split; [auto|]. split; [auto|]. rewrite set_bin_eq. split; [|auto]. intros y.
    unfold set_bin. destruct (bin_eqb y b) eqn:E.
    + apply bin_eqb_eq in E. subst. symmetry. apply bin_eqb_eq. auto.
    + rewrite F. symmetry. destruct (bin_eqb b y) eqn:E2; auto. apply bin_eqb_eq in E2. subst.
      rewrite (proj2 (bin_eqb_eq y y) eq_refl) in E. discriminate.
  - intros y. transitivity (cc_count (hs_bin s y)).
    + destruct (bin_eqb y b) eqn:E; [apply bin_eqb_eq in E; subst; rewrite set_bin_eq; auto|].
      rewrite set_bin_ne; auto. intros ->. rewrite (proj2 (bin_eqb_eq b b) eq_refl) in E. discriminate.
    + rewrite C. f_equal. apply cnt_ext. intros c Hc. destruct (N.leb_spec (t + d) c); [lia|auto].
Qed.
Lemma HI_ext : forall t0 s v v' st, HI t0 s v st -> (forall c, t0 <= c -> v' c = v c) -> HI t0 s v' st.
Proof.
  clear BIN. intros t0 s v v' st [T G V B C] H. constructor; auto.
  - intros c Hc. rewrite H by lia. auto.
  - intros x. rewrite C. f_equal. apply cnt_ext. intros c Hc. rewrite H by lia. auto.
Qed.
Lemma HI_upmax : forall t0 s v st x, HI t0 s v st -> HI t0 (h_upmax s x) v st.
Proof. clear BIN. intros t0 s v st x [T G V B C]. constructor; auto. Qed.

(** One call at time [t]; it is refused exactly if the cycle already belongs to an addValue. *)
Lemma HI_step : forall t0 s v st t o, HI t0 s v st ->
  match h_step p s t o with
  | Some s' => exists st', HI t0 s' (track1 (h_idle p) v t o) st' /\ st <= t /\ t <= st'
       /\ st' = (match o with HSet x => if hs_last s =? x then N.max st t else t | HAdd _ => t + 1 end)
  | None => t < st /\ o <> HSet (hs_last s)
  end \/ (exists x, o = HSet x /\ hs_last s = x /\ t < st)
  \/ (exists x, o = HSet x /\ hs_last s = x /\ h_step p s t o = Some s /\ HI t0 s (track1 (h_idle p) v t o) st).
Proof.
  intros t0 s v st t o H. destruct o as [x|x]; cbn [h_step track1].
  - unfold h_set. destruct (N.eqb_spec (hs_last s) x) as [E|E].
    + destruct (N.lt_ge_cases t st) as [L|L]; [right; left; eauto|].
      right. right. exists x. split; [auto|]. split; [auto|]. split; [auto|].
      apply (HI_ext t0 s v); auto. intros c Hc. destruct (N.leb_spec t c); auto. rewrite (hi_v _ _ _ _ H) by lia. auto.
    + left. pose proof (HI_stop t0 s v st t 0 H) as K. destruct (h_stop p s t (hs_last s) 0) as [s1|].
      * destruct K as [K1 [K2 K3]]. destruct (HS_start t0 s1 v t x 0 K2) as [s2 [S1 [S2 _]]]. rewrite S1.
        rewrite N.add_0_r in *. exists t. split; [|split; [auto|split; [lia|auto]]]. apply HI_upmax. apply S2.
      * rewrite N.add_0_r in K. split; [auto|]. congruence.
  - left. unfold h_add. pose proof (HI_stop t0 s v st t 0 H) as K. destruct (h_stop p s t (hs_last s) 0) as [s1|].
    + destruct K as [K1 [K2 K3]]. destruct (HS_start t0 s1 v t x 0 K2) as [s2 [S1 [S2 S3]]]. rewrite S1.
      rewrite N.add_0_r in *. pose proof (HI_stop t0 s2 _ t t 1 S2) as K4. rewrite S3 in K4.
      destruct (h_stop p s2 t x 1) as [s3|]; [|lia]. destruct K4 as [K5 [K6 K7]].
      destruct (HS_start t0 s3 _ t (h_idle p) 1 K6) as [s4 [S4 [S5 _]]]. rewrite S4.
      exists (t + 1). split; [|split; [auto|split; [lia|auto]]]. apply HI_upmax. eapply HI_ext; [exact S5|].
      intros c Hc. cbn beta. destruct (N.eqb_spec c t), (N.ltb_spec t c), (N.leb_spec (t + 1) c), (N.leb_spec t c); auto; lia.
    + rewrite N.add_0_r in K. split; [auto|discriminate].
Qed.
End HIST.

(** Calls at non-decreasing times; at most one call that changes anything follows an addValue in its cycle: no
    call is made in the cycle of an earlier addValue. *)
Fixpoint timed (t : N) (l : list (N * hop)) (T : N) : Prop :=
  match l with
  | [] => t <= T
  | (u, o) :: r => t <= u /\ timed (match o with HSet _ => u | HAdd _ => u + 1 end) r T
  end.

Lemma h_run_HI : forall p lo up per t0,
  (forall v, exists b, h_bin p v = Some b /\ In b (h_bins p) /\ forall b', in_range lo up per b' v = bin_eqb b b') ->
  forall l s v st t T, HI p lo up per t0 s v st -> st <= t -> timed t l T ->
  exists s' st', h_run p s l = Some s' /\ HI p lo up per t0 s' (track (h_idle p) v l) st' /\ st' <= T.
Proof.
  intros p lo up per t0 BIN. induction l as [|[u o] l IH]; intros s v st t T H HS HT; cbn [timed h_run track] in *.
  - exists s, st. split; [auto|]. split; [auto|lia].
  - destruct HT as [H1 H2].
    destruct (HI_step p lo up per BIN t0 s v st u o H) as [K|[(x & -> & E & K)|(x & -> & E & K1 & K2)]].
    + destruct (h_step p s u o) as [s'|].
      * destruct K as [st' [K1 [K2 [K2' K3]]]]. apply (IH s' _ st' _ T K1) in H2; [auto|].
        subst st'. destruct o; [destruct (hs_last s =? v0)|]; lia.
      * lia.
    + lia.
    + rewrite K1. apply (IH s _ st u T K2); auto. lia.
Qed.

Lemma h_init_HI : forall lo up per idle p t0, h_make lo up per idle = Some p -> per < 2 ^ 64 ->
  exists s, h_init p t0 = Some s /\ HI p lo up per t0 s (fun _ => idle) t0.
Proof.
  intros lo up per idle p t0 H HP. destruct (h_make_bin _ _ _ _ _ H HP) as [_ [_ [EI [_ [_ BIN]]]]].
  unfold h_init. cbn [cc_begin cc0 cc_on cc_count]. rewrite N.add_0_r.
  assert (S : HS lo up per t0 (mkH (fun _ => mkCC 0 0 1 false) (mkCC 0 t0 1 true) 0 0) (fun _ => idle) (t0 + 0)).
  { constructor; cbn [hs_total hs_bin]; auto; [lia|]. intros x. rewrite N.add_0_r. unfold cnt, cycles. rewrite N.sub_diag. reflexivity. }
  destruct (HS_start p lo up per BIN t0 _ _ t0 (h_idle p) 0 S) as [s' [S1 [S2 _]]]. rewrite N.add_0_r in *.
  change (fun _ : hbin => cc0) with (fun _ : hbin => mkCC 0 0 1 false). rewrite S1.
  eexists. split; [reflexivity|]. apply HI_upmax. eapply HI_ext; [exact S2|]. intros c Hc. cbn beta. rewrite EI.
  destruct (t0 <=? c); auto.
Qed.

(** Every bin holds exactly the cycles in which the tracked value was in its range. *)
Theorem C50_bins_partial : forall lo up per idle p t0 l T, h_make lo up per idle = Some p -> per < 2 ^ 64 -> T < 2 ^ 64 ->
  timed t0 l T ->
  exists s0 s, h_init p t0 = Some s0 /\ h_run p s0 l = Some s
    /\ cc_get (hs_total s) T = T - t0
    /\ forall b, h_get s b T = cnt (fun c => in_range lo up per b (track idle (fun _ => idle) l c)) t0 T.
Proof.
  intros lo up per idle p t0 l T H HP HB HT. destruct (h_make_bin _ _ _ _ _ H HP) as [_ [_ [EI [_ [_ BIN]]]]].
  destruct (h_init_HI _ _ _ _ _ t0 H HP) as [s0 [E0 H0]]. exists s0.
  destruct (h_run_HI p lo up per t0 BIN l s0 _ t0 t0 T H0 ltac:(lia) HT) as [s [st [E1 [[T1 G V [b [B1 [B2 [B3 [B4 B5]]]]] C] LE]]]].
  exists s. split; [auto|]. split; [auto|]. rewrite EI in *. split.
  - rewrite T1. unfold cc_get. cbn [cc_on cc_start cc_count cc_mult andb]. destruct (N.ltb_spec t0 T); [|lia].
    rewrite N.mul_1_r, N.add_0_l. apply N.mod_small. lia.
  - intros x. rewrite (cnt_split _ t0 st T) by lia. unfold h_get, cc_get. rewrite B3.
    assert (CL : cnt (fun c => in_range lo up per x (track idle (fun _ => idle) l c)) t0 st <= st - t0) by apply cnt_le.
    destruct (bin_eqb b x) eqn:E; cbn [andb].
    + apply bin_eqb_eq in E. subst x. rewrite B4, B5, C. rewrite (cnt_all _ st T).
      2:{ intros c Hc. rewrite V by lia. rewrite B2. apply bin_eqb_eq. auto. }
      destruct (N.ltb_spec st T).
      * rewrite N.mul_1_r, N.add_mod_idemp_l by discriminate. apply N.mod_small. lia.
      * rewrite N.mod_small by lia. lia.
    + rewrite C. rewrite (cnt_none _ st T). 2:{ intros c Hc. rewrite V by lia. rewrite B2. auto. }
      rewrite N.mod_small by lia. lia.
Qed.
Definition ops50 : list (N * hop) := [(3, HSet 5); (7, HAdd 100); (9, HSet 12); (9, HSet 2); (15, HAdd 6); (18, HSet 5)].
Example C50_bins_ex : exists p s0 s, h_make 4 11 4 0 = Some p /\ h_init p 1 = Some s0 /\ timed 1 ops50 20 /\ h_run p s0 ops50 = Some s
  /\ map (fun b => h_get s b 20) (h_bins p) = [11; 1; 7; 0].
Proof.
  eexists _, _, _. split; [vm_compute; reflexivity|]. split; [vm_compute; reflexivity|]. split; [cbn; lia|].
  split; [vm_compute; reflexivity|]. vm_compute. reflexivity.
Qed.
Print Assumptions C50_bins_partial.

Lemma sum_bins : forall (g : N -> hbin) bins a n, NoDup bins -> (forall c, In (g c) bins) ->
  fold_right (fun b acc => N.of_nat (length (filter (fun c => bin_eqb (g c) b) (map (fun i => a + N.of_nat i) (seq 0 n)))) + acc) 0 bins = N.of_nat n.
Proof.
  intros g bins a n ND HG. induction n.
  - cbn [seq map filter length]. clear. induction bins; cbn [fold_right]; [reflexivity|exact IHbins].
  - rewrite seq_S, map_app. cbn [map]. set (L := map (fun i => a + N.of_nat i) (seq 0 n)) in *. cbn [Nat.add].
    set (c := a + N.of_nat n).
    assert (E : forall bs, NoDup bs ->
      fold_right (fun b acc => N.of_nat (length (filter (fun c => bin_eqb (g c) b) (L ++ [c]))) + acc) 0 bs
      = fold_right (fun b acc => N.of_nat (length (filter (fun c => bin_eqb (g c) b) L)) + acc) 0 bs
        + (if existsb (bin_eqb (g c)) bs then 1 else 0)).
    { induction bs as [|b bs IH]; intros ND'; [reflexivity|]. inversion ND' as [|? ? NI ND2]; subst. cbn [fold_right existsb].
      rewrite IH by auto. rewrite filter_app, app_length. cbn [filter]. destruct (bin_eqb (g c) b) eqn:EB; cbn [length orb].
      - apply bin_eqb_eq in EB. destruct (existsb (bin_eqb (g c)) bs) eqn:EX; [|lia].
        exfalso. apply existsb_exists in EX. destruct EX as [y [Y1 Y2]]. apply bin_eqb_eq in Y2. apply NI. congruence.
      - lia. }
    rewrite E by auto. rewrite IHn.
    assert (X : existsb (bin_eqb (g c)) bins = true) by (apply existsb_exists; exists (g c); split; [auto|apply bin_eqb_eq; auto]).
    rewrite X. lia.
Qed.

(** All counts together are the elapsed cycles. *)
Theorem C50_total_partial : forall lo up per idle p t0 l T, h_make lo up per idle = Some p -> per < 2 ^ 64 -> T < 2 ^ 64 ->
  timed t0 l T ->
  exists s0 s, h_init p t0 = Some s0 /\ h_run p s0 l = Some s
    /\ fold_right (fun b acc => h_get s b T + acc) 0 (h_bins p) = T - t0
    /\ fold_right (fun b acc => h_get s b T + acc) 0 (h_bins p) = cc_get (hs_total s) T.
Proof.
  intros lo up per idle p t0 l T H HP HB HT.
  destruct (C50_bins_partial _ _ _ _ _ t0 l T H HP HB HT) as [s0 [s [E0 [E1 [E2 E3]]]]].
  exists s0, s. split; [auto|]. split; [auto|]. rewrite E2.
  assert (K : fold_right (fun b acc => h_get s b T + acc) 0 (h_bins p) = T - t0); [|auto].
  destruct (h_make_bin _ _ _ _ _ H HP) as [_ [_ [_ [_ [_ BIN]]]]].
  set (v := track idle (fun _ => idle) l) in *.
  set (g := fun c => match h_bin p (v c) with Some b => b | None => UF end).
  assert (G : forall c b, in_range lo up per b (v c) = bin_eqb (g c) b).
  { intros c b. unfold g. destruct (BIN (v c)) as [b0 [B1 [_ B2]]]. rewrite B1. apply B2. }
  assert (GI : forall c, In (g c) (h_bins p)).
  { intros c. unfold g. destruct (BIN (v c)) as [b0 [B1 [B2 _]]]. rewrite B1. auto. }
  assert (ND : NoDup (h_bins p)).
  { unfold h_bins. constructor.
    - intros [C|C]; [discriminate|]. apply in_map_iff in C. destruct C as [i [C _]]. discriminate.
    - constructor.
      + intros C. apply in_map_iff in C. destruct C as [i [C _]]. discriminate.
      + apply Injective_map_NoDup; [|apply seq_NoDup]. intros i j E. injection E as E. lia. }
  transitivity (N.of_nat (N.to_nat (T - t0))); [|apply N2Nat.id].
  rewrite <- (sum_bins g (h_bins p) t0 (N.to_nat (T - t0)) ND GI).
  clear - E3 G. induction (h_bins p) as [|b bs IH]; cbn [fold_right]; [reflexivity|]. rewrite IH, E3. f_equal.
  unfold cnt. f_equal. f_equal. unfold cycles. apply filter_ext. intros c. apply G.
Qed.
Example C50_total_ex : exists p s0 s, h_make 4 11 4 0 = Some p /\ h_init p 1 = Some s0 /\ timed 1 ops50 20 /\ h_run p s0 ops50 = Some s
  /\ fold_right (fun b acc => h_get s b 20 + acc) 0 (h_bins p) = 19.
Proof.
  eexists _, _, _. split; [vm_compute; reflexivity|]. split; [vm_compute; reflexivity|]. split; [cbn; lia|].
  split; [vm_compute; reflexivity|]. vm_compute. reflexivity.
Qed.
Print Assumptions C50_total_partial.

(** Read in the cycle of an addValue, the counts exceed the elapsed cycles by one. *)
Theorem C50_same_cycle_refuted : exists p s0 s, h_make 0 7 1 0 = Some p /\ h_init p 0 = Some s0
  /\ h_run p s0 [(5, HAdd 3)] = Some s
  /\ fold_right (fun b acc => h_get s b 5 + acc) 0 (h_bins p) = 6 /\ cc_get (hs_total s) 5 = 5.
Proof.
  eexists _, _, _. split; [vm_compute; reflexivity|]. split; [vm_compute; reflexivity|]. split; [vm_compute; reflexivity|].
  split; vm_compute; reflexivity.
Qed.
Print Assumptions C50_same_cycle_refuted.

(** A second addValue in the same cycle fails an assertion. *)
Theorem C50_add_twice_refuted : forall lo up per idle p t0 l t x y, h_make lo up per idle = Some p -> per < 2 ^ 64 ->
  timed t0 l t ->
  exists s0 s s1, h_init p t0 = Some s0 /\ h_run p s0 l = Some s /\ h_step p s t (HAdd x) = Some s1
    /\ h_step p s1 t (HAdd y) = None.
Proof.
  intros lo up per idle p t0 l t x y H HP HT. destruct (h_make_bin _ _ _ _ _ H HP) as [_ [_ [EI [_ [_ BIN]]]]].
  destruct (h_init_HI _ _ _ _ _ t0 H HP) as [s0 [E0 H0]].
  destruct (h_run_HI p lo up per t0 BIN l s0 _ t0 t0 t H0 ltac:(lia) HT) as [s [st [E1 [H1 LE]]]].
  destruct (HI_step p lo up per BIN t0 s _ st t (HAdd x) H1) as [K|[(z & C & _)|(z & C & _)]]; try discriminate.
  destruct (h_step p s t (HAdd x)) as [s1|] eqn:ES; [|lia]. destruct K as [st' [K1 [K2 [K2' K3]]]].
  exists s0, s, s1. split; [auto|]. split; [auto|]. split; [auto|].
  destruct (HI_step p lo up per BIN t0 s1 _ st' t (HAdd y) K1) as [K|[(z & C & _)|(z & C & _)]]; try discriminate.
  destruct (h_step p s1 t (HAdd y)); [|auto]. destruct K as [st2 [_ [K5 K6]]]. lia.
Qed.
Example C50_add_twice_ex : exists p s0 s1, h_make 0 7 1 0 = Some p /\ h_init p 0 = Some s0
  /\ h_step p s0 5 (HAdd 3) = Some s1 /\ h_step p s1 5 (HAdd 3) = None /\ h_step p s1 6 (HAdd 3) <> None.
Proof.
  eexists _, _, _. split; [vm_compute; reflexivity|]. split; [vm_compute; reflexivity|]. split; [vm_compute; reflexivity|].
  split; [vm_compute; reflexivity|]. vm_compute. discriminate.
Qed.
Print Assumptions C50_add_twice_refuted.

(* ================= C51 ================= *)
Open Scope Z_scope.
(** The range charged by the code to counter [i]: from bound i up to, not including, bound i+1; the first counter
    also takes everything below, the last everything above. *)
Definition charged (bs : list Z) (i : nat) (v : Z) : bool :=
  ((i =? 0)%nat || (nth i bs 0 <=? v)) && ((length bs <=? S i)%nat || (v <? nth (S i) bs 0)).
(** The range documented (bh 73-84): above bound i-1 and up to bound i; underflows to the first, overflows to the
    last. *)
Definition documented (bs : list Z) (i : nat) (v : Z) : bool :=
  ((i =? 0)%nat || (nth (i - 1) bs 0 <? v)) && ((length bs <=? S i)%nat || (v <=? nth i bs 0)).

Lemma is_sorted_nth : forall bs i j, is_sorted bs = true -> (i <= j)%nat -> (j < length bs)%nat -> nth i bs 0 <= nth j bs 0.
Proof.
  induction bs as [|a bs IH]; intros i j H L1 L2; cbn [length] in L2; [lia|].
  assert (HT : is_sorted bs = true /\ (bs <> [] -> a <= nth 0 bs 0)).
  { cbn [is_sorted] in H. destruct bs as [|b bs]; [split; [auto|tauto]|]. apply andb_true_iff in H. destruct H as [H1 H2].
    split; auto. intros _. cbn [nth]. apply Z.leb_le. auto. }
  destruct HT as [H1 H2]. destruct j as [|j].
  - destruct i; [lia|lia].
  - destruct i as [|i]; cbn [nth].
    + transitivity (nth 0 bs 0); [apply H2; intros ->; cbn in L2; lia|]. apply IH; auto; lia.
    + apply IH; auto; lia.
Qed.
Lemma upper_bound_spec : forall bs v, (upper_bound bs v <= length bs)%nat
  /\ (forall i, (i < upper_bound bs v)%nat -> nth i bs 0 <= v)
  /\ ((upper_bound bs v < length bs)%nat -> v < nth (upper_bound bs v) bs 0).
Proof.
  induction bs as [|b bs IH]; intros v; cbn [upper_bound length].
  - split; [lia|]. split; intros; lia.
  - destruct (Z.ltb_spec v b).
    + split; [lia|]. split; [intros; lia|]. intros _. auto.
    + destruct (IH v) as [A [B C]]. split; [lia|]. split.
      * intros [|i] Hi; cbn [nth]; [auto|]. apply B. lia.
      * intros Hl. cbn [nth]. apply C. lia.
Qed.
Definition bucket_of (bs : list Z) (v : Z) : nat := Nat.pred (upper_bound bs v).
Lemma bucket_charged : forall bs v i, is_sorted bs = true -> bs <> [] -> (i < length bs)%nat ->
  charged bs i v = (i =? bucket_of bs v)%nat.
Proof.
  intros bs v i HS NE HL. unfold charged, bucket_of. destruct (upper_bound_spec bs v) as [A [B C]].
  set (u := upper_bound bs v) in *.
  destruct (Nat.eqb_spec i (Nat.pred u)) as [E|E].
  - apply andb_true_iff. split; apply orb_true_iff.
    + destruct i; [left; auto|right]. apply Z.leb_le. apply B. lia.
    + destruct (Nat.leb_spec (length bs) (S i)); [left; auto|right]. apply Z.ltb_lt.
      destruct u as [|u'] eqn:EU.
      * cbn in E. subst i. pose proof (C ltac:(lia)). pose proof (is_sorted_nth bs 0 1 HS ltac:(lia) ltac:(lia)). lia.
      * cbn in E. subst i. apply C. lia.
  - apply andb_false_iff. destruct (Nat.lt_ge_cases i (Nat.pred u)) as [L|L].
    + right. apply orb_false_iff. split; [apply Nat.leb_gt; lia|]. apply Z.ltb_ge. apply B. lia.
    + left. apply orb_false_iff. split; [apply Nat.eqb_neq; lia|]. apply Z.leb_gt.
      pose proof (C ltac:(lia)). pose proof (is_sorted_nth bs u i HS ltac:(lia) HL). lia.
Qed.
Open Scope N_scope.
Lemma bump_spec : forall l i, (i < length l)%nat -> exists l', bump l i = Some l' /\ length l' = length l
  /\ forall j, nth j l' 0 = if (j =? i)%nat then (nth j l 0 + 1) mod 2 ^ 64 else nth j l 0.
Proof.
  induction l as [|c l IH]; intros i H; cbn [length] in H; [lia|]. destruct i as [|i]; cbn [bump].
  - eexists. split; [reflexivity|]. split; [reflexivity|]. intros [|j]; cbn [nth Nat.eqb]; auto.
  - destruct (IH i ltac:(lia)) as [l' [E [L N]]]. rewrite E. cbn [option_map]. eexists. split; [reflexivity|].
    split; [cbn [length]; lia|]. intros [|j]; cbn [nth Nat.eqb]; auto.
Qed.
Lemma bh_run_spec : forall bs vs ctrs, is_sorted bs = true -> bs <> [] -> length ctrs = length bs ->
  (forall j, nth j ctrs 0 < 2 ^ 64) ->
  exists r, bh_run false bs ctrs vs = Some r /\ length r = length bs /\
  forall j, nth j r 0 = (nth j ctrs 0 + N.of_nat (length (filter (fun v => (j =? bucket_of bs v)%nat) vs))) mod 2 ^ 64.
Proof.
  intros bs. induction vs as [|v vs IH]; intros ctrs HS NE HL HB; cbn [bh_run].
  - exists ctrs. split; [auto|]. split; [auto|]. intros j. cbn. rewrite N.add_0_r. symmetry. apply N.mod_small. auto.
  - destruct (upper_bound_spec bs v) as [A _]. assert (LB : (0 < length bs)%nat) by (destruct bs; [tauto|cbn; lia]).
    destruct (bump_spec ctrs (bucket_of bs v)) as [c' [E [L C]]]; [unfold bucket_of; lia|].
    assert (EA : bh_add false bs ctrs v = Some c').
    { rewrite <- E. unfold bh_add, bucket_of. destruct (upper_bound bs v); auto. }
    rewrite EA. destruct (IH c' HS NE ltac:(lia)) as [r [R1 [R2 R3]]].
    { intros j. rewrite C. destruct (j =? bucket_of bs v)%nat; auto. apply N.mod_lt. discriminate. }
    exists r. split; [auto|]. split; [auto|]. intros j. rewrite R3, C. cbn [filter].
    destruct (j =? bucket_of bs v)%nat; [|auto]. cbn [length]. rewrite N.add_mod_idemp_l by discriminate. f_equal. lia.
Qed.

(** Every bucket counts the values of its (half-open) range, for every sorted non-empty bucket list. *)
Theorem C51_bucket_partial : forall bs vs, is_sorted bs = true -> bs <> [] -> N.of_nat (length vs) < 2 ^ 64 ->
  exists c0 r, bh_make bs = Some c0 /\ bh_run false bs c0 vs = Some r /\ length r = length bs
   /\ forall i, (i < length bs)%nat -> nth i r 0 = N.of_nat (length (filter (charged bs i) vs)).
Proof.
  intros bs vs HS NE HB. unfold bh_make. rewrite HS. eexists.
  assert (Z0 : forall j, nth j (map (fun _ : Z => 0) bs) 0 = 0).
  { intros j. clear. revert j. induction bs; intros [|j]; cbn; auto. }
  destruct (bh_run_spec bs vs (map (fun _ => 0) bs) HS NE) as [r [R1 [R2 R3]]].
  - apply map_length.
  - intros j. rewrite Z0. reflexivity.
  - exists r. split; [auto|]. split; [auto|]. split; [auto|]. intros i Hi. rewrite R3, Z0, N.add_0_l.
    rewrite N.mod_small.
    + f_equal. f_equal. apply filter_ext. intros v. symmetry. apply bucket_charged; auto.
    + pose proof (filter_len (fun v => (i =? bucket_of bs v)%nat) vs). lia.
Qed.
Example C51_bucket_ex : exists c0, bh_make [0; 10; 20]%Z = Some c0
  /\ bh_run false [0; 10; 20]%Z c0 [-1; 1; 10; 11; 20; 21; 5]%Z = Some [3; 2; 2].
Proof. eexists. split; [reflexivity|]. vm_compute. reflexivity. Qed.
Print Assumptions C51_bucket_partial.

(** Every value is charged to exactly one bucket, so the counts sum to the number of values added. *)
Theorem C51_total_partial : forall bs vs, is_sorted bs = true -> bs <> [] -> N.of_nat (length vs) < 2 ^ 64 ->
  (forall v, exists i, (i < length bs)%nat /\ charged bs i v = true /\
     forall j, (j < length bs)%nat -> charged bs j v = true -> j = i) /\
  exists c0 r, bh_make bs = Some c0 /\ bh_run false bs c0 vs = Some r
   /\ fold_right N.add 0 r = N.of_nat (length vs).
Proof.
  intros bs vs HS NE HB. assert (LB : (0 < length bs)%nat) by (destruct bs; [tauto|cbn; lia]).
  assert (BL : forall v, (bucket_of bs v < length bs)%nat).
  { intros v. destruct (upper_bound_spec bs v) as [A _]. unfold bucket_of. lia. }
  split.
  - intros v. exists (bucket_of bs v). split; [auto|]. split; [rewrite bucket_charged, Nat.eqb_refl; auto|].
    intros j Hj H. rewrite bucket_charged in H by auto. apply Nat.eqb_eq in H. auto.
  - destruct (C51_bucket_partial bs vs HS NE HB) as [c0 [r [E0 [E1 [E2 E3]]]]]. exists c0, r. split; [auto|]. split; [auto|].
    assert (ER : r = map (fun i => N.of_nat (length (filter (charged bs i) vs))) (seq 0 (length bs))).
    { apply nth_ext with (d := 0) (d' := 0); [rewrite map_length, seq_length; auto|].
      intros i Hi. rewrite E2 in Hi. rewrite E3 by auto.
      rewrite (nth_indep _ 0 (N.of_nat (length (filter (charged bs 0%nat) vs)))) by (rewrite map_length, seq_length; auto).
      rewrite (map_nth (fun i => N.of_nat (length (filter (charged bs i) vs))) (seq 0 (length bs)) 0%nat i).
      rewrite seq_nth by auto. reflexivity. }
    rewrite ER. clear - HS NE BL. induction vs as [|v vs IH].
    + cbn [filter length]. generalize (seq 0 (length bs)). induction l; cbn [map fold_right]; [reflexivity|exact IHl].
    + cbn [length]. rewrite Nat2N.inj_succ, <- IH, <- N.add_1_l. cbn [filter].
      assert (G : forall L, NoDup L -> (forall x, In x L -> (x < length bs)%nat) ->
        fold_right N.add 0 (map (fun i => N.of_nat (length (if charged bs i v then v :: filter (charged bs i) vs else filter (charged bs i) vs))) L)
        = (if existsb (fun x => (x =? bucket_of bs v)%nat) L then 1 else 0) + fold_right N.add 0 (map (fun i => N.of_nat (length (filter (charged bs i) vs))) L)).
      { induction L as [|a L IHL]; intros ND HI; [reflexivity|]. inversion ND as [|? ? NI ND']; subst. cbn [map fold_right existsb].
        rewrite IHL by (auto; intros; apply HI; right; auto).
        rewrite bucket_charged by (auto; apply HI; left; auto).
        destruct (Nat.eqb_spec a (bucket_of bs v)) as [E|E]; cbn [orb length].
        - destruct (existsb (fun x => (x =? bucket_of bs v)%nat) L) eqn:EX; [|lia].
          exfalso. apply existsb_exists in EX. destruct EX as [y [Y1 Y2]]. apply Nat.eqb_eq in Y2. apply NI. congruence.
        - lia. }
      rewrite G; [|apply seq_NoDup|intros x Hx; apply in_seq in Hx; lia].
      assert (X : existsb (fun x => (x =? bucket_of bs v)%nat) (seq 0 (length bs)) = true).
      { apply existsb_exists. exists (bucket_of bs v). split; [|apply Nat.eqb_refl]. apply in_seq. specialize (BL v). lia. }
      rewrite X. reflexivity.
Qed.
Example C51_total_ex : is_sorted [-5; 0; 0; 7]%Z = true /\
  exists r, bh_run false [-5; 0; 0; 7]%Z [0;0;0;0] [-9; -5; 0; 3; 7; 100; 0]%Z = Some r /\ fold_right N.add 0 r = 7 /\ r = [2; 0; 3; 2].
Proof. split; [reflexivity|]. eexists. split; [vm_compute; reflexivity|]. vm_compute. auto. Qed.
Print Assumptions C51_total_partial.

(** The charged bucket is not the documented one: with the bounds 0, 10, 20 of the header's example the value 10
    belongs to bucket "greater than 0 and less than or equal to 10" but so does, by the documentation, 5 - and the
    code charges 5 to the first bucket and 10 to the second. *)
Theorem C51_documented_refuted : exists bs v i j, is_sorted bs = true /\ (i < length bs)%nat /\ (j < length bs)%nat /\ i <> j
  /\ documented bs i v = true /\ charged bs i v = false /\ charged bs j v = true /\ documented bs j v = false.
Proof.
  exists [0; 10; 20]%Z, 5%Z, 1%nat, 0%nat. cbn [length]. split; [reflexivity|]. split; [lia|]. split; [lia|]. split; [lia|].
  vm_compute. auto.
Qed.
Print Assumptions C51_documented_refuted.

(** In general: a value strictly between two neighbouring bounds is never charged where the documentation says. *)
Theorem C51_off_by_one_refuted : forall bs v i, is_sorted bs = true -> (S i < length bs)%nat ->
  (nth i bs 0 < v < nth (S i) bs 0)%Z -> documented bs (S i) v = true /\ charged bs (S i) v = false /\ charged bs i v = true.
Proof.
  intros bs v i HS HL HV. unfold documented, charged. cbn [Nat.eqb orb].
  replace (S i - 1)%nat with i by lia.
  destruct (Z.ltb_spec (nth i bs 0%Z) v); [|lia]. destruct (Z.leb_spec v (nth (S i) bs 0%Z)); [|lia].
  destruct (Z.leb_spec (nth (S i) bs 0%Z) v); [lia|]. destruct (Z.leb_spec (nth i bs 0%Z) v); [|lia].
  destruct (Z.ltb_spec v (nth (S i) bs 0%Z)); [|lia]. rewrite !orb_true_r. auto.
Qed.
Example C51_off_by_one_ex : (S 1 < length [0; 10; 20]%Z)%nat /\ (nth 1 [0; 10; 20] 0 < 15 < nth 2 [0; 10; 20] 0)%Z.
Proof. cbn. lia. Qed.
Print Assumptions C51_off_by_one_refuted.

(** An empty bucket list is accepted by the constructor, and the first value then indexes outside the counters. *)
Theorem C51_empty_refuted : forall v, bh_make [] = Some [] /\ bh_add false [] [] v = None.
Proof. intros. split; reflexivity. Qed.
Print Assumptions C51_empty_refuted.
