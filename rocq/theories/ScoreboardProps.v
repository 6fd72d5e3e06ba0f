(** C27: scoreboard views and the ready callbacks. *)
From Coq Require Import List NArith ZArith Bool Lia Permutation Arith.
Import ListNotations.
Require Import Verif.ScoreboardModel Verif.ScoreboardProofs.
Open Scope N_scope.

(** Every view has a latency from the producer. *)
Definition reaches (b : sb) (p : nat) : Prop :=
  forall row v, nth_error (b_lat b) p = Some row -> In v (b_views b) -> nth_error row (N.to_nat (v_unit v)) <> Some no_latency.
(** No bit is cleared while an update of it is on its way, no view is created while one of the first 32 bits is not ready, and no producer
    without a latency to some view is used. *)
Definition careful (b : sb) (o : sop) : Prop :=
  match o with
  | SClear bits => forall u, In u (b_fly b) -> N.land (u_bits u) bits = 0
  | SView _ => is_set (b_mask b) (2 ^ 32 - 1) = true
  | SSetFrom _ p => reaches b p
  | SReady i _ => forall v, nth_error (b_views b) i = Some v -> reaches b (N.to_nat (v_unit v))
  | _ => True
  end.
Fixpoint careful_run (b : sb) (ops : list sop) : Prop :=
  match ops with [] => True | o :: r => careful b o /\ match sstep b o with Some b' => careful_run b' r | None => True end end.
(** Bit [k] is on its way to view [i]. *)
Definition on_way (l : list upd) (i : nat) (k : N) : bool := existsb (fun u => Nat.eqb (u_view u) i && N.testbit (u_bits u) k) l.
(** The views are behind the master by what is on its way. *)
Definition behind (b : sb) : Prop := forall i m k, vm b i = Some m -> N.testbit (b_mask b) k = N.testbit m k || on_way (b_fly b) i k.

Lemma on_way_app : forall l l' i k, on_way (l ++ l') i k = on_way l i k || on_way l' i k.
Proof. intros. unfold on_way. apply existsb_app. Qed.
Lemma on_way_true : forall l i k, on_way l i k = true <-> exists u, In u l /\ u_view u = i /\ N.testbit (u_bits u) k = true.
Proof.
  intros. unfold on_way. rewrite existsb_exists. split.
  - intros (u & I & H). apply andb_prop in H. destruct H as [A B]. apply Nat.eqb_eq in A. eauto.
  - intros (u & I & A & B). exists u. rewrite A, B, Nat.eqb_refl. auto.
Qed.
Lemma bits32 : forall k, N.testbit (2 ^ 32 - 1) k = (k <? 32).
Proof.
  intro k. replace (2 ^ 32 - 1) with (N.ones 32) by reflexivity. destruct (N.ltb_spec k 32); [apply N.ones_spec_low|apply N.ones_spec_high]; lia.
Qed.
Lemma row_of : forall b p cl, wf b -> nth_error (b_cons b) p = Some cl -> exists row, nth_error (b_lat b) p = Some row.
Proof.
  intros b p cl W E. destruct (nth_error (b_lat b) p) as [row|] eqn:R; [eauto|]. apply nth_error_None in R.
  assert (p < length (b_cons b))%nat by (apply nth_error_Some; congruence). rewrite (w_lat _ W) in R. rewrite (w_cons _ W) in H. lia.
Qed.
Lemma lat_of_view : forall b p row i u, wf b -> nth_error (b_lat b) p = Some row -> vu b i = Some u -> exists lat, nth_error row (N.to_nat u) = Some lat.
Proof.
  intros b p row i u W R V. destruct (nth_error row (N.to_nat u)) as [x|] eqn:E; [eauto|]. apply nth_error_None in E.
  pose proof (w_rows _ W) as F. rewrite Forall_forall in F. rewrite (F row) in E by (eapply nth_error_In; eauto). pose proof (w_unit _ W _ _ V). lia.
Qed.
Lemma behind_set_from : forall b bits p b', wf b -> behind b -> reaches b p -> set_from b bits p = Some b' -> behind b'.
Proof.
  intros b bits p b' W B Re H i m k Hm. destruct (set_from_eq _ _ _ _ H) as (cl & b1 & E & F & ->).
  destruct (forward_frame _ _ _ _ F) as (Fr & Y & M). destruct Fr as (F1 & _ & _ & _ & _ & F6 & F7).
  cbn [or_mask b_mask b_fly]. rewrite F1, Y, N.lor_spec, on_way_app. change (vm (or_mask b1 bits) i) with (vm b1 i) in Hm. rewrite M in Hm.
  assert (L : (i < length (b_views b))%nat). { destruct (inb i (zeros cl)); destruct (vm b i) eqn:Q; simpl in Hm; try discriminate; eapply vm_lt; eauto. }
  destruct (vm_some b i L) as (m0 & Q). rewrite Q in Hm. specialize (B i m0 k Q). rewrite B.
  destruct (row_of _ _ _ W E) as (row & R). destruct (vu_some b i L) as (u & V). destruct (lat_of_view _ _ _ _ _ W R V) as (lat & G).
  assert (lat <> no_latency) as Ne.
  { intros ->. unfold vu in V. destruct (nth_error (b_views b) i) as [v|] eqn:Ev; [|discriminate]. injection V as <-. apply (Re row v R); auto. eapply nth_error_In; eauto. }
  pose proof (w_to _ W p row cl i u lat R E V G Ne) as I.
  destruct (N.eq_dec lat 0) as [->|Nz].
  - assert (inb i (zeros cl) = true) as Z by (apply inb_in, in_zeros; auto). rewrite Z in Hm. injection Hm as <-. rewrite N.lor_spec.
    assert (on_way (sent (b_now b) bits cl) i k = true -> N.testbit bits k = true) as S.
    { intro X. apply on_way_true in X. destruct X as (x & X & _ & T). apply in_sent in X. destruct X as (? & ? & _ & _ & ->). exact T. }
    destruct (N.testbit m0 k), (on_way (b_fly b) i k), (N.testbit bits k), (on_way (sent (b_now b) bits cl) i k); simpl; auto.
  - assert (on_way (sent (b_now b) bits cl) i k = N.testbit bits k) as S.
    { apply eq_true_iff_eq. rewrite on_way_true. split.
      - intros (x & X & _ & T). apply in_sent in X. destruct X as (? & ? & _ & _ & ->). exact T.
      - intro T. exists (mkU (b_now b + lat) i bits). split; auto. apply in_sent. exists i, lat. auto. }
    rewrite S. destruct (inb i (zeros cl)); injection Hm as <-; [rewrite N.lor_spec|]; destruct (N.testbit m0 k), (on_way (b_fly b) i k), (N.testbit bits k); auto.
Qed.
Lemma behind_step : forall b o b', wf b -> behind b -> careful b o -> sstep b o = Some b' -> behind b'.
Proof.
  intros b o b' W B Ca H. destruct o; cbn [sstep careful] in *.
  - destruct (set_all_eq _ _ _ H) as (b1 & R & ->). destruct (receives_frame _ _ _ _ R) as (Fr & Y & M). destruct Fr as (F1 & _ & _ & _ & _ & F6 & _).
    intros i m k Hm. change (vm (or_mask b1 bits) i) with (vm b1 i) in Hm. pose proof (vm_lt _ _ _ Hm) as L. rewrite F6 in L.
    rewrite M in Hm. rewrite (proj2 (inb_in i (concat (b_units b))) (w_units _ W i L)) in Hm.
    destruct (vm_some b i L) as (m0 & Q). rewrite Q in Hm. injection Hm as <-. cbn [or_mask b_mask b_fly]. rewrite F1, Y, !N.lor_spec, (B i m0 k Q).
    destruct (N.testbit m0 k), (on_way (b_fly b) i k), (N.testbit bits k); auto.
  - eapply behind_set_from; eauto.
  - destruct (nth_error (b_views b) i) as [v|]; [|discriminate]. destruct (bits =? 0); [injection H as <-; auto|]. eapply behind_set_from; eauto.
  - injection H as <-. destruct (clear_frame b bits) as (K & _ & _ & _ & _ & Y & _ & Ln & _ & M & _). intros i m k Hm.
    pose proof (vm_lt _ _ _ Hm) as L. rewrite Ln in L. rewrite M in Hm. rewrite (proj2 (inb_in i (concat (b_units b))) (w_units _ W i L)) in Hm.
    destruct (vm_some b i L) as (m0 & Q). rewrite Q in Hm. injection Hm as <-. rewrite K, Y, !N.ldiff_spec, (B i m0 k Q).
    destruct (N.testbit bits k) eqn:T; simpl; [|rewrite !andb_true_r; auto]. rewrite !andb_false_r. simpl.
    destruct (on_way (b_fly b) i k) eqn:O; auto. apply on_way_true in O. destruct O as (u & I & _ & Tu). specialize (Ca u I).
    assert (X : N.testbit (N.land (u_bits u) bits) k = true) by (rewrite N.land_spec, Tu, T; reflexivity). rewrite Ca in X. rewrite N.bits_0 in X. discriminate.
  - destruct (new_view_frame _ _ _ H) as (_ & _ & K & _ & _ & Y & _ & _ & _ & V & _). intros i m k Hm. unfold vm in Hm. rewrite V, nth_snoc in Hm. rewrite K, Y.
    destruct (Nat.eqb_spec i (length (b_views b))) as [->|Ne].
    + cbn [option_map v_mask] in Hm. assert (Hm' : m = N.lor (2 ^ 32 - 1) (b_mask b)) by congruence. rewrite Hm', N.lor_spec, bits32.
      assert (on_way (b_fly b) (length (b_views b)) k = false) as ->.
      { destruct (on_way (b_fly b) (length (b_views b)) k) eqn:O; auto. apply on_way_true in O. destruct O as (x & I & E & _). destruct (w_fly _ W x I). lia. }
      destruct (N.ltb_spec k 32); simpl; rewrite ?orb_false_r; auto. apply N.eqb_eq in Ca.
      assert (X : N.testbit (N.land (b_mask b) (2 ^ 32 - 1)) k = true) by (rewrite Ca, bits32; apply N.ltb_lt; auto).
      rewrite N.land_spec in X. apply andb_prop in X. apply X.
    + apply B. exact Hm.
  - destruct (with_cbs_frame _ _ _ _ H) as (Fr & Y & _ & M). destruct Fr as (F1 & _). intros j m k Hm. rewrite M in Hm. rewrite F1, Y. auto.
  - destruct (with_cbs_frame _ _ _ _ H) as (Fr & Y & _ & M). destruct Fr as (F1 & _). intros j m k Hm. rewrite M in Hm. rewrite F1, Y. auto.
  - destruct (deliver_eq _ _ H) as (u & r & T & R). destruct (receive_frame _ _ _ _ R) as (Fr & Y & _ & _ & M). destruct Fr as (F1 & _). cbn [b_mask b_fly] in *.
    destruct (take_due_spec _ _ _ _ T) as (_ & Iu & Sub & Spl). intros j m k Hm. rewrite M in Hm. rewrite F1, Y.
    change (vm (mkB (b_mask b) (b_lat b) (b_views b) (b_units b) (b_cons b) r (b_now b) (b_log b)) j) with (vm b j) in Hm.
    assert (Q : exists m0, vm b j = Some m0) by (destruct (Nat.eqb (u_view u) j); destruct (vm b j); simpl in Hm; try discriminate; eauto).
    destruct Q as (m0 & Q). rewrite Q in Hm. rewrite (B j m0 k Q). destruct (Nat.eqb_spec (u_view u) j) as [Ev|Nv]; injection Hm as <-.
    + rewrite N.lor_spec, <- orb_assoc. f_equal. apply eq_true_iff_eq. rewrite orb_true_iff, !on_way_true. split.
      * intros (x & I & A & D). destruct (Spl _ I) as [->|I']; [left; auto|right; eauto].
      * intros [D|(x & I & A & D)]; [exists u; auto|exists x; auto].
    + f_equal. apply eq_true_iff_eq. rewrite !on_way_true. split; intros (x & I & A & D).
      * destruct (Spl _ I) as [->|I']; [congruence|eauto].
      * eauto.
  - destruct (tick_eq _ _ H) as (T & ->). intros j m k Hm. exact (B j m k Hm).
Qed.
Lemma behind_run : forall ops b b', wf b -> behind b -> careful_run b ops -> srun b ops = Some b' -> behind b'.
Proof.
  induction ops as [|o ops IH]; intros b b' W B Ca H; simpl in H; [injection H as <-; auto|].
  destruct Ca as [C1 C2]. destruct (sstep b o) as [b1|] eqn:E; [|discriminate]. apply IH with b1; auto; [eapply wf_step|eapply behind_step]; eauto.
Qed.
Lemma behind_init : forall t b, b_init t = Some b -> behind b.
Proof. intros t b H. unfold b_init in H. destruct (forallb _ t); [|discriminate]. injection H as <-. intros i m k Hm. destruct i; discriminate. Qed.

(** ** The views agree with the master. *)

(** After any careful sequence of calls, a view is ready in exactly the bits the master is ready in, less those still on their way to it; with none
    on its way the two agree. Missing: sequences that clear a bit while an update of it is on its way, that create a view while one of the
    first 32 bits is not ready, or that use a producer with no latency to some view; the three refutations below show that each is needed. *)
Theorem C27_views_agree_partial : forall t b0 ops b i v, b_init t = Some b0 -> careful_run b0 ops -> srun b0 ops = Some b -> nth_error (b_views b) i = Some v ->
  (forall k, N.testbit (b_mask b) k = N.testbit (v_mask v) k || on_way (b_fly b) i k) /\ (b_fly b = [] -> v_mask v = b_mask b).
Proof.
  intros t b0 ops b i v H0 Ca H E. pose proof (behind_run _ _ _ (wf_init _ _ H0) (behind_init _ _ H0) Ca H) as B.
  assert (Q : vm b i = Some (v_mask v)) by (unfold vm; rewrite E; auto). split; [intro k; apply B; auto|].
  intro Y. apply N.bits_inj. intro k. rewrite (B i _ k Q), Y. simpl. rewrite orb_false_r. reflexivity.
Qed.
Print Assumptions C27_views_agree_partial.
(** Two units one and two cycles apart; bits 40 and 41 set by unit 0, bit 3 cleared. *)
Definition ex_table : list (list Z) := [[0; 2]; [1; 0]]%Z.
Definition ex_ops : list sop := [SView 0; SView 1; SReady 0 (3 * 2 ^ 40); SClear 8; STick; STick; SDeliver].
Example C27_views_agree_partial_ex :
  match b_init ex_table with
  | Some b0 => careful_run b0 ex_ops /\ match srun b0 ex_ops with Some b => map v_mask (b_views b) = [b_mask b; b_mask b] /\ b_fly b = [] | None => False end
  | None => False end.
Proof.
  vm_compute. repeat split; intros; repeat (match goal with
    | H : _ \/ _ |- _ => destruct H as [<-|H]
    | H : False |- _ => destruct H
    | H : Some _ = Some _ |- _ => injection H as <-
    end); try reflexivity; try discriminate.
Qed.

(** Each of the three conditions is needed. A bit cleared while an update of it is on its way: the update is delivered, the view says ready,
    the master not ready, and nothing is on its way. *)
Theorem C27_late_update_refuted : ~ (forall t b0 ops b i v, b_init t = Some b0 -> srun b0 ops = Some b -> b_fly b = [] -> nth_error (b_views b) i = Some v -> v_mask v = b_mask b).
Proof.
  intro H. assert (R : exists b, match b_init ex_table with Some b0 => srun b0 [SView 0; SView 1; SReady 0 (2 ^ 40); SClear (2 ^ 40); STick; STick; SDeliver] | None => None end = Some b)
    by (vm_compute; eexists; reflexivity). destruct R as (b & R).
  destruct (b_init ex_table) as [b0|] eqn:E; [|discriminate].
  assert (X : match b_init ex_table with Some b0 => match srun b0 [SView 0; SView 1; SReady 0 (2 ^ 40); SClear (2 ^ 40); STick; STick; SDeliver] with
              Some b => b_fly b = [] /\ option_map v_mask (nth_error (b_views b) 1) = Some (2 ^ 40 + 2 ^ 32 - 1) /\ b_mask b = 2 ^ 32 - 1 | None => False end | None => False end) by (vm_compute; auto).
  rewrite E, R in X. destruct X as (Y & V & M). destruct (nth_error (b_views b) 1) as [v|] eqn:Ev; [|discriminate].
  specialize (H _ _ _ _ 1%nat v E R Y Ev). injection V as V. rewrite V, M in H. vm_compute in H. discriminate.
Qed.
Print Assumptions C27_late_update_refuted.
(** A view created after clearBits of one of the first 32 bits starts with it ready. *)
Theorem C27_new_view_refuted : ~ (forall t b0 ops u b v, b_init t = Some b0 -> srun b0 (ops ++ [SView u]) = Some b -> b_fly b = [] -> In v (b_views b) ->
  forall bits, is_set (v_mask v) bits = true -> is_set (b_mask b) bits = true).
Proof.
  intro H.
  assert (X : match b_init ex_table with Some b0 => match srun b0 ([SClear 8] ++ [SView 0%nat]) with
              Some b => b_fly b = [] /\ map v_mask (b_views b) = [2 ^ 32 - 1] /\ is_set (b_mask b) 8 = false | None => False end | None => False end) by (vm_compute; auto).
  destruct (b_init ex_table) as [b0|] eqn:E; [|destruct X]. destruct (srun b0 ([SClear 8] ++ [SView 0%nat])) as [b|] eqn:R; [|destruct X]. destruct X as (Y & V & M).
  destruct (b_views b) as [|v l] eqn:Ev; [discriminate|]. injection V as V _.
  assert (I : In v (b_views b)) by (rewrite Ev; left; auto).
  specialize (H _ _ _ _ _ v E R Y I 8). rewrite V in H. rewrite M in H. discriminate H. reflexivity.
Qed.
Print Assumptions C27_new_view_refuted.
(** A consumer without a latency from the producer never learns of its bits. *)
Theorem C27_no_latency_refuted : ~ (forall t b0 ops b v, b_init t = Some b0 -> srun b0 ops = Some b -> (forall bits, ~ In (SClear bits) ops) -> b_fly b = [] -> In v (b_views b) -> v_mask v = b_mask b).
Proof.
  intro H. set (ops := [SView 0; SView 1; SReady 0 (2 ^ 40); STick; STick; STick]) in *.
  assert (X : match b_init [[0; -1]; [1; 0]]%Z with Some b0 => match srun b0 ops with
              Some b => b_fly b = [] /\ map v_mask (b_views b) = [2 ^ 32 - 1 + 2 ^ 40; 2 ^ 32 - 1] /\ b_mask b = 2 ^ 32 - 1 + 2 ^ 40 | None => False end | None => False end) by (vm_compute; auto).
  destruct (b_init [[0; -1]; [1; 0]]%Z) as [b0|] eqn:E; [|destruct X]. destruct (srun b0 ops) as [b|] eqn:R; [|destruct X]. destruct X as (Y & V & M).
  destruct (b_views b) as [|v [|w l]] eqn:Ev; try discriminate. injection V as V1 V2 _.
  assert (I : In w (b_views b)) by (rewrite Ev; right; left; auto).
  assert (N : forall bits, ~ In (SClear bits) ops) by (intros bits Q; unfold ops in Q; simpl in Q; intuition; discriminate).
  specialize (H _ _ _ _ w E R N Y I). rewrite V2, M in H. vm_compute in H. discriminate.
Qed.
Print Assumptions C27_no_latency_refuted.
(** A view cannot be created while the master has no bit ready: the assertion of receiveScoreboardUpdate_ fails. *)
Theorem C27_create_refuted : exists t b0 b, b_init t = Some b0 /\ srun b0 [SClear (2 ^ 32 - 1)] = Some b /\ sstep b (SView 0) = None.
Proof. exists ex_table. eexists. eexists. split; [reflexivity|]. split; vm_compute; reflexivity. Qed.
Print Assumptions C27_create_refuted.
(** A scoreboard starts with the first 32 of its 512 bits ready, not with all of them. *)
Theorem C27_initial : forall t b, b_init t = Some b -> forall k, is_set (b_mask b) (2 ^ k) = (k <? 32).
Proof.
  intros t b H k. unfold b_init in H. destruct (forallb _ t); [|discriminate]. assert (M : b_mask b = 2 ^ 32 - 1) by (injection H as <-; reflexivity). rewrite M.
  unfold is_set. apply eq_true_iff_eq. rewrite N.eqb_eq, <- bits32. split.
  - intro E. assert (X : N.testbit (N.land (2 ^ 32 - 1) (2 ^ k)) k = true) by (rewrite E; apply N.pow2_bits_true). rewrite N.land_spec in X. apply andb_prop in X. apply X.
  - intro E. apply N.bits_inj; intro j. rewrite N.land_spec. destruct (N.eq_dec j k) as [->|Ne]; [rewrite E; reflexivity|]. rewrite N.pow2_bits_false by auto. apply andb_false_r.
Qed.
Print Assumptions C27_initial.
Example C27_initial_ex : match b_init ex_table with Some b => is_set (b_mask b) (2 ^ 31) = true /\ is_set (b_mask b) (2 ^ 32) = false | None => False end.
Proof. vm_compute. auto. Qed.

(** ** The forwarding latency. *)

(** Calls that set bit [k]. *)
Definition sets (k : N) (o : sop) : bool :=
  match o with SSet bits | SSetFrom bits _ | SReady _ bits => N.testbit bits k | _ => false end.
(** Calls that clear bit [k]. *)
Definition clears (k : N) (o : sop) : bool := match o with SClear bits => N.testbit bits k | _ => false end.

Lemma set_from_bit : forall b bits p b' i k, set_from b bits p = Some b' -> N.testbit bits k = false ->
  (forall m, vm b' i = Some m -> exists m0, vm b i = Some m0 /\ N.testbit m k = N.testbit m0 k) /\
  (forall u, In u (b_fly b') -> N.testbit (u_bits u) k = true -> In u (b_fly b)) /\ b_now b' = b_now b.
Proof.
  intros b bits p b' i k H T. destruct (set_from_eq _ _ _ _ H) as (cl & b1 & E & F & ->).
  destruct (forward_frame _ _ _ _ F) as (Fr & Y & M). destruct Fr as (_ & _ & _ & _ & F5 & F6 & F7). split; [|split].
  - intros m Hm. change (vm (or_mask b1 bits) i) with (vm b1 i) in Hm. rewrite M in Hm. destruct (vm b i) as [m0|]; [|destruct (inb i (zeros cl)); discriminate].
    exists m0. split; auto. destruct (inb i (zeros cl)); injection Hm as <-; auto. rewrite N.lor_spec, T. apply orb_false_r.
  - cbn [or_mask b_fly]. rewrite Y. intros u I Tu. apply in_app_or in I. destruct I as [I|I]; auto. apply in_sent in I.
    destruct I as (? & ? & _ & _ & ->). cbn in Tu. congruence.
  - exact F5.
Qed.
(** Nothing sets bit [k] of view [i] before cycle [d]. *)
Definition not_yet (b : sb) (i : nat) (k d : N) : Prop :=
  (forall m, vm b i = Some m -> N.testbit m k = true -> d <= b_now b) /\ (forall u, In u (b_fly b) -> u_view u = i -> N.testbit (u_bits u) k = true -> d <= u_due u) /\
  (i < length (b_views b))%nat.
Lemma not_yet_step : forall b o b' i k d, wf b -> not_yet b i k d -> sets k o = false -> sstep b o = Some b' -> not_yet b' i k d.
Proof.
  intros b o b' i k d W (A & B & Ln) Se H.
  assert (SF : forall bits p, N.testbit bits k = false -> set_from b bits p = Some b' -> not_yet b' i k d).
  { intros bits p T G. destruct (set_from_bit _ _ _ _ i k G T) as (P & Q & R). split; [|split].
    - intros m Hm Tm. destruct (P _ Hm) as (m0 & E0 & E1). rewrite R. apply (A m0); congruence.
    - intros u I V Tu. apply B; auto.
    - destruct (set_from_eq _ _ _ _ G) as (cl & b1 & E & F & ->). destruct (forward_frame _ _ _ _ F) as (Fr & _). destruct Fr as (_ & _ & _ & _ & _ & F6 & _).
      cbn [or_mask b_views]. rewrite F6. auto. }
  destruct o; cbn [sstep sets] in *; auto.
  - destruct (set_all_eq _ _ _ H) as (b1 & R & ->). destruct (receives_frame _ _ _ _ R) as (Fr & Y & M). destruct Fr as (_ & _ & _ & _ & F5 & F6 & _).
    split; [|split]; cbn [or_mask b_fly b_now b_views]; rewrite ?Y, ?F5, ?F6; auto.
    intros m Hm Tm. change (vm (or_mask b1 bits) i) with (vm b1 i) in Hm. rewrite M in Hm. destruct (inb i (concat (b_units b))); [|eauto].
    destruct (vm b i) as [m0|]; [|discriminate]. injection Hm as <-. rewrite N.lor_spec, Se, orb_false_r in Tm. eauto.
  - eauto.
  - destruct (nth_error (b_views b) i0) as [v|]; [|discriminate]. destruct (bits =? 0); [injection H as <-; repeat split; auto|]. eauto.
  - injection H as <-. destruct (clear_frame b bits) as (_ & _ & _ & _ & T & Y & _ & N & _ & M & _). split; [|split]; rewrite ?Y, ?T, ?N; auto.
    intros m Hm Tm. rewrite M in Hm. destruct (inb i (concat (b_units b))); [|eauto]. destruct (vm b i) as [m0|]; [|discriminate]. injection Hm as <-.
    rewrite N.ldiff_spec in Tm. apply andb_prop in Tm. eapply A; [eauto|apply Tm].
  - destruct (new_view_frame _ _ _ H) as (_ & _ & _ & _ & T & Y & _ & _ & _ & V & _). split; [|split]; rewrite ?Y, ?T; auto.
    + intros m Hm. apply A. unfold vm in *. rewrite V, nth_snoc in Hm. destruct (Nat.eqb_spec i (length (b_views b))); [lia|auto].
    + rewrite V, app_length. lia.
  - destruct (with_cbs_frame _ _ _ _ H) as (Fr & Y & _ & M). destruct Fr as (_ & _ & _ & _ & F5 & F6 & _). split; [|split]; rewrite ?Y, ?F5, ?F6; [intros m; rewrite M; apply A|exact B|exact Ln].
  - destruct (with_cbs_frame _ _ _ _ H) as (Fr & Y & _ & M). destruct Fr as (_ & _ & _ & _ & F5 & F6 & _). split; [|split]; rewrite ?Y, ?F5, ?F6; [intros m; rewrite M; apply A|exact B|exact Ln].
  - destruct (deliver_eq _ _ H) as (u & r & T & R). destruct (receive_frame _ _ _ _ R) as (Fr & Y & _ & _ & M). destruct Fr as (_ & _ & _ & _ & F5 & F6 & _).
    cbn [b_mask b_fly b_now b_views] in *. destruct (take_due_spec _ _ _ _ T) as (Du & Iu & Sub & Spl). split; [|split]; rewrite ?Y, ?F5, ?F6; auto.
    intros m Hm Tm. rewrite M in Hm. change (vm (mkB (b_mask b) (b_lat b) (b_views b) (b_units b) (b_cons b) r (b_now b) (b_log b)) i) with (vm b i) in Hm.
    destruct (Nat.eqb_spec (u_view u) i) as [Ev|]; [|eauto]. destruct (vm b i) as [m0|] eqn:Q; [|discriminate]. injection Hm as <-. rewrite N.lor_spec in Tm.
    apply orb_prop in Tm. destruct Tm as [Tm|Tm]; [eauto|]. rewrite <- Du. apply (B u); auto.
  - destruct (tick_eq _ _ H) as (T & ->). split; [|split]; auto. cbn [b_now]. intros m Hm Tm. pose proof (A m Hm Tm). lia.
Qed.
(** Bit [k] of view [i] is set or on its way for cycle [d]. *)
Definition coming (b : sb) (i : nat) (k d : N) : Prop :=
  (exists m, vm b i = Some m /\ N.testbit m k = true) \/ (exists u, In u (b_fly b) /\ u_view u = i /\ N.testbit (u_bits u) k = true /\ u_due u = d).
Lemma coming_step : forall b o b' i k d, wf b -> coming b i k d -> clears k o = false -> sstep b o = Some b' -> coming b' i k d.
Proof.
  intros b o b' i k d W Co Cl H.
  assert (SF : forall bits p, set_from b bits p = Some b' -> coming b' i k d).
  { intros bits p G. destruct (set_from_eq _ _ _ _ G) as (cl & b1 & E & F & ->). destruct (forward_frame _ _ _ _ F) as (Fr & Y & M).
    destruct Co as [(m & Hm & Tm)|(u & I & P)].
    - left. change (vm (or_mask b1 bits) i) with (vm b1 i). rewrite M, Hm. destruct (inb i (zeros cl)); [|eauto]. eexists; split; [reflexivity|]. rewrite N.lor_spec, Tm. auto.
    - right. exists u. cbn [or_mask b_fly]. rewrite Y. split; auto. apply in_or_app; auto. }
  destruct o; cbn [sstep clears] in *; eauto.
  - destruct (set_all_eq _ _ _ H) as (b1 & R & ->). destruct (receives_frame _ _ _ _ R) as (Fr & Y & M).
    destruct Co as [(m & Hm & Tm)|(u & I & P)].
    + left. change (vm (or_mask b1 bits) i) with (vm b1 i). rewrite M, Hm. destruct (inb i (concat (b_units b))); [|eauto]. eexists; split; [reflexivity|]. rewrite N.lor_spec, Tm. auto.
    + right. exists u. cbn [or_mask b_fly]. rewrite Y. auto.
  - destruct (nth_error (b_views b) i0) as [v|]; [|discriminate]. destruct (bits =? 0); [injection H as <-; auto|]. eauto.
  - injection H as <-. destruct (clear_frame b bits) as (_ & _ & _ & _ & T & Y & _ & N & _ & M & _). destruct Co as [(m & Hm & Tm)|(u & I & P)].
    + left. rewrite M, Hm. destruct (inb i (concat (b_units b))); [|eauto]. eexists; split; [reflexivity|]. rewrite N.ldiff_spec, Tm, Cl. auto.
    + right. exists u. rewrite Y. auto.
  - destruct (new_view_frame _ _ _ H) as (_ & _ & _ & _ & T & Y & _ & _ & _ & V & _). destruct Co as [(m & Hm & Tm)|(u0 & I & P)].
    + left. exists m. split; auto. pose proof (vm_lt _ _ _ Hm). unfold vm in *. rewrite V, nth_snoc. destruct (Nat.eqb_spec i (length (b_views b))); [lia|auto].
    + right. exists u0. rewrite Y. auto.
  - destruct (with_cbs_frame _ _ _ _ H) as (Fr & Y & _ & M). destruct Co as [(m & Hm & Tm)|(u & I & P)]; [left; exists m; rewrite M; auto|right; exists u; rewrite Y; auto].
  - destruct (with_cbs_frame _ _ _ _ H) as (Fr & Y & _ & M). destruct Co as [(m & Hm & Tm)|(u & I & P)]; [left; exists m; rewrite M; auto|right; exists u; rewrite Y; auto].
  - destruct (deliver_eq _ _ H) as (u & r & T & R). destruct (receive_frame _ _ _ _ R) as (Fr & Y & _ & Lv & M).
    cbn [b_mask b_fly b_now b_views] in *. destruct (take_due_spec _ _ _ _ T) as (Du & Iu & Sub & Spl).
    assert (G : forall m, vm b i = Some m -> N.testbit (if Nat.eqb (u_view u) i then N.lor m (u_bits u) else m) k = true -> coming b' i k d).
    { intros m Hm Tm. left. rewrite M. change (vm (mkB (b_mask b) (b_lat b) (b_views b) (b_units b) (b_cons b) r (b_now b) (b_log b)) i) with (vm b i). rewrite Hm.
      destruct (Nat.eqb (u_view u) i); simpl; eauto. }
    destruct Co as [(m & Hm & Tm)|(x & I & Vx & Tx & Dx)].
    + apply (G m Hm). destruct (Nat.eqb (u_view u) i); [rewrite N.lor_spec|]; rewrite Tm; auto.
    + destruct (Spl _ I) as [->|I']; [|right; exists x; rewrite Y; auto]. rewrite Vx in Lv. destruct (vm_some b i Lv) as (m & Hm). apply (G m Hm).
      rewrite Vx, Nat.eqb_refl, N.lor_spec, Tx. apply orb_true_r.
  - destruct (tick_eq _ _ H) as (T & ->). exact Co.
Qed.

(** Bits set by a producer reach a view after exactly the latency of the table. Not before: a bit not ready in the view and not otherwise on its
    way or set again stays not ready in all cycles before. *)
Theorem C27_not_before : forall t b0 ops0 b bits p b1 ops b2 i v row lat k v2,
  b_init t = Some b0 -> srun b0 ops0 = Some b -> sstep b (SSetFrom bits p) = Some b1 -> srun b1 ops = Some b2 ->
  nth_error (b_views b) i = Some v -> nth_error (b_lat b) p = Some row -> nth_error row (N.to_nat (v_unit v)) = Some lat ->
  N.testbit (v_mask v) k = false -> on_way (b_fly b) i k = false -> existsb (sets k) ops = false ->
  b_now b2 < b_now b + lat -> nth_error (b_views b2) i = Some v2 -> N.testbit (v_mask v2) k = false.
Proof.
  intros t b0 ops0 b bits p b1 ops b2 i v row lat k v2 H0 R0 S1 R2 Ev Er El Kv Ko Kn Lt E2.
  assert (W : wf b) by (eapply wf_run; [eapply wf_init|]; eauto). assert (W1 : wf b1) by (eapply wf_step; eauto).
  assert (V : vu b i = Some (v_unit v)) by (unfold vu; rewrite Ev; auto).
  assert (Vm : vm b i = Some (v_mask v)) by (unfold vm; rewrite Ev; auto).
  assert (NY : not_yet b1 i k (b_now b + lat)).
  { cbn [sstep] in S1. destruct (set_from_eq _ _ _ _ S1) as (cl & b' & E & F & ->). destruct (forward_frame _ _ _ _ F) as (Fr & Y & M). destruct Fr as (_ & _ & _ & _ & F5 & F6 & _).
    assert (Q : forall l, In (i, l) cl -> l = lat).
    { intros l I. destruct (w_from _ W p row cl i l Er E I) as (u & A & B). congruence. }
    split; [|split]; cbn [or_mask b_fly b_now b_views]; rewrite ?Y, ?F5, ?F6.
    - intros m Hm Tm. change (vm (or_mask b' bits) i) with (vm b' i) in Hm. rewrite M, Vm in Hm. destruct (inb i (zeros cl)) eqn:Z.
      + apply inb_in, in_zeros in Z. rewrite <- (Q _ Z). lia.
      + injection Hm as <-. congruence.
    - intros u I Vu Tu. apply in_app_or in I. destruct I as [I|I].
      + exfalso. assert (on_way (b_fly b) i k = true) by (apply on_way_true; eauto). congruence.
      + apply in_sent in I. destruct I as (j & l & I & _ & ->). cbn in *. subst j. rewrite (Q _ I). lia.
    - apply nth_error_Some. congruence. }
  assert (G : not_yet b2 i k (b_now b + lat)).
  { clear - W1 NY R2 Kn. revert b1 W1 NY R2. induction ops as [|o ops IH]; intros b1 W1 NY R2; simpl in R2; [injection R2 as <-; auto|].
    simpl in Kn. apply orb_false_iff in Kn. destruct Kn as [K1 K2]. destruct (sstep b1 o) as [b'|] eqn:E; [|discriminate].
    apply (IH K2 b'); auto; [eapply wf_step; eauto|eapply not_yet_step; eauto]. }
  destruct (N.testbit (v_mask v2) k) eqn:T; auto. destruct G as (G & _). specialize (G (v_mask v2)). unfold vm in G. rewrite E2 in G. specialize (G eq_refl T). lia.
Qed.
Print Assumptions C27_not_before.
(** Not after: unless it is cleared in the meantime the bit is ready in all later cycles, and in the very cycle as soon as the updates due in it
    have been delivered. *)
Theorem C27_not_after : forall t b0 ops0 b bits p b1 ops b2 i v row lat k v2,
  b_init t = Some b0 -> srun b0 ops0 = Some b -> sstep b (SSetFrom bits p) = Some b1 -> srun b1 ops = Some b2 ->
  nth_error (b_views b) i = Some v -> nth_error (b_lat b) p = Some row -> nth_error row (N.to_nat (v_unit v)) = Some lat -> lat <> no_latency ->
  N.testbit bits k = true -> existsb (clears k) ops = false ->
  (b_now b + lat < b_now b2 \/ (b_now b + lat = b_now b2 /\ forall u, In u (b_fly b2) -> u_due u <> b_now b2)) ->
  nth_error (b_views b2) i = Some v2 -> N.testbit (v_mask v2) k = true.
Proof.
  intros t b0 ops0 b bits p b1 ops b2 i v row lat k v2 H0 R0 S1 R2 Ev Er El Ne Kb Kn Lt E2.
  assert (W : wf b) by (eapply wf_run; [eapply wf_init|]; eauto). assert (W1 : wf b1) by (eapply wf_step; eauto).
  assert (V : vu b i = Some (v_unit v)) by (unfold vu; rewrite Ev; auto).
  assert (Vm : vm b i = Some (v_mask v)) by (unfold vm; rewrite Ev; auto).
  assert (NY : coming b1 i k (b_now b + lat)).
  { cbn [sstep] in S1. destruct (set_from_eq _ _ _ _ S1) as (cl & b' & E & F & ->). destruct (forward_frame _ _ _ _ F) as (Fr & Y & M).
    pose proof (w_to _ W p row cl i _ lat Er E V El Ne) as I. destruct (N.eq_dec lat 0) as [->|Nz].
    - left. change (vm (or_mask b' bits) i) with (vm b' i). rewrite M, Vm, (proj2 (inb_in _ _) (proj2 (in_zeros _ _) I)). eexists; split; [reflexivity|].
      rewrite N.lor_spec, Kb. apply orb_true_r.
    - right. exists (mkU (b_now b + lat) i bits). cbn [or_mask b_fly]. rewrite Y. split; auto. apply in_or_app; right. apply in_sent. eauto. }
  assert (G : coming b2 i k (b_now b + lat)).
  { clear - W1 NY R2 Kn. revert b1 W1 NY R2. induction ops as [|o ops IH]; intros b1 W1 NY R2; simpl in R2; [injection R2 as <-; auto|].
    simpl in Kn. apply orb_false_iff in Kn. destruct Kn as [K1 K2]. destruct (sstep b1 o) as [b'|] eqn:E; [|discriminate].
    apply (IH K2 b'); auto; [eapply wf_step; eauto|eapply coming_step; eauto]. }
  destruct G as [(m & Hm & Tm)|(u & I & _ & _ & D)].
  - unfold vm in Hm. rewrite E2 in Hm. injection Hm as <-. auto.
  - assert (W2 : wf b2) by (eapply wf_run; eauto). destruct (w_fly _ W2 u I) as [_ X]. destruct Lt as [Lt|[Lt Q]]; [lia|]. exfalso. apply (Q u I). lia.
Qed.
Print Assumptions C27_not_after.
(** Unit 0 sets bit 40; the view of unit 1 has it after two cycles, not after one. *)
Example C27_latency_ex :
  match b_init ex_table with
  | Some b0 =>
      match srun b0 [SView 0; SView 1; SSetFrom (2 ^ 40) 0], srun b0 [SView 0; SView 1; SSetFrom (2 ^ 40) 0; STick], srun b0 [SView 0; SView 1; SSetFrom (2 ^ 40) 0; STick; STick; SDeliver] with
      | Some b1, Some b2, Some b3 =>
          map (fun b => map (fun v => is_set (v_mask v) (2 ^ 40)) (b_views b)) [b1; b2; b3] = [[true; false]; [true; false]; [true; true]] /\ is_set (b_mask b1) (2 ^ 40) = true
      | _, _, _ => False end
  | None => False end.
Proof. vm_compute. auto. Qed.

(** ** The callbacks. *)

(** The callbacks waiting, with the view they wait in. *)
Fixpoint pend_from (j : nat) (vs : list view) : list (nat * cb) :=
  match vs with [] => [] | v :: r => map (pair j) (v_cbs v) ++ pend_from (S j) r end.
Definition pending (b : sb) : list (nat * cb) := pend_from 0 (b_views b).
Definition called (b : sb) : list (nat * cb) := map (fun k => (k_view k, k_cb k)) (b_log b).
(** The callbacks registered by the calls. *)
Definition registered (ops : list sop) : list (nat * cb) := flat_map (fun o => match o with SCallback i bits inst id => [(i, mkCb bits inst id)] | _ => [] end) ops.

Lemma pend_split : forall vs j i v, nth_error vs i = Some v -> exists A B, pend_from j vs = A ++ map (pair (j + i)%nat) (v_cbs v) ++ B /\
  forall v', pend_from j (put vs i v') = A ++ map (pair (j + i)%nat) (v_cbs v') ++ B.
Proof.
  induction vs as [|w vs IH]; intros j [|i] v H; simpl in H; try discriminate.
  - injection H as <-. exists [], (pend_from (S j) vs). simpl. rewrite Nat.add_0_r. auto.
  - destruct (IH (S j) i v H) as (A & B & E & F). exists (map (pair j) (v_cbs w) ++ A), B. simpl.
    replace (j + S i)%nat with (S j + i)%nat by lia. split; [rewrite E, <- app_assoc; reflexivity|]. intro v'. rewrite F, <- app_assoc. reflexivity.
Qed.
Lemma pend_in : forall vs j i c, In (i, c) (pend_from j vs) <-> exists n v, i = (j + n)%nat /\ nth_error vs n = Some v /\ In c (v_cbs v).
Proof.
  induction vs as [|w vs IH]; intros j i c; simpl.
  - split; [intros []|]. intros (n & v & _ & H & _). destruct n; discriminate.
  - rewrite in_app_iff, in_map_iff, IH. split.
    + intros [(x & E & I)|(n & v & E & H & I)]; [injection E as <- <-; exists 0%nat, w; split; [lia|auto]|exists (S n), v; split; [lia|auto]].
    + intros (n & v & E & H & I). destruct n as [|n]; simpl in H; [injection H as <-; left; exists c; split; auto; f_equal; lia|].
      right. exists n, v. split; [lia|auto].
Qed.
Lemma ready_cbs_eq : forall m l, ready_cbs m l = (filter (fun c => negb (is_set m (c_need c))) l, filter (fun c => is_set m (c_need c)) l).
Proof. induction l as [|c l IH]; simpl; auto. rewrite IH. destruct (is_set m (c_need c)); reflexivity. Qed.
Lemma filter_perm : forall A (f : A -> bool) l, Permutation l (filter f l ++ filter (fun x => negb (f x)) l).
Proof.
  induction l as [|a l IH]; simpl; [constructor|]. destruct (f a); simpl; [constructor; auto|]. apply Permutation_cons_app. auto.
Qed.
Lemma receive_ledger : forall b i bits b', receive b i bits = Some b' -> Permutation (called b ++ pending b) (called b' ++ pending b').
Proof.
  intros b i bits b' H. destruct (receive_eq _ _ _ _ H) as (v & E & _ & ->). unfold called, pending. cbn [b_log b_views].
  destruct (pend_split (b_views b) 0 i v E) as (A & B & P & Q). rewrite P, Q. cbn [v_cbs Nat.add]. rewrite ready_cbs_eq. cbn [fst snd].
  rewrite map_app, map_map, <- app_assoc. apply Permutation_app_head. cbn [k_view k_cb].
  set (m := N.lor (v_mask v) bits). rewrite !app_assoc. apply Permutation_app_tail.
  rewrite (Permutation_map (pair i) (filter_perm _ (fun c => is_set m (c_need c)) (v_cbs v))) at 1. rewrite map_app, !app_assoc. apply Permutation_app_tail. apply Permutation_app_comm.
Qed.
Lemma receives_ledger : forall l b bits b', receives b l bits = Some b' -> Permutation (called b ++ pending b) (called b' ++ pending b').
Proof.
  induction l as [|i l IH]; intros b bits b' H; simpl in H; [injection H as <-; auto|]. destruct (receive b i bits) as [b1|] eqn:E; [|discriminate].
  rewrite (receive_ledger _ _ _ _ E). eauto.
Qed.
Lemma forward_ledger : forall l b bits b', forward b l bits = Some b' -> Permutation (called b ++ pending b) (called b' ++ pending b').
Proof.
  induction l as [|[i lat] l IH]; intros b bits b' H; simpl in H; [injection H as <-; auto|]. destruct (lat =? 0).
  - destruct (receive b i bits) as [b1|] eqn:E; [|discriminate]. rewrite (receive_ledger _ _ _ _ E). eauto.
  - apply IH in H. exact H.
Qed.
Lemma set_from_ledger : forall b bits p b', set_from b bits p = Some b' -> Permutation (called b ++ pending b) (called b' ++ pending b').
Proof. intros b bits p b' H. destruct (set_from_eq _ _ _ _ H) as (cl & b1 & E & F & ->). apply (forward_ledger _ _ _ _ F). Qed.
Lemma pend_cbs : forall vs vs' j, (forall i, option_map v_cbs (nth_error vs' i) = option_map v_cbs (nth_error vs i)) -> pend_from j vs' = pend_from j vs.
Proof.
  induction vs as [|v vs IH]; intros vs' j H.
  - destruct vs' as [|w vs']; auto. specialize (H 0%nat). discriminate.
  - destruct vs' as [|w vs']; [specialize (H 0%nat); discriminate|]. simpl. f_equal; [specialize (H 0%nat); injection H as ->; auto|].
    apply IH. intro i. apply (H (S i)).
Qed.
Lemma pend_snoc : forall vs j u m, pend_from j (vs ++ [mkV u m []]) = pend_from j vs.
Proof. induction vs as [|v vs IH]; intros; simpl; auto. rewrite IH. auto. Qed.
(** One step: what is called or waiting afterwards, and what was dropped. *)
Lemma step_ledger : forall b o b', sstep b o = Some b' -> exists gone, Permutation (called b ++ pending b ++ registered [o]) (called b' ++ pending b' ++ gone) /\
  forall i c, In (i, c) gone -> o = SClearCb i (c_inst c).
Proof.
  assert (Z : forall b b', Permutation (called b ++ pending b) (called b' ++ pending b') -> Permutation (called b ++ pending b ++ []) (called b' ++ pending b' ++ [])).
  { intros. rewrite !app_nil_r. auto. }
  intros b o b' H. destruct o; cbn [sstep] in H; try (match type of H with with_cbs _ _ _ = _ => fail 1 | _ => idtac end; exists []; split; [apply Z|intros ? ? []]); cbn [registered flat_map app].
  - destruct (set_all_eq _ _ _ H) as (b1 & R & ->). apply (receives_ledger _ _ _ _ R).
  - eapply set_from_ledger; eauto.
  - destruct (nth_error (b_views b) i); [|discriminate]. destruct (bits =? 0); [injection H as <-; auto|]. eapply set_from_ledger; eauto.
  - injection H as <-. destruct (clear_frame b bits) as (_ & _ & _ & _ & _ & _ & Lo & _ & _ & _ & K). unfold called, pending. rewrite Lo, (pend_cbs _ _ 0 K). auto.
  - destruct (new_view_frame _ _ _ H) as (_ & _ & _ & _ & _ & _ & Lo & _ & _ & V & _). unfold called, pending. rewrite Lo, V, pend_snoc. auto.
  - exists []. split; [|intros ? ? []]. destruct (with_cbs_eq _ _ _ _ H) as (v & E & ->). unfold called, pending. cbn [b_log b_views].
    destruct (pend_split (b_views b) 0 i v E) as (A & B & P & Q). rewrite P, Q. cbn [v_cbs Nat.add]. rewrite app_nil_r. apply Permutation_app_head.
    rewrite map_app, <- !app_assoc. apply Permutation_app_head. apply Permutation_app_head. apply Permutation_app_comm.
  - destruct (with_cbs_eq _ _ _ _ H) as (v & E & ->). exists (map (pair i) (filter (fun c => c_inst c =? inst) (v_cbs v))). split.
    + unfold called, pending. cbn [b_log b_views]. destruct (pend_split (b_views b) 0 i v E) as (A & B & P & Q). rewrite P, Q. cbn [v_cbs Nat.add].
      rewrite app_nil_r. apply Permutation_app_head. rewrite <- app_assoc. apply Permutation_app_head.
      rewrite (Permutation_map (pair i) (filter_perm _ (fun c => c_inst c =? inst) (v_cbs v))) at 1. rewrite map_app, <- app_assoc.
      rewrite Permutation_app_comm, <- app_assoc. reflexivity.
    + intros j c I. apply in_map_iff in I. destruct I as (x & Ex & I). injection Ex as <- <-. apply filter_In in I. destruct I as [_ I]. apply N.eqb_eq in I. congruence.
  - destruct (deliver_eq _ _ H) as (u & r & T & R). apply (receive_ledger _ _ _ _ R).
  - destruct (tick_eq _ _ H) as (T & ->). reflexivity.
Qed.

(** Every registered callback is, after any sequence of calls, invoked once, or waiting in its view once, or dropped by a clearCallbacks of its
    instruction in its view; what is invoked was registered with that view. *)
Theorem C27_callback_once : forall t b0 ops b, b_init t = Some b0 -> srun b0 ops = Some b ->
  exists gone, Permutation (registered ops) (called b ++ pending b ++ gone) /\ forall i c, In (i, c) gone -> In (SClearCb i (c_inst c)) ops.
Proof.
  intros t b0 ops b H0 H.
  assert (G : forall ops b0 b, srun b0 ops = Some b -> exists gone, Permutation (called b0 ++ pending b0 ++ registered ops) (called b ++ pending b ++ gone) /\
    forall i c, In (i, c) gone -> In (SClearCb i (c_inst c)) ops).
  { clear. induction ops as [|o ops IH]; intros b0 b H; simpl in H.
    - injection H as <-. exists []. split; [reflexivity|intros ? ? []].
    - destruct (sstep b0 o) as [b1|] eqn:E; [|discriminate]. destruct (step_ledger _ _ _ E) as (g1 & P1 & Q1). destruct (IH _ _ H) as (g2 & P2 & Q2).
      exists (g2 ++ g1). split.
      + change (registered (o :: ops)) with (registered ([o] ++ ops)). unfold registered at 1. rewrite flat_map_app. fold (registered [o]). fold (registered ops).
        rewrite !app_assoc. rewrite <- (app_assoc (called b0)). rewrite P1. rewrite <- !app_assoc. rewrite (Permutation_app_comm g1).
        rewrite !app_assoc. apply Permutation_app_tail. rewrite <- !app_assoc. exact P2.
      + intros i c I. apply in_app_or in I. destruct I as [I|I]; [right; auto|]. left. apply Q1. exact I. }
  destruct (G _ _ _ H) as (gone & P & Q). exists gone. split; auto.
  unfold b_init in H0. destruct (forallb _ t); [|discriminate]. injection H0 as <-. exact P.
Qed.
Print Assumptions C27_callback_once.
(** In a sequence that registers every callback once, a callback is invoked at most once, and one that was invoked does not wait any more. *)
Theorem C27_callback_at_most_once : forall t b0 ops b, b_init t = Some b0 -> srun b0 ops = Some b -> NoDup (registered ops) ->
  NoDup (called b) /\ (forall x, In x (called b) -> In x (registered ops) /\ ~ In x (pending b)).
Proof.
  intros t b0 ops b H0 H N. destruct (C27_callback_once _ _ _ _ H0 H) as (g & P & _). pose proof (Permutation_NoDup P N) as D. split.
  - clear - D. induction (called b) as [|a l IH]; [constructor|]. simpl in D. inversion D; subst. constructor; [intro I; apply H1, in_or_app; auto|auto].
  - intros x I. split; [apply (Permutation_in _ (Permutation_sym P)), in_or_app; auto|]. intro J.
    clear - D I J. induction (called b) as [|a l IH]; [destruct I|]. simpl in D. inversion D; subst. destruct I as [->|I]; auto. apply H1. apply in_or_app; right. apply in_or_app; auto.
Qed.
Print Assumptions C27_callback_at_most_once.

(** A run whose waiting callbacks are called as their bits come. *)
Definition cb_ops : list sop :=
  [SView 0; SView 1; SCallback 1 (3 * 2 ^ 40) 7 100; SCallback 1 (2 ^ 50) 8 101; SReady 0 (2 ^ 40); STick; SReady 1 (2 ^ 41); STick; SDeliver; SDeliver; SClearCb 1 8].
Example C27_callback_once_ex :
  match b_init ex_table with
  | Some b0 => match srun b0 cb_ops with
      | Some b => called b = [(1%nat, mkCb (3 * 2 ^ 40) 7 100)] /\ map k_cycle (b_log b) = [2] /\ pending b = [] /\ registered cb_ops = [(1%nat, mkCb (3 * 2 ^ 40) 7 100); (1%nat, mkCb (2 ^ 50) 8 101)]
      | None => False end
  | None => False end /\ NoDup (registered cb_ops).
Proof. split; [vm_compute; auto|]. repeat constructor; simpl; intuition discriminate. Qed.

(** The masks of the views only grow and what is called is ready. *)
Definition grows (b b' : sb) : Prop :=
  exists new, b_log b' = b_log b ++ new /\ (forall i m, vm b i = Some m -> exists m', vm b' i = Some (N.lor m m')) /\
  forall k, In k new -> k_cycle k = b_now b /\ exists m, vm b' (k_view k) = Some m /\ is_set m (c_need (k_cb k)) = true.
Lemma is_set_lor : forall m x n, is_set m n = true -> is_set (N.lor m x) n = true.
Proof.
  unfold is_set. intros m x n H. apply N.eqb_eq in H. apply N.eqb_eq. apply N.bits_inj. intro k. rewrite N.land_spec, N.lor_spec.
  rewrite <- H. rewrite N.land_spec. destruct (N.testbit m k), (N.testbit x k), (N.testbit n k); auto.
Qed.
Lemma grows_refl : forall b, grows b b.
Proof. intro b. exists []. rewrite app_nil_r. split; auto. split; [|intros ? []]. intros i m H. exists 0. rewrite N.lor_0_r. auto. Qed.
Lemma grows_trans : forall a b c, b_now b = b_now a -> grows a b -> grows b c -> grows a c.
Proof.
  intros a b c T (n1 & L1 & M1 & K1) (n2 & L2 & M2 & K2). exists (n1 ++ n2). rewrite L2, L1, app_assoc. split; auto. split.
  - intros i m H. destruct (M1 _ _ H) as (x & Hx). destruct (M2 _ _ Hx) as (y & Hy). exists (N.lor x y). rewrite N.lor_assoc. auto.
  - intros k I. apply in_app_or in I. destruct I as [I|I].
    + destruct (K1 _ I) as (A & m & Hm & S). split; auto. destruct (M2 _ _ Hm) as (y & Hy). exists (N.lor m y). split; auto. apply is_set_lor; auto.
    + destruct (K2 _ I) as (A & P). split; [congruence|auto].
Qed.
Lemma receive_grows : forall b i bits b', receive b i bits = Some b' -> grows b b'.
Proof.
  intros b i bits b' H. pose proof (receive_frame _ _ _ _ H) as (_ & _ & _ & _ & M). destruct (receive_eq _ _ _ _ H) as (v & E & _ & Eb).
  rewrite Eb in *. clear Eb. eexists. split; [reflexivity|]. split.
  - intros j m Hm. rewrite M, Hm. destruct (Nat.eqb i j); [exists bits; auto|]. exists 0. rewrite N.lor_0_r. auto.
  - intros k I. apply in_map_iff in I. destruct I as (c & <- & I). rewrite ready_cbs_eq in I. cbn [snd] in I. apply filter_In in I. split; [reflexivity|].
    cbn [k_view k_cb]. rewrite M, Nat.eqb_refl. unfold vm. rewrite E. cbn [option_map]. eexists. split; [reflexivity|apply I].
Qed.
Lemma receives_grows : forall l b bits b', receives b l bits = Some b' -> grows b b'.
Proof.
  induction l as [|i l IH]; intros b bits b' H; simpl in H; [injection H as <-; apply grows_refl|]. destruct (receive b i bits) as [b1|] eqn:E; [|discriminate].
  apply grows_trans with b1; [|eapply receive_grows; eauto|eauto]. apply receive_frame in E. destruct E as ((_ & _ & _ & _ & T & _) & _). auto.
Qed.
Lemma forward_grows : forall l b bits b', forward b l bits = Some b' -> grows b b'.
Proof.
  induction l as [|[i lat] l IH]; intros b bits b' H; simpl in H; [injection H as <-; apply grows_refl|]. destruct (lat =? 0).
  - destruct (receive b i bits) as [b1|] eqn:E; [|discriminate].
    apply grows_trans with b1; [|eapply receive_grows; eauto|eauto]. apply receive_frame in E. destruct E as ((_ & _ & _ & _ & T & _) & _). auto.
  - apply IH in H. exact H.
Qed.
(** A call invokes callbacks only in the current cycle and only those whose bits are all ready in their view. *)
Theorem C27_called_ready : forall b o b', sstep b o = Some b' -> exists new, b_log b' = b_log b ++ new /\
  forall k, In k new -> k_cycle k = b_now b /\ exists v, nth_error (b_views b') (k_view k) = Some v /\ is_set (v_mask v) (c_need (k_cb k)) = true.
Proof.
  assert (G : forall b b', grows b b' -> exists new, b_log b' = b_log b ++ new /\
    forall k, In k new -> k_cycle k = b_now b /\ exists v, nth_error (b_views b') (k_view k) = Some v /\ is_set (v_mask v) (c_need (k_cb k)) = true).
  { intros b b' (new & L & _ & K). exists new. split; auto. intros k I. destruct (K k I) as (T & m & Hm & S). split; auto. unfold vm in Hm.
    destruct (nth_error (b_views b') (k_view k)) as [v|]; [|discriminate]. injection Hm as <-. eauto. }
  assert (Z : forall b b', b_log b' = b_log b -> exists new, b_log b' = b_log b ++ new /\
    forall k, In k new -> k_cycle k = b_now b /\ exists v, nth_error (b_views b') (k_view k) = Some v /\ is_set (v_mask v) (c_need (k_cb k)) = true).
  { intros b b' E. exists []. rewrite app_nil_r. split; auto. intros ? []. }
  assert (SF : forall b bits p b', set_from b bits p = Some b' -> exists new, b_log b' = b_log b ++ new /\
    forall k, In k new -> k_cycle k = b_now b /\ exists v, nth_error (b_views b') (k_view k) = Some v /\ is_set (v_mask v) (c_need (k_cb k)) = true).
  { intros b bits p b' H. destruct (set_from_eq _ _ _ _ H) as (cl & b1 & _ & F & ->). apply (G b b1). eapply forward_grows; eauto. }
  intros b o b' H. destruct o; cbn [sstep] in H.
  - destruct (set_all_eq _ _ _ H) as (b1 & R & ->). apply (G b b1). eapply receives_grows; eauto.
  - eapply SF; eauto.
  - destruct (nth_error (b_views b) i); [|discriminate]. destruct (bits =? 0); [injection H as <-; auto|]. eapply SF; eauto.
  - injection H as <-. apply Z. reflexivity.
  - apply Z. apply (new_view_frame _ _ _ H).
  - apply Z. apply (with_cbs_frame _ _ _ _ H).
  - apply Z. apply (with_cbs_frame _ _ _ _ H).
  - destruct (deliver_eq _ _ H) as (u & r & T & R). apply (G _ _ (receive_grows _ _ _ _ R)).
  - apply Z. destruct (tick_eq _ _ H) as (T & ->). reflexivity.
Qed.
Print Assumptions C27_called_ready.
Example C27_called_ready_ex :
  match b_init ex_table with
  | Some b0 => match srun b0 (firstn 8 cb_ops) with
      | Some b => match sstep b SDeliver with Some b' => b_log b = [] /\ map (fun k => (k_cycle k, k_bits k)) (b_log b') = [(2, 2 ^ 40)] | None => False end
      | None => False end
  | None => False end.
Proof. vm_compute. auto. Qed.

(** Nothing that waits in the view under [id] is ready. *)
Definition waits (b : sb) (id : N) : Prop := forall i v c, nth_error (b_views b) i = Some v -> In c (v_cbs v) -> c_id c = id -> is_set (v_mask v) (c_need c) = false.
Lemma receive_waits : forall b i bits b' id, receive b i bits = Some b' -> waits b id -> waits b' id.
Proof.
  intros b i bits b' id H Wt j w c E I Id. destruct (receive_eq _ _ _ _ H) as (v & Ev & _ & ->). cbn [b_views] in E. rewrite put_nth in E.
  destruct (Nat.eqb_spec i j) as [->|]; [|eapply Wt; eauto]. rewrite Ev in E. injection E as <-. cbn [v_cbs v_mask] in *. rewrite ready_cbs_eq in I.
  cbn [fst] in I. apply filter_In in I. destruct I as [_ I]. apply negb_true_iff in I. auto.
Qed.
Lemma receives_waits : forall l b bits b' id, receives b l bits = Some b' -> waits b id -> waits b' id.
Proof.
  induction l as [|i l IH]; intros b bits b' id H Wt; simpl in H; [injection H as <-; auto|]. destruct (receive b i bits) as [b1|] eqn:E; [|discriminate].
  eapply IH; eauto. eapply receive_waits; eauto.
Qed.
Lemma forward_waits : forall l b bits b' id, forward b l bits = Some b' -> waits b id -> waits b' id.
Proof.
  induction l as [|[i lat] l IH]; intros b bits b' id H Wt; simpl in H; [injection H as <-; auto|]. destruct (lat =? 0).
  - destruct (receive b i bits) as [b1|] eqn:E; [|discriminate]. eapply IH; eauto. eapply receive_waits; eauto.
  - eapply IH; eauto.
Qed.
Lemma set_from_waits : forall b bits p b' id, set_from b bits p = Some b' -> waits b id -> waits b' id.
Proof. intros b bits p b' id H Wt. destruct (set_from_eq _ _ _ _ H) as (cl & b1 & _ & F & ->). exact (forward_waits _ _ _ _ _ F Wt). Qed.
Definition registers (id : N) (o : sop) : bool := match o with SCallback _ _ _ x => x =? id | _ => false end.
Lemma is_set_ldiff : forall m x n, is_set m n = false -> is_set (N.ldiff m x) n = false.
Proof.
  intros m x n H. destruct (is_set (N.ldiff m x) n) eqn:E; auto. rewrite <- H. symmetry. unfold is_set in *. apply N.eqb_eq in E. apply N.eqb_eq.
  apply N.bits_inj. intro k. assert (Q : N.testbit (N.land (N.ldiff m x) n) k = N.testbit n k) by (rewrite E; auto). rewrite N.land_spec, N.ldiff_spec in Q. rewrite N.land_spec.
  destruct (N.testbit m k), (N.testbit x k), (N.testbit n k); auto.
Qed.
Lemma waits_step : forall b o b' id, wf b -> sstep b o = Some b' -> registers id o = false -> waits b id -> waits b' id.
Proof.
  intros b o b' id W H Rg Wt. destruct o; cbn [sstep registers] in *.
  - destruct (set_all_eq _ _ _ H) as (b1 & R & ->). exact (receives_waits _ _ _ _ _ R Wt).
  - eapply set_from_waits; eauto.
  - destruct (nth_error (b_views b) i); [|discriminate]. destruct (bits =? 0); [injection H as <-; auto|]. eapply set_from_waits; eauto.
  - injection H as <-. destruct (clear_frame b bits) as (_ & _ & _ & _ & _ & _ & _ & _ & _ & M & K). intros i v c E I Id.
    specialize (M i). specialize (K i). unfold vm in M. rewrite E in M, K. cbn [option_map] in M, K. destruct (nth_error (b_views b) i) as [v0|] eqn:E0; [|discriminate].
    cbn [option_map] in *. injection K as K. rewrite K in I. pose proof (Wt i v0 c E0 I Id) as Q. destruct (inb i (concat (b_units b))); injection M as ->; auto. apply is_set_ldiff; auto.
  - destruct (new_view_frame _ _ _ H) as (_ & _ & _ & _ & _ & _ & _ & _ & _ & V & _). intros i v c E I Id. rewrite V, nth_snoc in E.
    destruct (Nat.eqb i (length (b_views b))); [|eapply Wt; eauto]. apply (f_equal (option_map v_cbs)) in E. cbn [option_map v_cbs] in E. rewrite <- (f_equal (fun o => match o with Some x => x | None => v_cbs v end) E) in I. destruct I.
  - destruct (with_cbs_eq _ _ _ _ H) as (v & Ev & ->). intros j w c E I Id. cbn [b_views] in E. rewrite put_nth in E. destruct (Nat.eqb_spec i j) as [->|]; [|eapply Wt; eauto].
    rewrite Ev in E. injection E as <-. cbn [v_cbs v_mask] in *. apply in_app_or in I. destruct I as [I|[<-|[]]]; [eapply Wt; eauto|]. cbn in Id. apply N.eqb_neq in Rg. congruence.
  - destruct (with_cbs_eq _ _ _ _ H) as (v & Ev & ->). intros j w c E I Id. cbn [b_views] in E. rewrite put_nth in E. destruct (Nat.eqb_spec i j) as [->|]; [|eapply Wt; eauto].
    rewrite Ev in E. injection E as <-. cbn [v_cbs v_mask] in *. apply filter_In in I. destruct I as [I _]. eapply Wt; eauto.
  - destruct (deliver_eq _ _ H) as (u & r & T & R). eapply receive_waits; eauto.
  - destruct (tick_eq _ _ H) as (T & ->). exact Wt.
Qed.

(** A callback registered while its bits are not all ready does not wait any longer than until they are: while it waits, they are not all ready in
    its view. With [C27_callback_once] it has therefore been invoked, unless it was cleared, as soon as they have been. *)
Theorem C27_called_at_once : forall t b0 ops1 b1 i bits inst id ops2 b v v1 c,
  b_init t = Some b0 -> srun b0 ops1 = Some b1 -> existsb (registers id) (ops1 ++ ops2) = false ->
  nth_error (b_views b1) i = Some v1 -> is_set (v_mask v1) bits = false ->
  srun b1 (SCallback i bits inst id :: ops2) = Some b -> nth_error (b_views b) i = Some v -> In c (v_cbs v) -> c_id c = id -> is_set (v_mask v) (c_need c) = false.
Proof.
  intros t b0 ops1 b1 i bits inst id ops2 b v v1 c H0 R1 Rg E1 S1 R E I Id.
  rewrite existsb_app in Rg. apply orb_false_iff in Rg. destruct Rg as [G1 G2].
  assert (RW : forall ops b b', wf b -> existsb (registers id) ops = false -> srun b ops = Some b' -> waits b id -> waits b' id).
  { clear. induction ops as [|o ops IH]; intros b b' W Rg H Wt; simpl in H; [injection H as <-; auto|]. simpl in Rg. apply orb_false_iff in Rg. destruct Rg as [A B].
    destruct (sstep b o) as [b1|] eqn:E; [|discriminate]. apply (IH b1); auto; [eapply wf_step|eapply waits_step]; eauto. }
  assert (W0 : wf b0) by (eapply wf_init; eauto).
  assert (Wi : waits b0 id).
  { unfold b_init in H0. destruct (forallb _ t); [|discriminate]. injection H0 as <-. intros j w c' X. destruct j; discriminate. }
  pose proof (RW _ _ _ W0 G1 R1 Wi) as W1. pose proof (wf_run _ _ _ W0 R1) as F1. cbn [srun] in R. destruct (sstep b1 (SCallback i bits inst id)) as [b2|] eqn:S2; [|discriminate].
  assert (W2 : waits b2 id).
  { cbn [sstep] in S2. destruct (with_cbs_eq _ _ _ _ S2) as (v0 & Ev & ->). rewrite E1 in Ev. injection Ev as <-. intros j w c' X J Jd. cbn [b_views] in X. rewrite put_nth in X.
    destruct (Nat.eqb_spec i j) as [->|]; [|eapply W1; eauto]. rewrite E1 in X. injection X as <-. cbn [v_cbs v_mask] in *.
    apply in_app_or in J. destruct J as [J|[<-|[]]]; [eapply W1; eauto|exact S1]. }
  exact (RW _ _ _ (wf_step _ _ _ F1 S2) G2 R W2 i v c E I Id).
Qed.
Print Assumptions C27_called_at_once.
Example C27_called_at_once_ex :
  match b_init ex_table with
  | Some b0 => match srun b0 (firstn 2 cb_ops) with
      | Some b1 => option_map (fun v => is_set (v_mask v) (3 * 2 ^ 40)) (nth_error (b_views b1) 1) = Some false /\
          match srun b1 (skipn 2 (firstn 8 cb_ops)) with Some b => existsb (fun x => c_id (snd x) =? 100) (pending b) = true | None => False end
      | None => False end
  | None => False end.
Proof. vm_compute. auto. Qed.
(** A callback registered when its bits are already ready is not invoked, then or later, until some update reaches the view. *)
Theorem C27_already_ready_refuted : ~ (forall t b0 ops b i v c, b_init t = Some b0 -> srun b0 ops = Some b -> nth_error (b_views b) i = Some v -> In c (v_cbs v) -> is_set (v_mask v) (c_need c) = false).
Proof.
  intro H. set (ops := [SView 0; SCallback 0 1 7 100; STick; STick]) in *.
  assert (X : match b_init ex_table with Some b0 => match srun b0 ops with
              Some b => b_views b = [mkV 0 (2 ^ 32 - 1) [mkCb 1 7 100]] | None => False end | None => False end) by (vm_compute; auto).
  destruct (b_init ex_table) as [b0|] eqn:E; [|destruct X]. destruct (srun b0 ops) as [b|] eqn:R; [|destruct X].
  assert (Q : is_set (2 ^ 32 - 1) 1 = false). { refine (H _ _ _ _ 0%nat (mkV 0 (2 ^ 32 - 1) [mkCb 1 7 100]) (mkCb 1 7 100) E R _ _); [rewrite X; reflexivity|left; reflexivity]. }
  vm_compute in Q. discriminate.
Qed.
Print Assumptions C27_already_ready_refuted.
(** Such a callback is invoked by the next update of the view, whatever its bits: no callback that is ready waits after a set of all views. *)
Theorem C27_set_calls : forall t b0 ops b bits b' i v c, b_init t = Some b0 -> srun b0 ops = Some b -> sstep b (SSet bits) = Some b' ->
  nth_error (b_views b') i = Some v -> In c (v_cbs v) -> is_set (v_mask v) (c_need c) = false.
Proof.
  intros t b0 ops b bits b' i v c H0 R0 H E I. assert (W : wf b) by (eapply wf_run; [eapply wf_init|]; eauto).
  cbn [sstep] in H. destruct (set_all_eq _ _ _ H) as (b1 & R & ->). change (b_views (or_mask b1 bits)) with (b_views b1) in E.
  assert (Ii : In i (concat (b_units b))).
  { apply (w_units _ W). pose proof (receives_frame _ _ _ _ R) as ((_ & _ & _ & _ & _ & L & _) & _). rewrite <- L. apply nth_error_Some. congruence. }
  assert (G : forall l b b1, receives b l bits = Some b1 -> (In i l \/ (forall v c, nth_error (b_views b) i = Some v -> In c (v_cbs v) -> is_set (v_mask v) (c_need c) = false)) ->
    forall v c, nth_error (b_views b1) i = Some v -> In c (v_cbs v) -> is_set (v_mask v) (c_need c) = false).
  { clear. induction l as [|j l IH]; intros b b1 R D v c E I; simpl in R; [injection R as <-; destruct D as [[]|D]; eauto|].
    destruct (receive b j bits) as [b2|] eqn:E2; [|discriminate]. refine (IH _ _ R _ v c E I). destruct (Nat.eq_dec j i) as [->|Ne].
    - right. intros w d Ew Id. destruct (receive_eq _ _ _ _ E2) as (x & Ex & _ & ->). cbn [b_views] in Ew. rewrite put_nth, Nat.eqb_refl, Ex in Ew. injection Ew as <-.
      cbn [v_cbs v_mask] in *. rewrite ready_cbs_eq in Id. apply filter_In in Id. destruct Id as [_ Id]. apply negb_true_iff in Id. auto.
    - destruct D as [[->|D]|D]; [congruence|left; auto|right]. intros w d Ew Id. destruct (receive_eq _ _ _ _ E2) as (x & Ex & _ & ->). cbn [b_views] in Ew.
      rewrite put_nth in Ew. destruct (Nat.eqb_spec j i); [congruence|]. eauto. }
  eapply G; eauto.
Qed.
Print Assumptions C27_set_calls.
Example C27_set_calls_ex :
  match b_init ex_table with
  | Some b0 => match srun b0 [SView 0; SCallback 0 1 7 100; SCallback 0 (2 ^ 60) 7 101; STick; SSet (2 ^ 50)] with
      | Some b => map (fun x => c_id (snd x)) (pending b) = [101] /\ map (fun k => c_id (k_cb k)) (b_log b) = [100] | None => False end
  | None => False end.
Proof. vm_compute. auto. Qed.
(** An update without bits fails an assertion when there is a view to receive it; setReady lets it pass. *)
Theorem C27_empty_refused : forall t b0 ops b, b_init t = Some b0 -> srun b0 ops = Some b -> b_views b <> [] ->
  sstep b (SSet 0) = None /\ forall i, (i < length (b_views b))%nat -> sstep b (SReady i 0) = Some b.
Proof.
  intros t b0 ops b H0 R Ne. assert (W : wf b) by (eapply wf_run; [eapply wf_init|]; eauto). split.
  - destruct (sstep b (SSet 0)) as [b'|] eqn:E; auto. cbn [sstep] in E. destruct (set_all_eq _ _ _ E) as (b1 & Rc & _).
    assert (I : In 0%nat (concat (b_units b))) by (apply (w_units _ W); destruct (b_views b); [congruence|simpl; lia]).
    destruct (concat (b_units b)) as [|j l]; [destruct I|]. simpl in Rc. destruct (receive b j 0) as [b2|] eqn:Q; [|discriminate].
    apply receive_eq in Q. destruct Q as (_ & _ & Z & _). congruence.
  - intros i L. cbn [sstep]. destruct (nth_error (b_views b) i) eqn:E; [reflexivity|]. apply nth_error_None in E. lia.
Qed.
Print Assumptions C27_empty_refused.
Example C27_empty_refused_ex : match b_init ex_table with Some b0 => match srun b0 [SView 0] with Some b => b_views b <> [] | None => False end | None => False end.
Proof. vm_compute. discriminate. Qed.

(** ** printBitSet. *)

(** The bits a printed list of ranges stands for. *)
Definition stands_for (l : list (N * option N)) (k : N) : bool :=
  existsb (fun r => match snd r with Some e => (fst r <=? k) && (k <=? e) | None => k =? fst r end) l.
Lemma print_ranges_spec : forall fuel bits v start, (forall s, start = Some s -> s < v /\ forall k, s <= k < v -> N.testbit bits k = true) ->
  (fuel <> 0%nat -> N.testbit bits (v + N.of_nat fuel - 1) = false) -> (fuel = 0%nat -> start = None) ->
  forall k, stands_for (print_ranges bits v fuel start) k =
    match start with Some s => (s <=? k) | None => (v <=? k) end && (k <? v + N.of_nat fuel) && N.testbit bits k.
Proof.
  induction fuel as [|f IH]; intros bits v start Hs Hl H0 k.
  - rewrite (H0 eq_refl). simpl. destruct (N.leb_spec v k), (N.ltb_spec k (v + 0)); simpl; auto; lia.
  - simpl print_ranges. specialize (Hl ltac:(discriminate)). replace (v + N.of_nat (S f)) with (v + 1 + N.of_nat f) in * by lia.
    destruct (N.testbit bits v) eqn:T.
    + assert (f <> 0%nat) by (intros ->; rewrite N.add_0_r, N.add_sub in Hl; congruence).
      rewrite IH; auto; [|intros s E; destruct start as [s0|]; injection E as <-; [destruct (Hs _ eq_refl) as [A B]; split; [lia|]; intros j J; destruct (N.eq_dec j v) as [->|]; [auto|apply B; lia]|split; [lia|]; intros j J; replace j with v by lia; auto]|intro; congruence].
      destruct start as [s|]; auto.
    + destruct start as [s|].
      * destruct (Hs _ eq_refl) as [A B]. assert (Q : stands_for ((s, if s + 1 =? v then None else Some (v - 1)) :: print_ranges bits (v + 1) f None) k =
          ((s <=? k) && (k <? v)) || stands_for (print_ranges bits (v + 1) f None) k).
        { unfold stands_for at 1. cbn [existsb fst snd]. f_equal. destruct (N.eqb_spec (s + 1) v).
          - destruct (N.eqb_spec k s), (N.leb_spec s k), (N.ltb_spec k v); simpl; auto; lia.
          - destruct (N.leb_spec s k), (N.leb_spec k (v - 1)), (N.ltb_spec k v); simpl; auto; lia. }
        rewrite Q. rewrite IH; [|discriminate|intros _; exact Hl|auto].
        destruct (N.leb_spec s k), (N.ltb_spec k v), (N.leb_spec (v + 1) k), (N.ltb_spec k (v + 1 + N.of_nat f)); simpl; try lia; auto.
        -- rewrite B by lia. reflexivity.
        -- replace k with v by lia. auto.
      * rewrite IH; [|discriminate|intros _; exact Hl|auto].
        destruct (N.leb_spec v k), (N.leb_spec (v + 1) k), (N.ltb_spec k (v + 1 + N.of_nat f)); simpl; try lia; auto. replace k with v by lia. auto.
Qed.
(** What is printed stands for exactly the bits set, if the last bit (511) is not set. *)
Theorem C27_print_partial : forall bits, N.testbit bits 511 = false -> forall k, k < 512 -> stands_for (print_bits bits) k = N.testbit bits k.
Proof.
  intros bits H k L. unfold print_bits. rewrite print_ranges_spec; try discriminate.
  - change (0 + N.of_nat 512) with 512. apply N.ltb_lt in L. rewrite L. assert (E : (0 <=? k) = true) by (apply N.leb_le; lia). rewrite E. reflexivity.
  - intros _. exact H.
Qed.
Print Assumptions C27_print_partial.
Example C27_print_partial_ex : print_bits (2 ^ 3 + 2 ^ 7 + 2 ^ 8 + 2 ^ 9 + 2 ^ 100) = [(3, None); (7, Some 9); (100, None)].
Proof. vm_compute. reflexivity. Qed.
(** A range that reaches bit 511 is printed without its end: 500 to 511 is printed as "[500]". *)
Theorem C27_print_refuted : exists bits k, k < 512 /\ stands_for (print_bits bits) k <> N.testbit bits k.
Proof. exists (2 ^ 512 - 2 ^ 500), 501. split; [reflexivity|]. vm_compute. discriminate. Qed.
Print Assumptions C27_print_refuted.
