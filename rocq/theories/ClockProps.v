(* Properties C13, C14, C15: clock crossing and clock normalisation. *)
Require Import NArith ZArith Bool List Lia ZifyN ZifyBool.
Require Import Verif.MathUtilsModel Verif.RationalModel Verif.ClockModel Verif.ClockProofs.
Import ListNotations.
Open Scope N_scope.

(* Spec: a tick is a rising edge of a clock iff it is a multiple of its period. *)
Definition edge (period tick : N) : Prop := tick mod period = 0.

(* C13. Sent on a source edge, the value arrives on a destination edge, no earlier than the
   requested delays, and on the first such edge. *)
Theorem C13_crossing_first_edge : forall cur src_delay src_per dst_delay dst_per,
  src_per <> 0 -> dst_per <> 0 -> edge src_per cur ->
  cur + src_delay + dst_delay + dst_per < 2 ^ 64 ->
  exists d, crossing_delay cur src_delay src_per dst_delay dst_per = Ok d /\
    edge dst_per (cur + d) /\
    cur + src_delay + dst_delay <= cur + d /\
    (forall e, edge dst_per e -> cur + src_delay + dst_delay <= e -> cur + d <= e).
Proof.
  intros cur sd sp dd dp H1 H2 H3 H4.
  destruct (crossing_correct cur sd sp dd dp H1 H2 H3 H4) as (d & E & A & B & _ & C).
  exists d. repeat split; auto. lia.
Qed.
Example C13_ex : edge 10 30 /\ crossing_delay 30 10 10 0 7 = Ok 12 /\ edge 7 (30 + 12).
Proof. vm_compute. repeat split. Qed.
Print Assumptions C13_crossing_first_edge.

(* Off a source edge the call is refused. *)
Theorem C13_off_edge_refused : forall cur src_delay src_per dst_delay dst_per,
  src_per <> 0 -> cur < 2 ^ 64 -> ~ edge src_per cur ->
  crossing_delay cur src_delay src_per dst_delay dst_per = AssertFail.
Proof.
  intros cur sd sp dd dp H1 H2 H3. unfold crossing_delay.
  rewrite (proj2 (N.eqb_neq sp 0) H1).
  destruct (edge_floor cur sp H1) as [Hle _].
  rewrite W64_small by lia.
  destruct (N.eqb_spec (cur / sp * sp) cur) as [E|E]; [|reflexivity].
  exfalso. apply H3. now apply mod0_edge.
Qed.
Example C13_off_edge_ex : crossing_delay 31 10 10 0 7 = AssertFail.
Proof. reflexivity. Qed.
Print Assumptions C13_off_edge_refused.

(* Later sending edges never arrive earlier. *)
Theorem C13_crossing_monotone : forall cur cur' src_delay src_per dst_delay dst_per d d',
  src_per <> 0 -> dst_per <> 0 -> edge src_per cur -> edge src_per cur' -> cur <= cur' ->
  cur' + src_delay + dst_delay + dst_per < 2 ^ 64 ->
  crossing_delay cur src_delay src_per dst_delay dst_per = Ok d ->
  crossing_delay cur' src_delay src_per dst_delay dst_per = Ok d' ->
  cur + d <= cur' + d'.
Proof.
  intros cur cur' sd sp dd dp d d' H1 H2 H3 H3' Hle H4 E E'.
  destruct (crossing_correct cur sd sp dd dp H1 H2 H3) as (x & Ex & A & B & _ & C); [lia|].
  destruct (crossing_correct cur' sd sp dd dp H1 H2 H3' H4) as (x' & Ex' & A' & B' & _ & C').
  rewrite E in Ex. rewrite E' in Ex'. injection Ex as <-. injection Ex' as <-.
  apply C; auto. lia.
Qed.
Example C13_monotone_ex : crossing_delay 30 10 10 0 7 = Ok 12 /\ crossing_delay 40 10 10 0 7 = Ok 16.
Proof. vm_compute. split; reflexivity. Qed.
Print Assumptions C13_crossing_monotone.

(* C14. The reverse computation gives the latest source edge from which the forward crossing
   arrives by the requested edge: sending there arrives in time, sending on any later edge is late.
   Precondition: the delays fit before the arrival. *)
Theorem C14_reverse_crossing : forall arr src_delay src_per dst_delay dst_per,
  src_per <> 0 -> dst_per <> 0 -> edge dst_per arr -> src_delay + dst_delay <= arr ->
  arr + dst_per < 2 ^ 64 ->
  exists r, reverse_crossing_delay arr src_delay src_per dst_delay dst_per = Ok r /\ r <= arr /\
    edge src_per (arr - r) /\
    (exists d, crossing_delay (arr - r) src_delay src_per dst_delay dst_per = Ok d /\ arr - r + d <= arr) /\
    (forall s, edge src_per s -> arr - r < s -> s + src_delay + dst_delay + dst_per < 2 ^ 64 ->
       exists d, crossing_delay s src_delay src_per dst_delay dst_per = Ok d /\ arr < s + d).
Proof.
  intros arr sd sp dd dp H1 H2 H3 H4 H5.
  destruct (reverse_correct arr sd sp dd dp H1 H2 H3 H4) as (r & E & Hr & He & Hle & Hlast); [lia|].
  exists r. split; [exact E|]. split; [exact Hr|]. split; [exact He|]. split.
  - destruct (crossing_correct (arr - r) sd sp dd dp H1 H2 He) as (d & Ed & A & B & _ & C); [lia|].
    exists d. split; [exact Ed|]. apply C; [exact H3|lia].
  - intros s Hs Hlt Hov. destruct (crossing_correct s sd sp dd dp H1 H2 Hs Hov) as (d & Ed & A & B & _ & C).
    exists d. split; [exact Ed|].
    destruct (N.le_gt_cases (s + sd + dd) arr) as [H|H]; [|lia].
    specialize (Hlast s Hs H). lia.
Qed.
Example C14_ex : edge 7 42 /\ reverse_crossing_delay 42 10 10 0 7 = Ok 12 /\ crossing_delay 30 10 10 0 7 = Ok 12
  /\ crossing_delay 40 10 10 0 7 = Ok 16.
Proof. vm_compute. repeat split. Qed.
Print Assumptions C14_reverse_crossing.

(* Without the precondition the unsigned subtraction wraps: the answer exceeds the arrival tick. *)
Theorem C14_early_arrival_wraps : exists arr src_delay src_per dst_delay dst_per r,
  src_per <> 0 /\ dst_per <> 0 /\ edge dst_per arr /\
  reverse_crossing_delay arr src_delay src_per dst_delay dst_per = Ok r /\
  ~ (exists s, edge src_per s /\ s + src_delay + dst_delay <= arr) /\ ~ r <= arr /\
  r <> src_delay + dst_delay.
Proof.
  exists 14, 21, 10, 0, 7, 30. unfold edge. repeat split; try discriminate; try lia.
  all: try (vm_compute; reflexivity).
  - intros (s & _ & H). lia.
Qed.
Print Assumptions C14_early_arrival_wraps.

(* C15. [realises t pt] : the assignment pt of periods to the clocks of the user's tree t makes every
   period positive and satisfies child_period * p = parent_period * c for each makeClock(parent, p, c). *)
Fixpoint realises (t : ctree) (pt : ptree) {struct t} : Prop :=
  match t, pt with
  | CT _ _ kids, PT per pkids =>
      0 < per /\
      (fix all (ks : list ctree) (pks : list ptree) : Prop :=
         match ks, pks with
         | [], [] => True
         | (CT p c _ as k) :: ks', (PT kper _ as pk) :: pks' =>
             kper * p = per * c /\ realises k pk /\ all ks' pks'
         | _, _ => False
         end) kids pkids
  end.

(* All periods of an assignment multiplied by k. *)
Fixpoint scaled (k : N) (pt : ptree) : ptree :=
  match pt with PT per kids => PT (k * per) (map (scaled k) kids) end.

(* No 32-bit overflow, with n/d the clock's exact reduced ratio to the root and M some common multiple of
   all denominators: ratios and their products fit. *)
Fixpoint no_overflow (M n d : N) (t : ctree) {struct t} : Prop :=
  match t with
  | CT _ _ kids =>
      (d | M) /\ n * M < 2 ^ 32 /\
      (fix all (ks : list ctree) : Prop :=
         match ks with
         | [] => True
         | (CT p c _ as k) :: ks' =>
             (0 < p /\ 0 < c /\ p < 2 ^ 32 /\ c < 2 ^ 32 /\
              let n' := c / N.gcd p c * n in
              let d' := p / N.gcd p c * d in
              n' < 2 ^ 32 /\ d' < 2 ^ 32 /\
              no_overflow M (n' / N.gcd n' d') (d' / N.gcd n' d') k) /\
             all ks'
         end) kids
  end.

(* Normalisation succeeds, realises every ratio, and every other assignment is an integral multiple of
   it (so it is the least). *)
Theorem C15_normalize : forall M t, 0 < M -> no_overflow M 1 1 t ->
  exists norm pt, normalize t = Some (norm, pt) /\ realises t pt /\
    (match pt with PT root_period _ => root_period = norm end) /\
    (forall pt', realises t pt' -> exists k, pt' = scaled k pt).
Proof. exact normalize_correct. Qed.

Definition C15_tree : ctree := CT 1 1 [CT 3 2 [CT 5 7 []]; CT 2 1 []; CT 4 6 []].
Example C15_ex : no_overflow 30 1 1 C15_tree /\
  normalize C15_tree = Some (30, PT 30 [PT 20 [PT 28 []]; PT 15 []; PT 45 []]).
Proof.
  split; [|vm_compute; reflexivity].
  cbn -[N.pow N.gcd N.div]. repeat split; try reflexivity.
  all: try (exists 30; reflexivity). all: try (exists 10; reflexivity). all: try (exists 15; reflexivity).
  exists 2; reflexivity.
Qed.
Print Assumptions C15_normalize.

(* Cycle/tick conversion: getTick then getCycle is the identity, and edges are exactly the ticks of
   whole cycles. *)
Theorem C15_tick_cycle_roundtrip : forall period c, 0 < period -> c * period < 2 ^ 64 ->
  get_cycle period (get_tick period c) = Ok c /\ is_posedge period (get_tick period c) = Ok true.
Proof.
  intros period c Hp Hov. unfold get_cycle, get_tick, is_posedge.
  rewrite W64_small by assumption. destruct (N.eqb_spec period 0); [lia|].
  rewrite N.div_mul, N.mod_mul by assumption. split; reflexivity.
Qed.
Example C15_roundtrip_ex : get_cycle 7 (get_tick 7 5) = Ok 5.
Proof. reflexivity. Qed.
Print Assumptions C15_tick_cycle_roundtrip.
