(** C83: a state is what its markers, monitors and users make of it. *)
From Coq Require Import List NArith Bool Arith Lia.
From Verif Require Import StateModel StateSpec StateProofs.
Import ListNotations.

(** Three values, monitor 1 forces value 2, monitor 2 resets, others look on. *)
Definition mons (m : nat) : act := match m with 1 => Force 2 | 2 => Clean | _ => Nothing end.
(** Without the monitor that resets. *)
Definition calm (m : nat) : act := match m with 1 => Force 2 | _ => Nothing end.
Definition ex_c := mkC 3 false 0 15 calm.
Definition ex_idle := mkC 3 false 0 15 (fun _ => Nothing).

(** Two markers for 1, of which both are needed, with observers 7, 8 and 7; one
    for 2 with a monitor that looks on and one that forces. *)
Definition ex_l : list op :=
  [NewMarker 1; NewMarker 1; Observe 1 7; Observe 1 8; Observe 1 7; Observe 2 9; Mark 1 1; Withdraw 1 8; Clear 1 1; Mark 1 0; Mark 1 1;
   NewMarker 2; NewMarker 2; Attach 2 0; Attach 2 1; Observe 1 7; Mark 2 0].

(** What an example shows of a state. *)
Definition seen (c : cfg) (l : list op) :=
  match run c l with
  | Some s => Some (value s, s_log s, map (num_marks s) (seq 0 (c_n c)), map (num_markers s) (seq 0 (c_n c)), map (is_set s) (seq 0 (c_n c)))
  | None => None end.

Lemma ex_usual : usual ex_c.
Proof. split; [cbn; lia|]. split; [cbn; lia|]. intros [|[|m]]; discriminate. Qed.

(** Every sequence of calls does what the description with sets of markers,
    observers and monitors says: the same values, counts and calls to others, and
    it fails where that fails. *)
Theorem C83_refines : forall c l, usual c ->
  match run c l, srun c l with
  | Some s, Some a => value s = b_val a /\ s_log s = b_calls a /\
      forall v, num_markers s v = N.of_nat (b_markers a v) /\
        num_marks s v = N.of_nat (howmany (fun i => inb (v, i) (b_marked a)) (b_markers a v)) /\
        (forall i, is_marked s v i = inb (v, i) (b_marked a)) /\
        (is_set s v = true <-> In v (b_reached a)) /\
        m_aud (s_sets s v) = forv v (b_wait a) /\ m_mons (s_sets s v) = forv v (b_mons a)
  | None, None => True
  | _, _ => False end.
Proof.
  intros c l U. pose proof (run_R c l U) as K. destruct (run c l) as [s|], (srun c l) as [a|]; auto.
  split; [apply K|]. split; [apply K|]. intros v. destruct (marks_R _ _ _ v K) as (A & B & C). pose proof (r_v _ _ _ _ K v) as Hv.
  split; [exact A|]. split; [apply Hv|]. split; [exact B|]. split; [|split; apply Hv].
  unfold is_set. rewrite (v_set _ _ _ _ _ Hv). apply in_eqb.
Qed.
Print Assumptions C83_refines.

Example C83_refines_ex : usual ex_c /\
  seen ex_c ex_l = Some (2, [Sched 2 9; Signal 2 1; Signal 2 0; Sched 1 7; Sched 1 7], [0; 2; 1]%N, [0; 2; 2]%N, [false; true; true]) /\
  match srun ex_c ex_l with Some a => b_wait a = [(1, 7)] /\ missing a 2 = 1 | None => False end.
Proof. split; [apply ex_usual|]. vm_compute. auto. Qed.

(** The count is the number of markers that are marked; complete says whether
    all are. *)
Theorem C83_marks : forall c l s v, usual c -> run c l = Some s ->
  num_marks s v = N.of_nat (howmany (is_marked s v) (N.to_nat (num_markers s v))) /\
  (complete s v = true <-> forall i, i < N.to_nat (num_markers s v) -> is_marked s v i = true).
Proof.
  intros c l s v U E. pose proof (run_R c l U) as K. rewrite E in K. destruct (srun c l) as [a|]; [|contradiction].
  destruct (marks_R _ _ _ v K) as (A & B & C). unfold complete. rewrite C, A, Nnat.Nat2N.id. split; auto.
  rewrite N.eqb_eq. rewrite <- hm_all. split; [apply Nnat.Nat2N.inj|congruence].
Qed.
Print Assumptions C83_marks.

Example C83_marks_ex : usual ex_c /\
  match run ex_c ex_l with Some s => (complete s 1, complete s 2, is_marked s 2 0, is_marked s 2 1) = (true, false, true, false) | None => False end.
Proof. split; [apply ex_usual|]. vm_compute. auto. Qed.

(** A marker that is set moves the state to its value exactly if no more markers
    are missing than the threshold allows; then everyone who observes the value
    is scheduled, in order and once. Otherwise nothing happens to the value. *)
Theorem C83_joint : forall c l s v i s', usual c -> run c l = Some s -> step c s (Mark v i) = Some s' ->
  is_marked s v i = false -> m_mons (s_sets s v) = [] ->
  let gone := howmany (fun j => negb (is_marked s' v j)) (N.to_nat (num_markers s' v)) in
  is_marked s' v i = true /\
  if (N.of_nat gone <=? m_thresh (s_sets s v))%N
  then value s' = v /\ is_set s' v = true /\ m_aud (s_sets s' v) = [] /\ s_log s' = rev (map (Sched v) (m_aud (s_sets s v))) ++ s_log s
  else value s' = value s /\ is_set s' v = is_set s v /\ m_aud (s_sets s' v) = m_aud (s_sets s v) /\ s_log s' = s_log s.
Proof.
  intros c l s v i s' U E ES HM HN gone. pose proof (run_R c l U) as K. rewrite E in K. destruct (srun c l) as [a|]; [|contradiction].
  pose proof (step_R c s a (Mark v i) U K) as K'. rewrite ES in K'. destruct (sstep c a (Mark v i)) as [a'|] eqn:EA; [|contradiction].
  destruct (marks_R _ _ _ v K) as (A & B & _). destruct (marks_R _ _ _ v K') as (A' & B' & _).
  rewrite B in HM. pose proof (r_v _ _ _ _ K v) as Hv. pose proof (r_v _ _ _ _ K' v) as Hv'. rewrite (v_mons _ _ _ _ _ Hv) in HN.
  unfold sstep in EA. destruct (match arg (Mark v i) with Some v => Nat.ltb v (c_n c) | None => true end); [|discriminate].
  destruct (Nat.ltb i (b_markers a v)); [|discriminate]. rewrite HM in EA. fold (marked_now a v i) in EA.
  change (b_mons (marked_now a v i)) with (b_mons a) in EA. rewrite HN in EA.
  assert (MM : b_marked a' = (v, i) :: b_marked a /\ b_markers a' = b_markers a) by (inversion EA; destruct (_ <=? _)%N; auto).
  destruct MM as [M1 M2].
  assert (G : gone = missing (marked_now a v i) v).
  { unfold gone, missing. rewrite A', Nnat.Nat2N.id, M2. apply hm_ext. intros j _. rewrite B', M1. reflexivity. }
  rewrite G. change (b_miss (marked_now a v i) v) with (b_miss a v) in EA. rewrite (v_thr _ _ _ _ _ Hv).
  split. { rewrite B', M1. unfold inb. cbn [existsb]. destruct (same_spec (v, i) (v, i)); [reflexivity|congruence]. }
  unfold value, is_set. rewrite (r_val _ _ _ _ K), (r_val _ _ _ _ K'), (r_log _ _ _ _ K), (r_log _ _ _ _ K'),
    (v_set _ _ _ _ _ Hv), (v_set _ _ _ _ _ Hv'), (v_aud _ _ _ _ _ Hv), (v_aud _ _ _ _ _ Hv').
  destruct (N.of_nat (missing (marked_now a v i) v) <=? b_miss a v)%N; inversion EA; subst a'; cbn; auto.
  rewrite forv_notv, Nat.eqb_refl. auto.
Qed.
Print Assumptions C83_joint.

Example C83_joint_ex : usual ex_c /\
  match run ex_c [NewMarker 1; NewMarker 1; NewMarker 1; Threshold 1 1; Observe 1 7; Observe 1 8; SetValue 2; Mark 1 2] with
  | Some s => (value s, is_marked s 1 0, m_mons (s_sets s 1)) = (2, false, []) /\
      match step ex_c s (Mark 1 0) with Some s' => (value s', s_log s') = (1, [Sched 1 8; Sched 1 7]) | None => False end
  | None => False end.
Proof. split; [apply ex_usual|]. vm_compute. auto. Qed.

(** With monitors that only look on, a marker changes no value: each monitor is
    told, in the order they were attached. *)
Theorem C83_monitored : forall c l s v i s', usual c -> run c l = Some s -> step c s (Mark v i) = Some s' ->
  is_marked s v i = false -> m_mons (s_sets s v) <> [] -> (forall m, In m (m_mons (s_sets s v)) -> c_mon c m = Nothing) ->
  value s' = value s /\ s_log s' = rev (map (Signal v) (m_mons (s_sets s v))) ++ s_log s /\ (forall w, is_set s' w = is_set s w).
Proof.
  intros c l s v i s' U E ES HM HN HA. pose proof (run_R c l U) as K. rewrite E in K. destruct (srun c l) as [a|]; [|contradiction].
  pose proof (step_R c s a (Mark v i) U K) as K'. rewrite ES in K'. destruct (sstep c a (Mark v i)) as [a'|] eqn:EA; [|contradiction].
  destruct (marks_R _ _ _ v K) as (A & B & _). rewrite B in HM. pose proof (r_v _ _ _ _ K v) as Hv. rewrite (v_mons _ _ _ _ _ Hv) in HN, HA |- *.
  unfold sstep in EA. destruct (match arg (Mark v i) with Some v => Nat.ltb v (c_n c) | None => true end); [|discriminate].
  destruct (Nat.ltb i (b_markers a v)); [|discriminate]. rewrite HM in EA. fold (marked_now a v i) in EA.
  change (b_mons (marked_now a v i)) with (b_mons a) in EA.
  assert (AK : forall ms b b', (forall m, In m ms -> c_mon c m = Nothing) -> ask c b v ms = Some b' ->
     b_val b' = b_val b /\ b_reached b' = b_reached b /\ b_calls b' = rev (map (Signal v) ms) ++ b_calls b).
  { induction ms as [|m ms IH]; intros b b' N Q; cbn [ask] in Q; [inversion Q; subst; auto|].
    rewrite (N m) in Q by (left; reflexivity). apply IH in Q as (Q1 & Q2 & Q3); [|intros; apply N; right; auto].
    cbn in Q1, Q2, Q3. split; [auto|]. split; [auto|]. rewrite Q3. cbn [map rev]. rewrite <- app_assoc. reflexivity. }
  destruct (forv v (b_mons a)) as [|m ms]; [congruence|]. apply AK in EA as (E1 & E2 & E3); auto. cbn [marked_now b_val b_reached b_calls] in E1, E2, E3.
  unfold value, is_set. rewrite (r_val _ _ _ _ K), (r_val _ _ _ _ K'), (r_log _ _ _ _ K), (r_log _ _ _ _ K').
  split; auto. split; auto. intros w. rewrite (v_set _ _ _ _ _ (r_v _ _ _ _ K w)), (v_set _ _ _ _ _ (r_v _ _ _ _ K' w)), E2. reflexivity.
Qed.
Print Assumptions C83_monitored.

Example C83_monitored_ex : usual ex_c /\
  match run ex_c [NewMarker 1; Attach 1 0; Attach 1 3; Observe 1 7] with
  | Some s => (value s, is_marked s 1 0, m_mons (s_sets s 1)) = (0, false, [0; 3]) /\
      match step ex_c s (Mark 1 0) with Some s' => (value s', s_log s') = (0, [Signal 1 3; Signal 1 0]) | None => False end
  | None => False end.
Proof. split; [apply ex_usual|]. vm_compute. auto. Qed.

(** An observer is scheduled or cancelled at most once for each time it was
    enrolled, whatever happens; if it is never withdrawn, each enrolment is
    waiting or has been answered. *)
Theorem C83_observers : forall c l s v h, usual c -> run c l = Some s ->
  told (s_log s) v h + waits s v h <= enrolled l v h /\
  (withdrawn l v h = false -> told (s_log s) v h + waits s v h = enrolled l v h).
Proof.
  intros c l s v h U E. pose proof (run_R c l U) as K. rewrite E in K. destruct (srun c l) as [a|] eqn:EA; [|contradiction].
  unfold srun in EA. apply run_due with (v := v) (h := h) in EA.
  assert (Z : due (afresh c) v h = 0) by (unfold afresh, begin; destruct (c_bool c); rewrite ?reach_due; reflexivity).
  rewrite Z in EA. unfold due in EA. unfold waits. rewrite (r_log _ _ _ _ K), (v_aud _ _ _ _ _ (r_v _ _ _ _ K v)). exact EA.
Qed.
Print Assumptions C83_observers.

Example C83_observers_ex : usual ex_c /\
  match run ex_c ex_l with
  | Some s => (told (s_log s) 1 7, waits s 1 7, enrolled ex_l 1 7, withdrawn ex_l 1 7) = (2, 1, 3, false) /\
              (told (s_log s) 1 8, waits s 1 8, enrolled ex_l 1 8, withdrawn ex_l 1 8) = (0, 0, 1, true)
  | None => False end.
Proof. split; [apply ex_usual|]. vm_compute. auto. Qed.

(** A value to which a call other than a reset has changed the state is one that
    isSet knows, until the next reset. *)
Theorem C83_set : forall c l o l' s s1 s2, usual c -> run c l = Some s -> step c s o = Some s1 -> run_from c s1 l' = Some s2 ->
  forallb (fun x => negb (resets x)) (o :: l') = true -> value s1 <> value s -> is_set s2 (value s1) = true.
Proof.
  intros c l o l' s s1 s2 U E ES E2 F NE. pose proof (run_R c l U) as K. rewrite E in K. destruct (srun c l) as [a|]; [|contradiction].
  pose proof (step_R c s a o U K) as K1. rewrite ES in K1. destruct (sstep c a o) as [a1|] eqn:EA; [|contradiction].
  pose proof (run_from_R c l' U s1 a1 K1) as K2. rewrite E2 in K2. destruct (srun_from c a1 l') as [a2|] eqn:EB; [|contradiction].
  cbn [forallb] in F. apply andb_true_iff in F as [F1 F2]. apply negb_true_iff in F1.
  apply step_reached in EA as [_ [Q|Q]]; auto.
  - unfold value in NE. rewrite (r_val _ _ _ _ K), (r_val _ _ _ _ K1) in NE. contradiction.
  - apply run_reached in EB; auto. unfold is_set, value. rewrite (v_set _ _ _ _ _ (r_v _ _ _ _ K2 _)), (r_val _ _ _ _ K1). apply in_eqb. auto.
Qed.
Print Assumptions C83_set.

Example C83_set_ex : usual ex_c /\
  match run ex_c [NewMarker 1] with
  | Some s => match step ex_c s (Mark 1 0) with
      | Some s1 => match run_from ex_c s1 [SetValue 2; Clear 1 0] with
          | Some s2 => (value s, value s1, value s2, is_set s2 1) = (0, 1, 2, true) | None => False end
      | None => False end
  | None => False end.
Proof. split; [apply ex_usual|]. vm_compute. auto. Qed.

(** If no monitor interferes, a value that isSet knows is one the state had after
    some of the calls. *)
Theorem C83_set_only : forall c l s v, usual c -> (forall m, c_mon c m = Nothing) -> run c l = Some s -> is_set s v = true ->
  exists l1 l2 s1, l = l1 ++ l2 /\ run c l1 = Some s1 /\ value s1 = v.
Proof.
  intros c l s v U N E HS. pose proof (run_R c l U) as K. rewrite E in K. destruct (srun c l) as [a|] eqn:EA; [|contradiction].
  unfold is_set in HS. rewrite (v_set _ _ _ _ _ (r_v _ _ _ _ K v)) in HS. apply in_eqb in HS. unfold srun in EA.
  assert (T : exists l1 l2 a1, l = l1 ++ l2 /\ srun c l1 = Some a1 /\ b_val a1 = v).
  { apply run_reached_only with (v := v) in EA as Q; auto. destruct Q as [Q|Q]; [|exact Q].
    exists [], l, (afresh c). split; [reflexivity|]. split; [reflexivity|]. unfold afresh, begin in *. destruct (c_bool c); cbn in *; tauto. }
  destruct T as (l1 & l2 & a1 & -> & E1 & E2). pose proof (run_R c l1 U) as K1. rewrite E1 in K1. destruct (run c l1) as [s1|] eqn:ER; [|contradiction].
  exists l1, l2, s1. split; auto. split; auto. unfold value. rewrite (r_val _ _ _ _ K1). exact E2.
Qed.
Print Assumptions C83_set_only.

Example C83_set_only_ex : usual ex_idle /\ (forall m, c_mon ex_idle m = Nothing) /\
  match run ex_idle [NewMarker 1; Mark 1 0; SetValue 2] with Some s => is_set s 1 = true /\ value s = 2 | None => False end.
Proof. split; [|split; [reflexivity|vm_compute; auto]]. split; [cbn; lia|]. split; [cbn; lia|]. discriminate. Qed.

(** If the value changes only by setValue, the tracker has the time spent in each
    value, and the time since the value last changed. *)
Theorem C83_time : forall c l s0 s v, construct c = Some s0 -> run c l = Some s -> forallb (fun o => negb (untold o)) l = true ->
  s_act s = value s /\
  (s_delta s v + (if Nat.eqb (value s) v then time_in_state s else 0) = spent c s0 l v)%N /\
  time_in_state s = since c s0 l 0%N.
Proof.
  intros c l s0 s v E0 E F. unfold run in E. rewrite E0 in E. destruct (construct_time _ _ E0) as (T0 & Z & D0).
  destruct (run_time c l s0 s E F T0) as ([T1 T2] & H & D). rewrite D0 in D. split; auto. split; auto.
  specialize (H v). rewrite Z in H. unfold shown in H. rewrite T1 in H. unfold time_in_state, value. rewrite N.add_0_l in H. exact H.
Qed.
Print Assumptions C83_time.

Example C83_time_ex : exists s0, construct ex_c = Some s0 /\
  let l := [Pass 5; SetValue 1; Pass 10; SetValue 1; NewMarker 1; Pass 3; SetValue 0; Pass 4; SetValue 1; Pass 6] in
  forallb (fun o => negb (untold o)) l = true /\
  match run ex_c l with
  | Some s => (map (s_delta s) [0; 1; 2], time_in_state s) = ([9; 13; 0], 6)%N
  | None => False end /\
  map (spent ex_c s0 l) [0; 1; 2] = [9; 19; 0]%N /\ since ex_c s0 l 0 = 6%N.
Proof. eexists. split; [reflexivity|]. vm_compute. auto. Qed.

Local Ltac after c l := match eval vm_compute in (run c l) with Some ?s => exists s end.

(** The threshold is documented as the least number of markers that must call in.
    It is the number that may be missing: with two markers and a threshold of two
    one call is enough, and with three markers and a threshold of one it is not. *)
Theorem C83_threshold_refuted : exists c l v s l' s', usual c /\
  run c l = Some s /\ value s = v /\ (num_marks s v < m_thresh (s_sets s v))%N /\ ~ In (SetValue v) l /\ c_init c <> v /\
  run c l' = Some s' /\ value s' <> v /\ (m_thresh (s_sets s' v) <= num_marks s' v)%N /\ (0 < num_marks s' v)%N.
Proof.
  exists ex_c, [NewMarker 1; NewMarker 1; Threshold 1 2; Mark 1 0], 1. after ex_c [NewMarker 1; NewMarker 1; Threshold 1 2; Mark 1 0].
  exists [NewMarker 1; NewMarker 1; NewMarker 1; Threshold 1 1; Mark 1 0]. after ex_c [NewMarker 1; NewMarker 1; NewMarker 1; Threshold 1 1; Mark 1 0].
  split; [apply ex_usual|]. split; [vm_compute; reflexivity|]. split; [vm_compute; reflexivity|]. split; [vm_compute; reflexivity|].
  split; [cbn; intuition discriminate|]. split; [vm_compute; discriminate|]. split; [vm_compute; reflexivity|]. split; [vm_compute; discriminate|].
  split; [vm_compute; discriminate|vm_compute; reflexivity].
Qed.
Print Assumptions C83_threshold_refuted.

(** With a threshold, every further marker moves the state again: a value set
    since the transition is lost when the last marker calls in. *)
Theorem C83_late_refuted : exists c l v i w s s', usual c /\ run c l = Some s /\ value s = w /\ v <> w /\ is_set s v = true /\
  step c s (Mark v i) = Some s' /\ value s' = v.
Proof.
  exists ex_c, [NewMarker 1; NewMarker 1; Threshold 1 1; Mark 1 0; SetValue 2], 1, 1, 2. after ex_c [NewMarker 1; NewMarker 1; Threshold 1 1; Mark 1 0; SetValue 2].
  after ex_c [NewMarker 1; NewMarker 1; Threshold 1 1; Mark 1 0; SetValue 2; Mark 1 1].
  split; [apply ex_usual|]. split; [vm_compute; reflexivity|]. split; [vm_compute; reflexivity|]. split; [vm_compute; discriminate|]. split; [vm_compute; reflexivity|]. split; vm_compute; reflexivity.
Qed.
Print Assumptions C83_late_refuted.

(** isClear is documented to tell that the state never reached a value. It is
    true of the value the state was made with, and of the one it was reset to. *)
Theorem C83_clear_refuted : exists c s l s', usual c /\ run c [] = Some s /\ is_set s (value s) = false /\
  run c l = Some s' /\ value s' <> c_init c /\ is_set s' (value s') = false.
Proof.
  exists ex_c. after ex_c (@nil op). exists [SetValue 1; ResetTo 2]. after ex_c [SetValue 1; ResetTo 2].
  split; [apply ex_usual|]. split; [vm_compute; reflexivity|]. split; [vm_compute; reflexivity|]. split; [vm_compute; reflexivity|]. split; [vm_compute; discriminate|vm_compute; reflexivity].
Qed.
Print Assumptions C83_clear_refuted.

(** A transition made by markers is not told to the tracker: the time in the new
    value is counted for the old one. So is the time after a reset. *)
Theorem C83_time_refuted : exists c l s l' s' s0, usual c /\ construct c = Some s0 /\
  run c l = Some s /\ value s = 1 /\ spent c s0 l 1 = 10%N /\ s_delta s 1 = 0%N /\ s_act s = 0 /\ time_in_state s = 10%N /\
  run c l' = Some s' /\ value s' = 0 /\ spent c s0 l' 0 = 10%N /\ s_delta s' 0 = 0%N /\ s_act s' = 1.
Proof.
  exists ex_c, [NewMarker 1; Mark 1 0; Pass 10]. after ex_c [NewMarker 1; Mark 1 0; Pass 10%N].
  exists [SetValue 1; Reset; Pass 10]. after ex_c [SetValue 1; Reset; Pass 10%N]. after ex_c (@nil op).
  split; [apply ex_usual|]. repeat (split; [vm_compute; reflexivity|]). vm_compute; reflexivity.
Qed.
Print Assumptions C83_time_refuted.

(** A State<bool> that is given true to start with is false, from the constructor
    on and after every reset. *)
Theorem C83_bool_refuted : exists c s s', usual c /\ c_bool c = true /\ c_init c = 1 /\
  run c [] = Some s /\ value s = 0 /\ run c [SetValue 1; Reset] = Some s' /\ value s' = 0.
Proof.
  exists (mkC 2 true 1 15 calm). after (mkC 2 true 1 15 calm) (@nil op). after (mkC 2 true 1 15 calm) [SetValue 1; Reset]. split.
  - split; [cbn; lia|]. split; [cbn; lia|]. intros [|[|m]]; discriminate.
  - repeat (split; [vm_compute; reflexivity|]). vm_compute; reflexivity.
Qed.
Print Assumptions C83_bool_refuted.

(** A monitor is documented to be called when its value is up for selection. It
    is called by every marker, when others are missing too. *)
Theorem C83_monitor_refuted : exists c l s, usual c /\ run c l = Some s /\ complete s 1 = false /\
  m_thresh (s_sets s 1) = 0%N /\ s_log s = [Signal 1 0].
Proof.
  exists ex_c, [NewMarker 1; NewMarker 1; Attach 1 0; Mark 1 0]. after ex_c [NewMarker 1; NewMarker 1; Attach 1 0; Mark 1 0]. split; [apply ex_usual|].
  repeat (split; [vm_compute; reflexivity|]). vm_compute; reflexivity.
Qed.
Print Assumptions C83_monitor_refuted.

(** A monitor that resets the state when it is called leaves its marker marked and
    not counted; the next clear of that marker fails an assertion. *)
Theorem C83_monitor_reset_refuted : exists c l s, run c l = Some s /\ is_marked s 1 0 = true /\ num_marks s 1 = 0%N /\
  step c s (Clear 1 0) = None /\ complete s 1 = false.
Proof.
  exists (mkC 3 false 0 15 mons), [NewMarker 1; Attach 1 2; Mark 1 0]. after (mkC 3 false 0 15 mons) [NewMarker 1; Attach 1 2; Mark 1 0].
  repeat (split; [vm_compute; reflexivity|]). vm_compute; reflexivity.
Qed.
Print Assumptions C83_monitor_reset_refuted.

(** A copy has the observers of the original, so one enrolment is answered by
    both; and it counts the markers of the original, which nobody can set in the
    copy: with a marker of its own that is set it still waits for them. *)
Theorem C83_copy_refuted : exists c l s s1 s2 s3, usual c /\ run c l = Some s /\ enrolled l 1 7 = 1 /\
  step c s (SetValue 1) = Some s1 /\ step c (copy s) (SetValue 1) = Some s2 /\
  told (s_log s1) 1 7 = 1 /\ told (s_log s2) 1 7 = 1 /\
  run_from c (copy s) [NewMarker 1; Mark 1 1] = Some s3 /\ is_marked s3 1 1 = true /\ num_markers s3 1 = 2%N /\ value s3 = value s /\ value s <> 1.
Proof.
  exists ex_c, [NewMarker 1; Observe 1 7]. after ex_c [NewMarker 1; Observe 1 7]. after ex_c [NewMarker 1; Observe 1 7; SetValue 1].
  after ex_c [NewMarker 1; Observe 1 7; SetValue 1]. after ex_c [NewMarker 1; Observe 1 7; NewMarker 1; Mark 1 1].
  split; [apply ex_usual|]. repeat (split; [vm_compute; reflexivity|]). vm_compute. discriminate.
Qed.
Print Assumptions C83_copy_refuted.
