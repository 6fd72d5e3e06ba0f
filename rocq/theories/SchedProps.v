(** Properties C01-C05 and C10: the scheduler. Statements are about [trace], the calls
    and handler invocations of an execution in chronological order, for every
    configuration and every sequence of actions (every interleaving of user calls,
    runs and handler behaviours). *)
From Coq Require Import List NArith Arith Bool Lia Sorted.
From Verif Require Import SchedModel SchedProofs SchedRunProofs SchedUniqProofs.
Import ListNotations.
Open Scope N_scope.

(* ---- Specification vocabulary ---- *)
(* Observations of an execution from the initial state, oldest first. *)
Definition trace (c : cfg) (acts : list action) : list obs := rev (s_log (exec c init acts)).
(* A call that removes the pending occurrences of [e] at tick [t]. *)
Definition cancels (e : ev) (t : N) (o : obs) : Prop := o = OCancel e \/ o = OCancelAt e t \/ o = OClear.
(* Accepted occurrence [id], neither cancelled nor fired since. *)
Definition outstanding (tr : list obs) (id : nat) (e : ev) (t : N) : Prop :=
  exists g a b, tr = a ++ OSched id e t g :: b /\
    (forall o, In o b -> ~ cancels e t o) /\ (forall e' t' g', ~ In (OFire id e' t' g') b).
Definition no_restart (tr : list obs) : Prop := forall t, ~ In (ORestart t) tr.

(* ---- Bridges from chronological to newest-first ---- *)
Lemma rev_split : forall (l a b : list obs) o, rev l = a ++ o :: b -> l = rev b ++ o :: rev a.
Proof.
  intros. rewrite <- (rev_involutive l), H, rev_app_distr. simpl. rewrite <- app_assoc. reflexivity.
Qed.
Lemma rev_split' : forall (l a b : list obs) o, l = a ++ o :: b -> rev l = rev b ++ o :: rev a.
Proof. intros. subst. rewrite rev_app_distr. simpl. rewrite <- app_assoc. reflexivity. Qed.

Lemma alive_outstanding : forall l id e t g, alive_log l id e t g -> outstanding (rev l) id e t.
Proof.
  intros l id e t g (l2 & l1 & H & K1 & K2). exists g, (rev l1), (rev l2). split; [apply rev_split'; auto|]. split.
  - intros o Ho. rewrite <- in_rev in Ho. apply K1; auto.
  - intros. rewrite <- in_rev. auto.
Qed.
Lemma outstanding_alive : forall l id e t, outstanding (rev l) id e t -> exists g, alive_log l id e t g.
Proof.
  intros l id e t (g & a & b & H & K1 & K2). apply rev_split in H. exists g, (rev b), (rev a). split; auto. split.
  - intros o Ho. rewrite <- in_rev in Ho. apply K1; auto.
  - intros. rewrite <- in_rev. auto.
Qed.

Lemma fire_id_sched : forall c acts a b id e t g,
  trace c acts = a ++ OFire id e t g :: b ->
  exists a1 a2, a = a1 ++ OSched id e t g :: a2 /\ (forall o, In o a2 -> ~ cancels e t o) /\
    (forall e' t' g', ~ In (OFire id e' t' g') a).
Proof.
  intros c acts a b id e t g H. pose proof (reach_inv c acts) as I. unfold trace in H.
  pose proof (rev_split _ _ _ _ H) as H'.
  destruct (I_fired c _ I _ _ _ _ _ _ H') as (l2 & l1 & E & K1 & K2).
  apply rev_split in E. exists (rev l1), (rev l2). split; auto. split.
  - intros o Ho. rewrite <- in_rev in Ho. apply K1; auto.
  - intros e' t' g' Hin. subst a. rewrite in_app_iff in Hin. destruct Hin as [Hin|[Hin|Hin]]; [|discriminate|rewrite <- in_rev in Hin; eapply K2; eauto].
    apply in_split in Hin. destruct Hin as (p & q & Hpq).
    rewrite Hpq in H. rewrite <- !app_assoc in H. simpl in H. apply rev_split in H.
    destruct (I_fired c _ I _ _ _ _ _ _ H) as (m2 & m1 & E & _).
    (* the occurrence id was accepted twice *)
    assert (Hp : In (OSched id e' t' g') p).
    { apply in_rev. rewrite E. apply in_or_app. right. left. auto. }
    rewrite rev_app_distr in H'. simpl in H'. rewrite <- !app_assoc in H'.
    assert (H2 : s_log (exec c init acts) = (rev b ++ OFire id e t g :: rev (rev l2)) ++ OSched id e t g :: rev (rev l1)).
    { rewrite H'. rewrite <- app_assoc. reflexivity. }
    pose proof (I_schedids c _ I _ _ _ _ _ _ H2 id e' t' g') as L.
    assert (In (OSched id e' t' g') (rev (rev l1))).
    { rewrite <- in_rev. rewrite Hpq. apply in_or_app. auto. }
    specialize (L H0). lia.
Qed.

(* Requests carry the firing group of their event. *)
Definition group_ok (c : cfg) (o : obs) : Prop := match o with OSched _ e _ g => g = ev_group c e | _ => True end.

Lemma schedule_event_group_ok : forall c s e rel cont uniq s' ok,
  schedule_event c s e rel (ev_gid c e) cont uniq = (s', ok) -> Forall (group_ok c) (s_log s) -> Forall (group_ok c) (s_log s').
Proof.
  intros. apply schedule_event_log in H. destruct H as (o & -> & _ & [->|[->| ->]]); constructor; simpl; auto.
Qed.
Lemma drain_group_ok : forall c l s s', drain c s l = Some s' -> Forall (group_ok c) (s_log s) -> Forall (group_ok c) (s_log s').
Proof.
  induction l as [|[[n rel] cont] r IH]; simpl; intros s s' H K.
  - injection H as <-. auto.
  - destruct (schedule_event c s (User n) rel (c_gid c n) cont false) as [s1 ok] eqn:ES. destruct ok; [|discriminate].
    eapply IH; eauto. eapply (schedule_event_group_ok c s (User n)); eauto.
Qed.
Lemma step_group_ok : forall c s a, Forall (group_ok c) (s_log s) -> Forall (group_ok c) (s_log (step c s a)).
Proof.
  intros c s a H.
  assert (HC : forall k, Forall (group_ok c) (s_log (exec_cmd c s k))).
  { intros k. destruct k; simpl; auto; try (constructor; simpl; auto; fail).
    unfold schedule_user. destruct (_ && _)%bool; [constructor; simpl; auto|].
    destruct (schedule_event c s (User n) rel (c_gid c n) cont (c_uniq c n)) as [s1 ok] eqn:E. simpl.
    eapply (schedule_event_group_ok c s (User n)); eauto. }
  unfold step. destruct a; destruct (s_ctl s); auto.
  - unfold run_begin. destruct num as [[|n']|]; auto. remember (N.pos n') as n.
    set (s0 := set_running (set_first s false) (match s_queue (set_first s false) with [] => false | _ :: _ => true end)).
    destruct (match s_queue s0 with [] => true | q :: _ => s_tick s0 + n <? q_tick q end).
    + destruct exact; auto.
    + simpl. destruct (schedule_event c s0 Stop (n - 1) 0 exact false) as [s1 ok] eqn:ES. simpl.
      eapply (schedule_event_group_ok c s0 Stop); eauto.
  - constructor; simpl; auto.
  - constructor; simpl; auto. constructor; simpl; auto.
  - unfold tick_begin. destruct (s_running s); auto. destruct (s_queue s); auto.
    destruct (drain c _ _) eqn:ED; auto. eapply drain_group_ok; eauto.
  - unfold scan, tick_end. destruct (s_queue s) as [|q rest]; auto. destruct (Nat.ltb _ _).
    + destruct (nth_error _ _) as [sl|]; auto. destruct (sl_ev sl) as [[|n]|]; auto; constructor; simpl; auto.
    + destruct rest; auto. destruct (_ <? _); auto.
Qed.
Lemma exec_group_ok : forall c l s, Forall (group_ok c) (s_log s) -> Forall (group_ok c) (s_log (exec c s l)).
Proof. induction l; simpl; intros; auto. apply IHl. apply step_group_ok. auto. Qed.
Lemma trace_group : forall c acts id e t g, In (OSched id e t g) (trace c acts) -> g = ev_group c e.
Proof.
  intros. unfold trace in H. rewrite <- in_rev in H.
  pose proof (exec_group_ok c acts init (Forall_nil _)) as K. rewrite Forall_forall in K. apply (K _ H).
Qed.

(* ================= C01 ================= *)
(* Any two firings, in chronological order with no restartAt between them: ticks do not
   decrease; in a tick the precedence groups of the events do not decrease; in the same tick
   and group the first was scheduled first. *)
Theorem C01_firing_order : forall c acts a b d i1 e1 t1 g1 i2 e2 t2 g2,
  trace c acts = a ++ OFire i1 e1 t1 g1 :: b ++ OFire i2 e2 t2 g2 :: d -> no_restart b ->
  g1 = ev_group c e1 /\ g2 = ev_group c e2 /\
  (t1 < t2 \/ (t1 = t2 /\ (g1 < g2)%nat) \/
   (t1 = t2 /\ g1 = g2 /\
    exists p q r, a ++ OFire i1 e1 t1 g1 :: b = p ++ OSched i1 e1 t1 g1 :: q ++ OSched i2 e2 t2 g2 :: r)).
Proof.
  intros c acts a b d i1 e1 t1 g1 i2 e2 t2 g2 H HR. pose proof (reach_inv c acts) as I.
  destruct (fire_id_sched _ _ _ _ _ _ _ _ H) as (p1 & p2 & E1 & _).
  assert (H2 : trace c acts = (a ++ OFire i1 e1 t1 g1 :: b) ++ OFire i2 e2 t2 g2 :: d) by (rewrite H, <- app_assoc; reflexivity).
  destruct (fire_id_sched _ _ _ _ _ _ _ _ H2) as (q1 & q2 & E2 & _).
  assert (In1 : In (OSched i1 e1 t1 g1) (a ++ OFire i1 e1 t1 g1 :: b)).
  { rewrite E1. apply in_or_app. left. apply in_or_app. right. left. auto. }
  assert (In2 : In (OSched i2 e2 t2 g2) (a ++ OFire i1 e1 t1 g1 :: b)).
  { rewrite E2. apply in_or_app. right. left. auto. }
  split; [apply (trace_group c acts i1 e1 t1); rewrite H2; apply in_or_app; auto|].
  split; [apply (trace_group c acts i2 e2 t2); rewrite H2; apply in_or_app; auto|].
  unfold trace in H. apply rev_split in H. rewrite rev_app_distr in H. simpl in H. rewrite <- !app_assoc in H. simpl in H.
  apply (I_order c _ I) in H; [|intros t; rewrite <- in_rev; apply HR].
  unfold elt, klt, e_t, e_g, e_s in H. simpl in H.
  destruct H as [[H|H]|[HE Hid]]; auto.
  right. right. injection HE as -> ->. split; auto. split; auto.
  (* same key: ids ordered, so the acceptances are ordered *)
  assert (Hlt : (i1 < i2)%nat) by exact Hid.
  rewrite E2 in In1. apply in_app_or in In1. destruct In1 as [In1|[In1|In1]].
  - apply in_split in In1. destruct In1 as (x & y & ->). exists x, y, q2. rewrite E2, <- app_assoc. reflexivity.
  - exfalso. injection In1 as ->. lia.
  - exfalso. apply in_split in In1. destruct In1 as (x & y & ->).
    assert (H3 : trace c acts = (q1 ++ OSched i2 e2 t2 g2 :: x) ++ OSched i1 e1 t2 g2 :: (y ++ OFire i2 e2 t2 g2 :: d)).
    { rewrite H2, E2. rewrite <- !app_assoc. simpl. rewrite <- app_assoc. reflexivity. }
    unfold trace in H3. apply rev_split in H3.
    pose proof (I_schedids c _ I _ _ _ _ _ _ H3 i2 e2 t2 g2) as L.
    assert (K : In (OSched i2 e2 t2 g2) (rev (q1 ++ OSched i2 e2 t2 g2 :: x))).
    { rewrite <- in_rev. apply in_or_app. right. left. auto. }
    specialize (L K). lia.
Qed.

(* Three events: 2 (group of gid 2) and 0 (gid 1) at tick 5, 1 (gid 1) at tick 5 scheduled by the
   handler of event 3 at tick 2. They fire 3, 0, 1, 2. *)
Definition cex : cfg := mkCfg 2 (fun n => match n with 2%nat => 2%nat | 3%nat => 0%nat | _ => 1%nat end) (fun n => Nat.eqb n 7).
Definition steps (n : nat) : list action := repeat AStep n.
Example C01_ex :
  trace cex ([ACmd (CSchedule 2 5 true); ACmd (CSchedule 0 5 true); ACmd (CSchedule 3 2 true); ARun None true]
             ++ steps 2 ++ [ACmd (CSchedule 1 3 true)] ++ steps 20)
  = [OSched 0 (User 2) 5 3; OSched 1 (User 0) 5 2; OSched 2 (User 3) 2 4; OFire 2 (User 3) 2 4;
     OSched 3 (User 1) 5 2; OFire 1 (User 0) 5 2; OFire 3 (User 1) 5 2; OFire 0 (User 2) 5 3].
Proof. vm_compute. reflexivity. Qed.
Print Assumptions C01_firing_order.

(* ================= C02 ================= *)
(* What fires was accepted for exactly that tick, was not cancelled since, and had not fired. *)
Theorem C02_fired_was_scheduled : forall c acts a b id e t g,
  trace c acts = a ++ OFire id e t g :: b ->
  outstanding a id e t /\ (forall e' t' g', ~ In (OFire id e' t' g') a).
Proof.
  intros. destruct (fire_id_sched _ _ _ _ _ _ _ _ H) as (a1 & a2 & E & K1 & K2).
  split; auto. exists g, a1, a2. split; auto. split; auto.
  intros e' t' g' Hin. apply (K2 e' t' g'). rewrite E. apply in_or_app. right. right. auto.
Qed.
Example C02_fired_ex : exists a b id, trace cex ([ACmd (CSchedule 0 5 true); ARun None true] ++ steps 20) = a ++ OFire id (User 0) 5 2 :: b.
Proof. exists [OSched 0 (User 0) 5 2], [], 0%nat. vm_compute. reflexivity. Qed.
Print Assumptions C02_fired_was_scheduled.

(* Once the scheduler has moved past tick [t], every occurrence accepted for [t] has fired, at
   [t], or was cancelled after being accepted. *)
Theorem C02_accepted_fires : forall c acts a b id e t g,
  trace c acts = a ++ OSched id e t g :: b ->
  s_ctl (exec c init acts) = Idle -> t < s_tick (exec c init acts) ->
  In (OFire id e t g) b \/ exists o, In o b /\ cancels e t o.
Proof.
  intros c acts a b id e t g H HC Ht. pose proof (reach_inv c acts) as I. unfold trace in H. apply rev_split in H.
  destruct (I_complete c _ I _ _ _ _ _ _ H) as [K|[(o & K1 & K2)|[K|K]]].
  - left. apply in_rev; auto.
  - right. exists o. split; auto. apply in_rev; auto.
  - congruence.
  - exfalso. apply (pend_tick_ge c _ _ I) in K. unfold e_t in K; simpl in K. lia.
Qed.
Example C02_accepted_ex :
  let acts := [ACmd (CSchedule 0 5 true); ACmd (CSchedule 1 5 true); ACmd (CCancel 1); ARun None true] ++ steps 20 in
  trace cex acts = [OSched 0 (User 0) 5 2; OSched 1 (User 1) 5 2; OCancel (User 1); OFire 0 (User 0) 5 2] /\
  s_ctl (exec cex init acts) = Idle /\ s_tick (exec cex init acts) = 6.
Proof. vm_compute. auto. Qed.
Print Assumptions C02_accepted_fires.

(* An occurrence cancelled before it fired never fires. *)
Theorem C02_cancelled_never_fires : forall c acts a b d id e t g o,
  trace c acts = a ++ OSched id e t g :: b ++ o :: d -> cancels e t o ->
  (forall e' t' g', ~ In (OFire id e' t' g') b) ->
  forall e' t' g', ~ In (OFire id e' t' g') (trace c acts).
Proof.
  intros c acts a b d id e t g o H HK HF e' t' g' Hin. pose proof (reach_inv c acts) as I.
  apply in_split in Hin. destruct Hin as (x & y & Hxy).
  destruct (fire_id_sched _ _ _ _ _ _ _ _ Hxy) as (x1 & x2 & E & K1 & K2).
  (* both acceptances of id are the same position *)
  assert (U : forall p1 q1 p2 q2 ea ta ga eb tb gb,
     trace c acts = p1 ++ OSched id ea ta ga :: q1 -> trace c acts = p2 ++ OSched id eb tb gb :: q2 ->
     (length p1 <= length p2)%nat -> p1 = p2).
  { intros p1 q1 p2 q2 ea ta ga eb tb gb A1 A2 L. rewrite A1 in A2.
    assert (P : p1 = p2 \/ exists z, p2 = p1 ++ OSched id ea ta ga :: z).
    { clear - A2 L. revert p2 L A2. induction p1; intros [|b p2] L A2; simpl in *; auto.
      - injection A2 as <- A2. right. exists p2. auto.
      - lia.
      - injection A2 as <- A2. destruct (IHp1 p2) as [->|(z & ->)]; auto; [lia|]. right. exists z. auto. }
    destruct P as [P|(z & P)]; auto. exfalso. subst p2.
    rewrite A2 in A1. unfold trace in A1. apply rev_split in A1.
    pose proof (I_schedids c _ I _ _ _ _ _ _ A1 id ea ta ga) as LL.
    assert (In (OSched id ea ta ga) (rev (p1 ++ OSched id ea ta ga :: z))).
    { rewrite <- in_rev. apply in_or_app. right. left. auto. }
    specialize (LL H0). lia. }
  assert (A2 : trace c acts = x1 ++ OSched id e' t' g' :: (x2 ++ OFire id e' t' g' :: y)).
  { rewrite Hxy, E, <- app_assoc. reflexivity. }
  assert (x1 = a).
  { destruct (Nat.le_ge_cases (length x1) (length a)); [eapply U; eauto|symmetry; eapply U; eauto]. }
  subst x1. rewrite H in A2. apply app_inv_head in A2. injection A2 as -> -> -> A2.
  assert (P : (exists z, x2 = b ++ o :: z) \/ (exists z, b = x2 ++ OFire id e' t' g' :: z)).
  { clear - A2 HK. revert x2 A2. induction b; intros [|w x2] A2; simpl in *.
    - injection A2 as -> _. exfalso. destruct HK as [HK|[HK|HK]]; discriminate.
    - injection A2 as <- A2. left. exists x2. auto.
    - injection A2 as -> A2. right. exists b. auto.
    - injection A2 as <- A2. destruct (IHb x2 A2) as [(z & ->)|(z & ->)]; [left|right]; exists z; auto. }
  destruct P as [(z & ->)|(z & ->)].
  - apply (K1 o); auto. apply in_or_app. right. left. auto.
  - apply (HF e' t' g'). apply in_or_app. right. left. auto.
Qed.
Example C02_cancelled_ex :
  trace cex ([ACmd (CSchedule 0 5 true); ACmd (CSchedule 1 5 true); ACmd (CCancelAt 1 5); ARun None true] ++ steps 20)
  = [OSched 0 (User 0) 5 2] ++ OSched 1 (User 1) 5 2 :: [] ++ OCancelAt (User 1) 5 :: [OFire 0 (User 0) 5 2].
Proof. vm_compute. reflexivity. Qed.
Print Assumptions C02_cancelled_never_fires.

(* ================= C03 ================= *)
(* One call run(n): whatever the handlers do, only events of the n ticks starting at the current
   one fire, and the current tick ends inside [t, t+n]. *)
Theorem C03_run_window : forall c acts n exact racts s',
  let s := exec c init acts in
  s_ctl s = Idle -> 0 < n ->
  run_to c (step c s (ARun (Some n) exact)) racts s' ->
  s_tick s <= s_tick s' <= s_tick s + n /\
  exists new, rev (s_log s') = trace c acts ++ new /\
    forall id e t g, In (OFire id e t g) new -> s_tick s <= t < s_tick s + n.
Proof.
  intros c acts n exact racts s' s HC Hn HR. unfold step in HR. rewrite HC in HR.
  destruct (window c s n exact racts s' (reach_inv c acts) HC Hn HR) as (H1 & new & H2 & H3).
  split; auto. exists (rev new). split.
  - rewrite H2, rev_app_distr. reflexivity.
  - intros id e t g Hin. rewrite <- in_rev in Hin. apply H3 in Hin. lia.
Qed.
Example C03_window_ex :
  let acts := [ACmd (CSchedule 0 3 true); ACmd (CSchedule 1 9 true)] in
  let s := exec cex init acts in
  let s' := exec cex s (ARun (Some 5) true :: steps 12) in
  s_ctl s = Idle /\ run_to cex (step cex s (ARun (Some 5) true)) (steps 12) s' /\
  s_tick s' = 5 /\ In (OFire 0 (User 0) 3 2) (s_log s') /\ ~ In (OFire 1 (User 1) 9 2) (s_log s').
Proof.
  split; [reflexivity|]. split.
  - unfold steps. simpl repeat. do 12 (apply run_step; [vm_compute; discriminate|]). vm_compute. apply run_done. reflexivity.
  - vm_compute. repeat split; auto. intros H. repeat (destruct H as [H|H]; [discriminate|]). easy.
Qed.
Print Assumptions C03_run_window.

(* An exacting run(n) ends exactly n ticks later, provided no stop marker of an earlier run is
   still outstanding and no handler calls stopRunning. *)
Theorem C03_exacting_run_advances_partial : forall c acts n racts s',
  let s := exec c init acts in
  s_ctl s = Idle -> 0 < n ->
  (forall id t, ~ outstanding (trace c acts) id Stop t) ->
  ~ In (ACmd CStop) racts ->
  run_to c (step c s (ARun (Some n) true)) racts s' -> s_tick s' = s_tick s + n.
Proof.
  intros c acts n racts s' s HC Hn HO HNC HR. unfold step in HR. rewrite HC in HR.
  eapply (exact_run c s); eauto; [apply reach_inv|].
  intros x Hx Hs. apply (HO (sl_id (e_s x)) (e_t x)). apply (alive_outstanding _ _ _ _ (e_g x)).
  apply (I_alive c s (reach_inv c acts)); auto.
Qed.
Example C03_exact_ex :
  let acts := [ACmd (CSchedule 0 3 true); ACmd (CSchedule 1 9 true)] in
  (forall id t, ~ outstanding (trace cex acts) id Stop t).
Proof.
  intros acts id t (g & a & b & H & _).
  assert (K : In (OSched id Stop t g) (a ++ OSched id Stop t g :: b)) by (apply in_or_app; right; left; auto).
  rewrite <- H in K. vm_compute in K. destruct K as [K|[K|K]]; try discriminate; easy.
Qed.
Print Assumptions C03_exacting_run_advances_partial.

(* The general statement fails: a non-exacting run(100) that ends early leaves its stop marker
   behind, and a later exacting run(200) stops after 95 ticks. *)
Theorem C03_stale_stop_refuted : exists c acts racts s',
  let s := exec c init acts in
  s_ctl s = Idle /\ ~ In (ACmd CStop) racts /\
  run_to c (step c s (ARun (Some 200) true)) racts s' /\ s_tick s = 6 /\ s_tick s' = 100.
Proof.
  exists cex, ([ACmd (CSchedule 0 5 true); ARun (Some 100) false] ++ steps 9 ++ [ACmd (CSchedule 0 150 true)]), (steps 5).
  exists (exec cex init ([ACmd (CSchedule 0 5 true); ARun (Some 100) false] ++ steps 9 ++ [ACmd (CSchedule 0 150 true); ARun (Some 200) true] ++ steps 5)).
  cbv zeta. split; [reflexivity|]. split; [intros H; unfold steps in H; apply repeat_spec in H; discriminate|].
  split; [|split; reflexivity].
  unfold steps. simpl repeat. do 5 (apply run_step; [vm_compute; discriminate|]). vm_compute. apply run_done. reflexivity.
Qed.
Print Assumptions C03_stale_stop_refuted.

(* ================= C04 ================= *)
(* From inside the handler of an event of group [g]: a request for the current tick and a lower
   group raises, leaving the pending events alone; any other request is accepted for exactly the
   requested tick. [c_gid c n <= c_groups c] says the event was placed by the DAG. *)
Theorem C04_handler_request : forall c acts n rel cont,
  let s := exec c init acts in
  let s' := step c s (ACmd (CSchedule n rel cont)) in
  s_ctl s = Handler -> c_uniq c n = false -> (c_gid c n <= c_groups c)%nat ->
  exists a id e g b,
    trace c acts = a ++ OFire id e (s_tick s) g :: b /\ (forall i f t h, ~ In (OFire i f t h) b) /\
    (rel = 0 /\ (ev_group c (User n) < g)%nat ->
       s_queue s' = s_queue s /\ rev (s_log s') = trace c acts ++ [ORefuse (User n) (s_tick s)]) /\
    (~ (rel = 0 /\ (ev_group c (User n) < g)%nat) ->
       rev (s_log s') = trace c acts ++ [OSched (s_next s) (User n) (s_tick s + rel) (ev_group c (User n))] /\
       is_scheduled_at c s' (User n) rel = true).
Proof.
  intros c acts n rel cont s s' HC HU HG. pose proof (reach_inv c acts) as I. fold s in I.
  destruct (reach_handling c acts HC) as (new & id & e & l & Hl & Hq). fold s in Hl.
  exists (rev l), id, e, (s_grp s), (rev new).
  split. { unfold trace. fold s. apply rev_split'. auto. }
  split. { intros i f t h Hin. rewrite <- in_rev in Hin. rewrite Forall_forall in Hq. apply Hq in Hin. destruct Hin. }
  assert (HG' : (ev_group c (User n) < group_count c)%nat).
  { unfold ev_group, firing_group, ev_gid, group_zero, group_count. destruct (Nat.eqb (c_gid c n) 0); lia. }
  assert (ES : exists ok, schedule_event c s (User n) rel (ev_gid c (User n)) cont false = (s', ok)).
  { unfold s', step. rewrite HC. simpl. unfold schedule_user. rewrite HU. simpl.
    destruct (schedule_event c s (User n) rel (c_gid c n) cont false) as [s1 ok]. exists ok. auto. }
  destruct ES as [ok ES].
  assert (I' : Inv c s') by (eapply (schedule_event_inv c s (User n)); eauto; congruence).
  pose proof (schedule_event_frame c s (User n) _ _ _ _ _ ES) as (F1 & F2 & _).
  pose proof (schedule_event_pend c s (User n) _ _ _ _ _ I ltac:(congruence) ltac:(congruence) ES) as FP.
  apply schedule_event_cases in ES.
  destruct ES as [(_ & E & [HR|HR])|(_ & Hr & _ & s1 & Hs & [(HF & _)|(_ & qs & p & Hi & ->)])]; try discriminate; try lia.
  - split; [|tauto]. intros _. rewrite E. split; auto. simpl. destruct HR as [-> _]. rewrite N.add_0_r. reflexivity.
  - split; [tauto|]. intros _. split.
    + destruct Hs as [E|(f & x & E)]; rewrite E; reflexivity.
    + apply (proj2 (is_scheduled_at_flat c s' (User n) rel I')).
      exists (s_tick s + rel, ev_group c (User n), mkSlot (Some (User n)) (s_next s)). rewrite F2.
      split; [|auto].
      assert (E : flat (s_queue s') = flat qs) by (destruct Hs as [->|(f & x & ->)]; reflexivity).
      rewrite E.
      replace qs with (fst (q_insert c (s_queue s) (s_pool s) (s_tick s + rel) (ev_group c (User n)) (mkSlot (Some (User n)) (s_next s)))) by (rewrite Hi; auto).
      rewrite q_insert_flat; auto; [|apply (I_q c s I)|apply (I_sorted c s I)]. apply ins_In. auto.
Qed.
Example C04_ex :
  let acts := [ACmd (CSchedule 2 5 true); ARun None true] ++ steps 2 in
  let s := exec cex init acts in
  s_ctl s = Handler /\
  s_log (step cex s (ACmd (CSchedule 0 0 true))) = ORefuse (User 0) 5 :: s_log s /\
  s_log (step cex s (ACmd (CSchedule 3 0 true))) = OSched 1 (User 3) 5 4 :: s_log s /\
  s_log (step cex s (ACmd (CSchedule 0 1 true))) = OSched 1 (User 0) 6 2 :: s_log s.
Proof. vm_compute. auto. Qed.
Print Assumptions C04_handler_request.

(* Between runs every request for a placed event is accepted. *)
Theorem C04_idle_request : forall c acts n rel cont,
  let s := exec c init acts in
  s_ctl s = Idle -> c_uniq c n = false -> (c_gid c n <= c_groups c)%nat ->
  rev (s_log (step c s (ACmd (CSchedule n rel cont)))) =
    trace c acts ++ [OSched (s_next s) (User n) (s_tick s + rel) (ev_group c (User n))].
Proof.
  intros c acts n rel cont s HC HU HG. pose proof (reach_inv c acts) as I. fold s in I.
  pose proof (I_ctl c s I) as K. unfold ctl_ok in K. rewrite HC in K.
  assert (HG' : (ev_group c (User n) < group_count c)%nat).
  { unfold ev_group, firing_group, ev_gid, group_zero, group_count. destruct (Nat.eqb (c_gid c n) 0); lia. }
  unfold step. rewrite HC. simpl. unfold schedule_user. rewrite HU. simpl.
  destruct (schedule_event c s (User n) rel (c_gid c n) cont false) as [s1 ok] eqn:ES. simpl.
  change (c_gid c n) with (ev_gid c (User n)) in ES. apply schedule_event_cases in ES.
  destruct ES as [(_ & E & [HR|HR])|(_ & Hr & _ & s2 & Hs & [(HF & _)|(_ & qs & p & Hi & ->)])]; try discriminate; try lia.
  destruct Hs as [->|(f & x & ->)]; reflexivity.
Qed.
Example C04_idle_ex : s_log (step cex init (ACmd (CSchedule 0 0 true))) = [OSched 0 (User 0) 0 2].
Proof. vm_compute. reflexivity. Qed.
Print Assumptions C04_idle_request.

(* Events posted with scheduleAsyncEvent are not protected: with delay 0 and a group below the
   first group of the tick being started, the exception leaves run() itself and the pending
   event of that tick is lost. *)
Theorem C04_async_refuted : exists c acts,
  s_ctl (exec c init acts) = Crashed /\
  trace c acts = [OSched 0 (User 2) 5 3].
Proof.
  exists cex, [ACmd (CSchedule 2 5 true); ACmd (CAsync 0 0 true); ARun None true; AStep].
  vm_compute. auto.
Qed.
Print Assumptions C04_async_refuted.

(* ================= C05 ================= *)
Lemma outstanding_pend : forall c acts id e t, s_ctl (exec c init acts) <> Crashed ->
  outstanding (trace c acts) id e t ->
  exists x, In x (pend (exec c init acts)) /\ sl_ev (e_s x) = Some e /\ e_t x = t.
Proof.
  intros c acts id e t HC H. apply outstanding_alive in H. destruct H as (g & l2 & l1 & H & K1 & K2).
  pose proof (reach_inv c acts) as I.
  destruct (I_complete c _ I _ _ _ _ _ _ H) as [K|[(o & K & K')|[K|K]]].
  - exfalso. eapply K2; eauto.
  - exfalso. eapply K1; eauto.
  - congruence.
  - exists (t, g, mkSlot (Some e) id). auto.
Qed.

(* A pending occurrence is always reported. *)
Theorem C05_pending_reported : forall c acts id e t,
  let s := exec c init acts in
  s_ctl s <> Crashed -> outstanding (trace c acts) id e t ->
  is_scheduled c s e = true /\ forall rel, t = s_tick s + rel -> is_scheduled_at c s e rel = true.
Proof.
  intros c acts id e t s HC H. pose proof (reach_inv c acts) as I. fold s in I.
  destruct (outstanding_pend c acts id e t HC H) as (x & Hx & Hs & Ht). fold s in Hx.
  apply skipn_In in Hx. split.
  - apply (proj2 (is_scheduled_flat c s e I)). eauto.
  - intros rel ->. apply (proj2 (is_scheduled_at_flat c s e rel I)). eauto.
Qed.
Example C05_pending_ex : let acts := [ACmd (CSchedule 0 5 true)] in
  outstanding (trace cex acts) 0 (User 0) 5 /\
  is_scheduled cex (exec cex init acts) (User 0) = true /\ is_scheduled_at cex (exec cex init acts) (User 0) 5 = true.
Proof.
  split; [|vm_compute; auto]. exists 2%nat, [], []. split; [reflexivity|]. split; easy.
Qed.
Print Assumptions C05_pending_reported.

Lemma in_flat_pre : forall c s x, Inv c s -> In x (flat (s_queue s)) ->
  In x (pend s) \/ (In x (pre s) /\ (s_ctl s = Handler \/ s_ctl s = Scan) /\ e_t x = s_tick s /\ e_g x = s_grp s).
Proof.
  intros c s x I Hx. rewrite flat_pre_pend in Hx. apply in_app_or in Hx. destruct Hx as [Hx|Hx]; auto. right.
  pose proof (proj2 (done_prefix c s I) x Hx) as E. split; auto. split.
  - unfold pre, done in Hx. destruct (s_ctl s); auto; easy.
  - unfold e_t, e_g. rewrite E. auto.
Qed.

(* Between runs the queries are exact. *)
Theorem C05_idle_exact : forall c acts e,
  let s := exec c init acts in
  s_ctl s = Idle ->
  (is_scheduled c s e = true <-> exists id t, outstanding (trace c acts) id e t) /\
  (forall rel, is_scheduled_at c s e rel = true <-> exists id, outstanding (trace c acts) id e (s_tick s + rel)).
Proof.
  intros c acts e s HC. pose proof (reach_inv c acts) as I. fold s in I.
  assert (NP : forall x, In x (flat (s_queue s)) -> In x (pend s)).
  { intros x Hx. destruct (in_flat_pre c s x I Hx) as [|(_ & [K|K] & _)]; auto; congruence. }
  split; [|intros rel]; split.
  - intros H. apply (proj1 (is_scheduled_flat c s e I)) in H. destruct H as (x & Hx & Hs).
    exists (sl_id (e_s x)), (e_t x). apply (alive_outstanding _ _ _ _ (e_g x)). apply (I_alive c s I); auto.
  - intros (id & t & H). eapply (C05_pending_reported c acts id e t); auto. fold s. congruence.
  - intros H. apply (proj1 (is_scheduled_at_flat c s e rel I)) in H. destruct H as (x & Hx & Hs & Ht).
    exists (sl_id (e_s x)). rewrite <- Ht. apply (alive_outstanding _ _ _ _ (e_g x)). apply (I_alive c s I); auto.
  - intros (id & H). eapply (C05_pending_reported c acts id e); eauto. fold s. congruence.
Qed.
Example C05_idle_ex : let s := exec cex init [ACmd (CSchedule 0 5 true); ACmd (CSchedule 0 7 true); ACmd (CCancelAt 0 5)] in
  s_ctl s = Idle /\ is_scheduled cex s (User 0) = true /\ is_scheduled_at cex s (User 0) 5 = false /\ is_scheduled_at cex s (User 0) 7 = true.
Proof. vm_compute. auto. Qed.
Print Assumptions C05_idle_exact.

(* Inside a handler they are exact for events outside the group being fired, and for every other
   tick. *)
Theorem C05_handler_exact_partial : forall c acts e rel,
  let s := exec c init acts in
  s_ctl s = Handler -> (ev_group c e <> s_grp s \/ rel <> 0) ->
  (is_scheduled_at c s e rel = true <-> exists id, outstanding (trace c acts) id e (s_tick s + rel)).
Proof.
  intros c acts e rel s HC HD. pose proof (reach_inv c acts) as I. fold s in I. split.
  - intros H. apply (proj1 (is_scheduled_at_flat c s e rel I)) in H. destruct H as (x & Hx & Hs & Ht).
    assert (In x (pend s)).
    { destruct (in_flat_pre c s x I Hx) as [|(_ & _ & K1 & K2)]; auto. exfalso.
      pose proof (I_grp c s I x e Hx Hs) as K3. destruct HD as [HD|HD]; [congruence|lia]. }
    exists (sl_id (e_s x)). rewrite <- Ht. apply (alive_outstanding _ _ _ _ (e_g x)). apply (I_alive c s I); auto.
  - intros (id & H). eapply (C05_pending_reported c acts id e); eauto. fold s. congruence.
Qed.
Example C05_handler_ex : let s := exec cex init ([ACmd (CSchedule 0 5 true); ACmd (CSchedule 2 5 true); ARun None true] ++ steps 2) in
  s_ctl s = Handler /\ ev_group cex (User 2) <> s_grp s /\ is_scheduled_at cex s (User 2) 0 = true /\ is_scheduled_at cex s (User 3) 0 = false.
Proof. vm_compute. repeat split; auto; discriminate. Qed.
Print Assumptions C05_handler_exact_partial.

(* Inside the handler of an event whose only occurrence is the one firing, isScheduled still
   answers true. *)
Theorem C05_self_refuted : exists c acts n,
  let s := exec c init acts in
  s_ctl s = Handler /\ is_scheduled c s (User n) = true /\ is_scheduled_at c s (User n) 0 = true /\
  forall id t, ~ outstanding (trace c acts) id (User n) t.
Proof.
  exists cex, ([ACmd (CSchedule 0 5 true); ARun None true] ++ steps 2), 0%nat. cbv zeta.
  split; [reflexivity|]. split; [reflexivity|]. split; [reflexivity|].
  intros id t H. apply outstanding_pend in H; [|vm_compute; discriminate].
  destruct H as (x & Hx & _). vm_compute in Hx. easy.
Qed.
Print Assumptions C05_self_refuted.

(* ================= C10 ================= *)
(* The log of a crashed execution is that of its last proper state. *)
Lemma crash_log : forall c l, exists l1 l2, l = l1 ++ l2 /\
  s_ctl (exec c init l1) <> Crashed /\ s_log (exec c init l) = s_log (exec c init l1).
Proof.
  intros c l. induction l using rev_ind.
  - exists [], []. simpl. split; auto. split; auto. discriminate.
  - destruct (s_ctl (exec c init l)) eqn:E;
      try (destruct (s_ctl (exec c init (l ++ [x]))) eqn:E2;
           try (exists (l ++ [x]), []; rewrite app_nil_r, E2; split; auto; split; [discriminate|auto]; fail);
           exists l, [x]; split; auto; split; [rewrite E; discriminate|];
           unfold exec in *; rewrite fold_left_app in *; simpl in *; fold (exec c init l) in *;
           set (s := exec c init l) in *;
           unfold step in E2 |- *; rewrite E in E2 |- *; destruct x; auto; try congruence;
           try (rewrite exec_cmd_ctl in E2; congruence); try (simpl in E2; congruence)).
    + exfalso. clear - E E2. unfold run_begin in E2. destruct num as [[|n']|]; try (simpl in E2; congruence).
      remember (N.pos n') as n.
      set (s0 := set_running (set_first s false) (match s_queue (set_first s false) with [] => false | _ :: _ => true end)) in *.
      destruct (match s_queue s0 with [] => true | q :: _ => s_tick s0 + n <? q_tick q end); [destruct exact; simpl in E2; congruence|simpl in E2; congruence].
    + unfold tick_begin in *. destruct (s_running s); [|simpl in E2; congruence]. destruct (s_queue s); auto.
      destruct (drain c _ _) eqn:ED; auto. exfalso.
      assert (F : forall l s s', drain c s l = Some s' -> s_ctl s' = s_ctl s).
      { clear. induction l as [|[[n rel] cont] r IH]; simpl; intros s s' H; [injection H as <-; auto|].
        destruct (schedule_event c s (User n) rel (c_gid c n) cont false) as [s1 ok] eqn:ES. destruct ok; [|discriminate].
        pose proof (schedule_event_frame c s (User n) _ _ _ _ _ ES) as (F1 & _). rewrite <- F1. eauto. }
      apply F in ED. simpl in ED. congruence.
    + unfold scan, tick_end in *. destruct (s_queue s) as [|q rest]; auto.
      destruct (Nat.ltb _ _).
      * destruct (nth_error _ _) as [sl|]; [|simpl in E2; congruence]. destruct (sl_ev sl) as [[|n]|]; simpl in E2; congruence.
      * destruct rest; [simpl in E2; congruence|]. destruct (_ <? _); simpl in E2; congruence.
    + destruct IHl as (l1 & l2 & -> & K1 & K2). exists l1, (l2 ++ [x]). rewrite app_assoc. split; auto. split; auto.
      unfold exec in *. rewrite fold_left_app. simpl. rewrite step_crashed by (exact E). exact K2.
Qed.

Lemma uniq_facts : forall c n acts, c_uniq c n = true -> Forall (no_async n) acts ->
  exists s, Inv c s /\ U c n s /\ s_log s = s_log (exec c init acts).
Proof.
  intros c n acts HU HA. destruct (crash_log c acts) as (l1 & l2 & -> & K1 & K2).
  apply Forall_app in HA. exists (exec c init l1). split; [apply reach_inv|]. split; [|auto].
  apply U_reach; tauto.
Qed.

(* The handler of a unique event that is not posted asynchronously runs at most once per tick. *)
Theorem C10_at_most_once_partial : forall c acts n a b d i1 g1 i2 g2 t,
  c_uniq c n = true -> Forall (no_async n) acts ->
  trace c acts = a ++ OFire i1 (User n) t g1 :: b ++ OFire i2 (User n) t g2 :: d -> no_restart b -> False.
Proof.
  intros c acts n a b d i1 g1 i2 g2 t HU HA H HR. destruct (uniq_facts c n acts HU HA) as (s & _ & Us & E).
  unfold trace in H. rewrite <- E in H. apply rev_split in H. rewrite rev_app_distr in H. simpl in H.
  rewrite <- !app_assoc in H. simpl in H. apply (U_once c n s Us) in H; auto.
  intros u. rewrite <- in_rev. apply HR.
Qed.
(* Event 7 is unique: two requests for tick 5 from outside and one from a handler at tick 2. *)
Example C10_once_ex :
  trace cex ([ACmd (CSchedule 7 5 true); ACmd (CSchedule 7 5 true); ACmd (CSchedule 3 2 true); ARun None true]
             ++ steps 2 ++ [ACmd (CSchedule 7 3 true)] ++ steps 20)
  = [OSched 0 (User 7) 5 2; OAbsorb (User 7) 5; OSched 1 (User 3) 2 4; OFire 1 (User 3) 2 4;
     OAbsorb (User 7) 5; OFire 0 (User 7) 5 2].
Proof. vm_compute. reflexivity. Qed.
Print Assumptions C10_at_most_once_partial.

(* Every request accepted for tick t is served: once t has passed, the handler ran at t after the
   request, unless the event was cancelled after the request. *)
Theorem C10_requests_served_partial : forall c acts n a b o t,
  c_uniq c n = true -> Forall (no_async n) acts ->
  trace c acts = a ++ o :: b -> ((exists id g, o = OSched id (User n) t g) \/ o = OAbsorb (User n) t) ->
  s_ctl (exec c init acts) = Idle -> t < s_tick (exec c init acts) ->
  (exists id g, In (OFire id (User n) t g) b) \/ exists k, In k b /\ cancels (User n) t k.
Proof.
  intros c acts n a b o t HU HA H [(id & g & ->)| ->] HC Ht.
  - destruct (C02_accepted_fires c acts _ _ _ _ _ _ H HC Ht); eauto.
  - assert (Us : U c n (exec c init acts)) by (apply U_reach; auto; congruence).
    unfold trace in H. pose proof (rev_split _ _ _ _ H) as H'.
    destruct (U_abs c n _ Us _ _ _ H') as (id & g & (l2 & l1 & E & K1 & K2)).
    apply rev_split in E.
    assert (H3 : trace c acts = rev l1 ++ OSched id (User n) t g :: (rev l2 ++ OAbsorb (User n) t :: b)).
    { unfold trace. rewrite H, E, <- app_assoc. reflexivity. }
    destruct (C02_accepted_fires c acts _ _ _ _ _ _ H3 HC Ht) as [K|(k & Kin & K)].
    + apply in_app_or in K. destruct K as [K|[K|K]]; [|discriminate|eauto].
      exfalso. rewrite <- in_rev in K. eapply K2; eauto.
    + apply in_app_or in Kin. destruct Kin as [Kin|[Kin|Kin]]; [| |eauto].
      * exfalso. rewrite <- in_rev in Kin. eapply K1; eauto.
      * exfalso. subst k. destruct K as [K|[K|K]]; discriminate.
Qed.
Example C10_served_ex :
  let acts := [ACmd (CSchedule 7 5 true); ACmd (CSchedule 7 5 true); ARun None true] ++ steps 20 in
  trace cex acts = [OSched 0 (User 7) 5 2] ++ OAbsorb (User 7) 5 :: [OFire 0 (User 7) 5 2] /\
  s_ctl (exec cex init acts) = Idle /\ s_tick (exec cex init acts) = 6 /\ Forall (no_async 7) acts.
Proof. split; [vm_compute; auto|]. split; [vm_compute; auto|]. split; [vm_compute; auto|]. repeat constructor. Qed.
Print Assumptions C10_requests_served_partial.

(* scheduleAsyncEvent bypasses the check: the handler runs twice in one tick. *)
Theorem C10_async_refuted : exists c acts n i1 i2 t g,
  c_uniq c n = true /\ i1 <> i2 /\ no_restart (trace c acts) /\
  In (OFire i1 (User n) t g) (trace c acts) /\ In (OFire i2 (User n) t g) (trace c acts).
Proof.
  exists cex, ([ACmd (CSchedule 7 5 true); ACmd (CAsync 7 0 true); ARun None true] ++ steps 20), 7%nat, 0%nat, 1%nat, 5, 2%nat.
  assert (E : trace cex ([ACmd (CSchedule 7 5 true); ACmd (CAsync 7 0 true); ARun None true] ++ steps 20) =
              [OSched 0 (User 7) 5 2; OSched 1 (User 7) 5 2; OFire 0 (User 7) 5 2; OFire 1 (User 7) 5 2])
    by (vm_compute; reflexivity).
  rewrite E. split; [reflexivity|]. split; [discriminate|]. split.
  - intros t H. simpl in H. repeat (destruct H as [H|H]; [discriminate|]). easy.
  - simpl. auto 10.
Qed.
Print Assumptions C10_async_refuted.

(* After restartAt a first request for the tick at which the handler last ran is refused. *)
Definition restart_acts : list action :=
  [ACmd (CSchedule 7 5 true); ARun None true] ++ steps 20 ++ [ARestart 2].
Theorem C10_restart_refuted : exists c acts n t,
  c_uniq c n = true /\ Forall (no_async n) acts /\
  let s := exec c init acts in
  s_ctl s = Idle /\ s_tick s < t /\ s_queue s = [] /\
  s_log (step c s (ACmd (CSchedule n (t - s_tick s) true))) = ORefuse (User n) t :: s_log s.
Proof.
  exists cex, restart_acts, 7%nat, 5.
  split; [reflexivity|]. split; [repeat constructor|]. cbv zeta.
  split; [vm_compute; reflexivity|]. split; [vm_compute; reflexivity|]. split; vm_compute; reflexivity.
Qed.
Print Assumptions C10_restart_refuted.
