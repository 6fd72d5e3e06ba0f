(** C58: counter triggers fire in the first cycle in which their counter has reached the trigger point, once. *)
From Coq Require Import List NArith Arith Bool Lia.
From Verif Require Import LayoutModel StorageModel TriggerModel TriggerProofs.
Import ListNotations.
Open Scope N_scope.

(** The value of a counter. *)
Definition value (s : tst) (c : nat) : N := nth c (m_ctrs s) 0.
(** The scheduler is running: finalized, and the startup handlers have been called. *)
Definition running (s : tst) : Prop := m_fin s = true /\ m_start s = [].
(** Whether the operation takes a trigger away from the handler: deactivate, resetAbsolute, assignment to it, its destruction. *)
Definition removes (o : op) : bool := match o with ODeact _ | OReset _ _ | OAssign _ _ | OKill _ => true | _ => false end.
(** No operation outside the callbacks does. *)
Definition calm (e : ev) : bool := match e with EOp o => negb (removes o) | _ => true end.

(** Computes a concrete history. *)
Ltac comp := match goal with
  | |- ?x = Done ?s => let v := eval vm_compute in x in match v with Done ?w => unify s w; vm_compute; reflexivity end
  | |- running _ => split; vm_compute; reflexivity
  | |- _ = _ => vm_compute; reflexivity
  end.
(** See [comp]. *)
Ltac comps := repeat match goal with |- _ /\ _ => split; [comp|] end.
Lemma run_good : forall l s, forallb tame_ev l = true -> runs tst0 l = Done s -> good s.
Proof. intros l s T R. apply (runs_good l tst0 s good0 T R). Qed.

(** A cycle of the clock. The callbacks may create triggers and re-arm, at most once, the trigger that called them ([tame_ev]). After
    any history in which the handler has not been destroyed with its event still scheduled ([m_stale]; see
    [C58_deactivate_last_refuted]), the cycle does not fail; exactly the active triggers whose counter has reached the trigger point call
    their callbacks, each once; the other triggers are as before; those that have fired are active only if their callback re-armed
    them. *)
Theorem C58_tick_partial : forall l s, forallb tame_ev l = true -> runs tst0 l = Done s -> running s -> m_stale s = false ->
  exists s' fired, step s ETick = Done s' /\ running s' /\ m_stale s' = false /\ m_tick s' = m_tick s + 1
    /\ NoDup fired /\ (forall i, In i fired <-> exists t, tget s i = Some t /\ t_active t = true /\ t_point t <= value s (t_ctr t))
    /\ m_log s' = rev (map (pair (m_tick s + 1)) fired) ++ m_log s
    /\ m_ctrs s' = m_ctrs s
    /\ (forall i t, tget s i = Some t -> ~ In i fired -> tget s' i = Some t)
    /\ (forall i t, tget s i = Some t -> In i fired ->
        exists t', tget s' i = Some t' /\ t_alive t' = true /\ t_fired t' = true /\ (t_active t' = true <-> exists o, In o (t_cb t) /\ is_arm o = true)).
Proof.
  intros l s T R [F ST] SL. destruct (run_good l s T R) as [TM I]. destruct I as [I|I]; [congruence|].
  destruct (tick_good s I TM F SL) as [s1 [fd [E1 [I1 [TM1 [S1 [F1 [C1 [D1 [T1 [ND [HL [LG [KP [KE [FR _]]]]]]]]]]]]]]]].
  exists s1, fd. split; [cbn [step]; rewrite ST, F; exact E1|]. split; [split; [auto|congruence]|]. split; [auto|]. split; [auto|]. split; [auto|].
  assert (HI : forall i, In i fd <-> exists t, tget s i = Some t /\ t_active t = true /\ t_point t <= value s (t_ctr t)).
  { intros i. rewrite HL. unfold active, hit. split.
    - intros [Q1 Q2]. destruct (tget s i) as [t|] eqn:G; [|discriminate]. exists t. split; [auto|]. split; [auto|]. apply N.leb_le. exact Q2.
    - intros [t [G [Q1 Q2]]]. rewrite G. split; [auto|]. apply N.leb_le. exact Q2. }
  split; [exact HI|]. split; [auto|]. split; [auto|]. split; [auto|]. intros i t G IN. destruct (KE i t G) as [t' [G' [_ [_ Q3]]]]. exists t'. split; [auto|].
  destruct (FR i IN) as [Z1 Z2]. unfold active, has_fired, rearms in Z1, Z2. rewrite G' in Z1, Z2. rewrite G in Z1. apply HI in IN. destruct IN as [t0 [G0 [AC _]]]. rewrite G in G0. injection G0 as <-.
  split; [rewrite Q3; apply (proj1 I i t G AC)|]. split; [auto|]. rewrite Z1. unfold arms. clear. destruct (t_cb t) as [|o r] eqn:CB; [cbn; split; [discriminate|intros [o [[] _]]]|]. rewrite <- CB. clear.
  split.
  - intros Q. apply Nat.ltb_lt in Q. destruct (filter is_arm (t_cb t)) as [|o r] eqn:FI; [cbn in Q; lia|]. exists o. apply filter_In. rewrite FI. now left.
  - intros [o Q]. apply filter_In in Q. apply Nat.ltb_lt. destruct (filter is_arm (t_cb t)); [destruct Q|cbn; lia].
Qed.
(** Two triggers on counter 0 at 5 and 7 (the second re-arms itself for 9 and creates a third), one on counter 1. *)
Definition ex_hist : list ev :=
  [EOp (ONew 0%nat 5 []); EFinalize; EStart; EOp (ONew 0%nat 7 [OReset Self 9; ONew 1%nat 1 []]); EOp (ONew 1%nat 3 []); EOp (OCount 0%nat 4); ETick;
   EOp (OCount 0%nat 8)].
Example C58_tick_partial_ex : forallb tame_ev ex_hist = true
  /\ exists s s', runs tst0 ex_hist = Done s /\ running s /\ m_stale s = false /\ step s ETick = Done s' /\ m_log s' = [(2, 1%nat); (2, 0%nat)]
     /\ map t_active (m_trigs s') = [false; true; true; true].
Proof. split; [comp|]. do 2 eexists. comps. comp. Qed.
Print Assumptions C58_tick_partial.

Lemma untouched_cons : forall i e l, untouched i (e :: l) = true -> untouched i [e] = true /\ untouched i l = true.
Proof. intros i e l H. unfold untouched in *. cbn [forallb] in *. apply andb_true_iff in H. destruct H as [H1 H2]. rewrite H1. auto. Qed.
Lemma quiet : forall l s s' i t, good s -> running s -> forallb tame_ev l = true -> untouched i l = true -> tget s i = Some t ->
  (t_active t = true -> forall a b sa, l = a ++ ETick :: b -> runs s a = Done sa -> value sa (t_ctr t) < t_point t) ->
  runs s l = Done s' -> good s' /\ running s' /\ cycles_of s' i = cycles_of s i /\ tget s' i = Some t.
Proof.
  induction l as [|e l IH]; intros s s' i t G [F ST] TL UT GT Q R; cbn [runs] in R; [injection R as <-; split; [auto|]; split; [split; auto|auto]|].
  apply obind_done in R. destruct R as [s1 [R1 R2]]. cbn [forallb] in TL. apply andb_true_iff in TL. destruct TL as [T1 T2]. apply untouched_cons in UT. destruct UT as [U1 U2].
  pose proof (step_good s e s1 G T1 R1) as G1. destruct (step_one s e s1 i t G F ST T1 U1 GT R1) as [F1 [ST1 M]].
  assert (M' : cycles_of s1 i = cycles_of s i /\ tget s1 i = Some t).
  { destruct e; auto. destruct (t_active t && hit s i) eqn:B; auto. exfalso. apply andb_true_iff in B. destruct B as [B1 B2]. specialize (Q B1 [] l s eq_refl eq_refl).
    unfold hit in B2. rewrite GT in B2. unfold reached in B2. apply N.leb_le in B2. unfold value in Q. lia. }
  destruct M' as [M1 M2]. destruct (IH s1 s' i t G1 (conj F1 ST1) T2 U2 M2) as [A [B [C D]]]; auto.
  { intros AC a b sa E RA. apply (Q AC (e :: a) b sa); [rewrite E; reflexivity|]. cbn [runs]. rewrite R1. exact RA. }
  rewrite <- M1. auto.
Qed.
(** An active trigger that the user leaves alone does not call its callback in any cycle before its counter has reached the point, and
    does in the first cycle in which it has. Unless the callback re-arms it, it does not call it again. *)
Theorem C58_first_cycle_partial : forall l1 l2 l3 s s1 s2 s3 i t,
  forallb tame_ev (l1 ++ l2 ++ l3) = true -> runs tst0 l1 = Done s -> running s -> tget s i = Some t -> t_active t = true ->
  untouched i (l2 ++ l3) = true -> runs s l2 = Done s1 -> step s1 ETick = Done s2 -> runs s2 l3 = Done s3 ->
  (forall a b sa, l2 = a ++ ETick :: b -> runs s a = Done sa -> value sa (t_ctr t) < t_point t) ->
  cycles_of s1 i = cycles_of s i
  /\ cycles_of s2 i = (if t_point t <=? value s1 (t_ctr t) then (m_tick s1 + 1) :: cycles_of s1 i else cycles_of s1 i)
  /\ (t_point t <= value s1 (t_ctr t) -> (forall o, In o (t_cb t) -> is_arm o = false) -> cycles_of s3 i = cycles_of s2 i).
Proof.
  intros l1 l2 l3 s s1 s2 s3 i t TL R RN GT AC UT R2 ST R3 Q. rewrite !forallb_app in TL. apply andb_true_iff in TL. destruct TL as [T1 TL]. apply andb_true_iff in TL. destruct TL as [T2 T3].
  unfold untouched in UT. rewrite forallb_app in UT. apply andb_true_iff in UT. destruct UT as [U2 U3]. pose proof (run_good l1 s T1 R) as G.
  destruct (quiet l2 s s1 i t G RN T2 U2 GT (fun _ => Q) R2) as [G1 [[F1 ST1] [C1 GT1]]]. split; [auto|].
  destruct (step_one s1 ETick s2 i t G1 F1 ST1 eq_refl eq_refl GT1 ST) as [F2 [ST2 M]]. pose proof (step_good s1 ETick s2 G1 eq_refl ST) as G2. rewrite AC in M. cbn [andb] in M.
  unfold hit in M. rewrite GT1 in M. change (reached s1 t) with (t_point t <=? value s1 (t_ctr t)) in M. destruct (N.leb_spec (t_point t) (value s1 (t_ctr t))) as [L|L].
  - destruct M as [M1 [t' [GT' [AL [AR FI]]]]]. split; [auto|]. intros _ NA. destruct (quiet l3 s2 s3 i t' G2 (conj F2 ST2) T3 U3 GT') as [_ [_ [C _]]]; auto.
    intros Q'. exfalso. rewrite AR in Q'. apply Nat.ltb_lt in Q'. unfold arms in Q'. destruct (filter is_arm (t_cb t)) as [|o r] eqn:E; [cbn in Q'; lia|].
    assert (IN : In o (filter is_arm (t_cb t))) by (rewrite E; now left). apply filter_In in IN. destruct IN as [I1 I2]. rewrite NA in I2; auto. discriminate.
  - split; [apply M|]. intros; lia.
Qed.
(** Trigger 0 of the example waits from cycle 1 and fires in cycle 3; later cycles do not call it again. *)
Example C58_first_cycle_partial_ex : exists s s1 s2 s3 t,
  runs tst0 [EOp (ONew 0%nat 5 []); EFinalize; EStart; EOp (ONew 1%nat 3 [])] = Done s /\ running s /\ tget s 0%nat = Some t /\ t_active t = true
  /\ runs s [ETick; EOp (OCount 0%nat 4); ETick; EOp (OCount 0%nat 6)] = Done s1 /\ step s1 ETick = Done s2 /\ runs s2 [EOp (OCount 1%nat 9); ETick; ETick] = Done s3
  /\ cycles_of s1 0%nat = [] /\ cycles_of s2 0%nat = [3] /\ cycles_of s3 0%nat = [3] /\ cycles_of s3 1%nat = [4].
Proof. do 5 eexists. comps. comp. Qed.
Print Assumptions C58_first_cycle_partial.

(** A trigger that is not active (because it was deactivated, or because it has fired) never calls its callback while the user leaves
    it alone. *)
Theorem C58_stopped_partial : forall l1 l2 s s' i t,
  forallb tame_ev (l1 ++ l2) = true -> runs tst0 l1 = Done s -> running s -> tget s i = Some t -> t_active t = false -> untouched i l2 = true ->
  runs s l2 = Done s' -> cycles_of s' i = cycles_of s i.
Proof.
  intros l1 l2 s s' i t TL R RN GT AC UT R2. rewrite forallb_app in TL. apply andb_true_iff in TL. destruct TL as [T1 T2]. pose proof (run_good l1 s T1 R) as G.
  destruct (quiet l2 s s' i t G RN T2 UT GT) as [_ [_ [C _]]]; auto. intros Q. congruence.
Qed.
Example C58_stopped_partial_ex : exists s s' t,
  runs tst0 [EFinalize; EStart; EOp (ONew 0%nat 5 []); EOp (ONew 1%nat 3 []); ETick; EOp (ODeact (Id 0%nat))] = Done s /\ running s /\ tget s 0%nat = Some t
  /\ t_active t = false /\ runs s [EOp (OCount 0%nat 9); ETick; ETick; EOp (OCount 1%nat 9); ETick] = Done s' /\ m_log s' = [(4, 1%nat)].
Proof. do 3 eexists. comps. comp. Qed.
Print Assumptions C58_stopped_partial.

Lemma calm_stale : forall s o s', removes o = false -> exec None s o = Done s' -> m_stale s' = m_stale s.
Proof.
  intros s o s' NR E. destruct o as [t|t|t p|c p cb|t|t u|t|c v]; try discriminate; cbn [exec] in E.
  - apply with_t_inv in E. destruct E as [i [x [_ [G [AL E]]]]]. destruct (t_active x); [discriminate|]. eapply register_stale; eauto.
  - rewrite (register_stale _ _ _ E). auto.
  - apply with_t_inv in E. destruct E as [i [x [_ [G [AL E]]]]]. destruct (t_active x); [rewrite (register_stale _ _ _ E); auto|injection E as <-; auto].
  - injection E as <-. auto.
Qed.
(** If the code outside the callbacks only creates, copies and sets triggers, no cycle ever fails. *)
Theorem C58_calm_partial : forall l s, forallb tame_ev l = true -> forallb calm l = true -> runs tst0 l = Done s -> running s ->
  m_stale s = false /\ exists s', step s ETick = Done s'.
Proof.
  intros l s TL CL R RN. assert (SL : m_stale s = false).
  { clear RN. assert (Q : forall l s0, good s0 -> m_stale s0 = false -> forallb tame_ev l = true -> forallb calm l = true -> runs s0 l = Done s -> m_stale s = false).
    2:{ apply (Q l tst0 good0 eq_refl); auto. }
    clear. induction l as [|e l IH]; intros s0 G SL TL CL R; cbn [runs] in R; [injection R as <-; auto|]. cbn [forallb] in TL, CL. apply andb_true_iff in TL, CL.
    destruct TL as [T1 T2]. destruct CL as [C1 C2]. apply obind_done in R. destruct R as [s1 [R1 R2]]. apply (IH s1 (step_good _ _ _ G T1 R1)); auto. destruct e as [o| | |]; cbn [step] in R1.
    - rewrite (calm_stale _ _ _ ltac:(apply negb_true_iff; exact C1) R1). auto.
    - injection R1 as <-. auto.
    - destruct (m_fin s0); [|discriminate]. rewrite (starts_stale _ _ _ R1). auto.
    - destruct (m_start s0); [|discriminate]. destruct (m_fin s0) eqn:F; [|discriminate]. destruct G as [TM [I|I]]; [congruence|].
      destruct (tick_good s0 I TM F SL) as [s2 [fd [E1 [_ [_ [S1 _]]]]]]. rewrite R1 in E1. injection E1 as <-. auto. }
  split; [auto|]. destruct (C58_tick_partial l s TL R RN SL) as [s' [fd [E _]]]. eauto.
Qed.
Example C58_calm_partial_ex : forallb calm ex_hist = true /\ exists s, runs tst0 (ex_hist ++ [ETick; EOp (OSet (Id 0%nat)); EOp (OCopy (Id 1%nat)); ETick]) = Done s
  /\ m_log s = [(3, 0%nat); (2, 1%nat); (2, 0%nat)].
Proof. split; [comp|]. eexists. split; comp. Qed.
Print Assumptions C58_calm_partial.

Lemma erase_nonempty : forall i k l, In k l -> k <> i -> erase i l <> [].
Proof. intros i k l IN N Q. destruct l as [|x l]; [destruct IN|]. cbn in Q. destruct (Nat.eqb_spec i x); [|discriminate]. subst x l. destruct IN as [->|[]]. congruence. Qed.
Lemma remove_keeps : forall s h i k, m_h s = Some h -> h_in h = false -> In k (h_trigs h) -> k <> i -> m_stale (remove_trigger s i) = m_stale s.
Proof.
  intros s h i k MH HI IN N. unfold remove_trigger. rewrite MH, HI. cbn [h_trigs]. destruct (erase i (h_trigs h)) eqn:E; [|reflexivity]. destruct (erase_nonempty i k _ IN N E).
Qed.
(** Nor does one after an operation that takes a trigger away, if another trigger is active at the time. *)
Theorem C58_not_last_partial : forall l s o s', forallb tame_ev l = true -> runs tst0 l = Done s -> m_stale s = false -> exec None s o = Done s' ->
  (forall i, touches i o = true -> exists k x, k <> i /\ tget s k = Some x /\ t_active x = true) -> m_stale s' = false.
Proof.
  intros l s o s' TL R SL E K. destruct (run_good l s TL R) as [TM I]. destruct I as [I|I]; [congruence|].
  assert (RM : forall i s0, touches i o = true -> m_h s0 = m_h s -> m_stale s0 = m_stale s -> m_stale (remove_trigger s0 i) = false).
  { intros i s0 T Q1 Q2. destruct (K i T) as [k [x [N [G AC]]]]. destruct I as [_ [_ I3]]. assert (AK : active s k = true) by (unfold active; now rewrite G).
    destruct (m_h s) as [h|] eqn:MH; [|rewrite I3 in AK; discriminate]. destruct I3 as [J1 [_ [_ [_ J5]]]]. rewrite (remove_keeps s0 h i k); auto; [congruence|]. apply J5. auto. }
  destruct (removes o) eqn:NR; [|rewrite (calm_stale _ _ _ NR E); auto].
  destruct o as [t|t|t p|c p cb|t|t u|t|c v]; try discriminate; cbn [exec] in E.
  - apply with_t_inv in E. destruct E as [i [x [RS [G [AL E]]]]]. destruct t as [|k]; [discriminate|]. injection RS as ->. unfold deactivate_ in E. rewrite G, AL in E. injection E as <-.
    apply RM; auto. cbn. apply Nat.eqb_refl.
  - apply with_t_inv in E. destruct E as [i [x [RS [G [AL E]]]]]. destruct t as [|k]; [discriminate|]. injection RS as ->. unfold deactivate_ in E. rewrite G, AL in E. cbn [negb obind] in E.
    destruct (tget (tput (remove_trigger s i) i (set_active x false)) i); [|discriminate]. rewrite (register_stale _ _ _ E). apply RM; auto. cbn. apply Nat.eqb_refl.
  - apply with_t_inv in E. destruct E as [i [x [RS [G [AL E]]]]]. apply with_t_inv in E. destruct E as [j [y0 [_ [GJ [ALJ E]]]]]. destruct t as [|k]; [discriminate|]. injection RS as ->.
    assert (Q : m_stale (remove_trigger (tput s i (set_active x false)) i) = false) by (apply RM; auto; cbn; apply Nat.eqb_refl).
    destruct (tget (remove_trigger (tput s i (set_active x false)) i) j) as [y|]; [|discriminate]. destruct (t_active y); [rewrite (register_stale _ _ _ E); exact Q|injection E as <-; exact Q].
  - apply with_t_inv in E. destruct E as [i [x [RS [G [AL E]]]]]. destruct t as [|k]; [discriminate|]. injection RS as ->. injection E as <-. apply RM; auto. cbn. apply Nat.eqb_refl.
Qed.
Example C58_not_last_partial_ex : exists s s', runs tst0 [EFinalize; EStart; EOp (ONew 0%nat 5 []); EOp (ONew 1%nat 3 [])] = Done s
  /\ exec None s (OReset (Id 0%nat) 8) = Done s' /\ touches 0 (OReset (Id 0%nat) 8) = true /\ exists x, tget s 1%nat = Some x /\ t_active x = true.
Proof. do 2 eexists. comps. eexists. split; [vm_compute; reflexivity|comp]. Qed.
Print Assumptions C58_not_last_partial.

(** Deactivating the only active trigger between cycles destroys its clock handler, whose event the scheduler still holds: the next
    cycle calls a destroyed object (removeTrigger, TriggerManager.hpp 140-154; ~ClockHandler, 199-200). *)
Theorem C58_deactivate_last_refuted : exists l s, runs tst0 l = Done s /\ running s
  /\ exec None s (ODeact (Id 0%nat)) <> Undefined /\ runs s [EOp (ODeact (Id 0%nat)); ETick] = Undefined
  /\ runs s [EOp (OReset (Id 0%nat) 9); ETick] = Undefined /\ runs s [EOp (OKill (Id 0%nat)); ETick] = Undefined.
Proof.
  exists [EFinalize; EStart; EOp (ONew 0%nat 5 [])]. eexists. split; [comp|]. split; [comp|]. split; [vm_compute; discriminate|]. comps. comp.
Qed.
Example C58_deactivate_last_refuted_ex : exists s, runs tst0 [EFinalize; EStart; EOp (ONew 0%nat 5 []); EOp (ONew 1%nat 5 []); EOp (ODeact (Id 0%nat)); ETick; ETick] = Done s.
Proof. do 1 eexists. comps. comp. Qed.
Print Assumptions C58_deactivate_last_refuted.

(** Once its triggers have fired the handler stays, without triggers; taking away a trigger that has already fired - destroying it, for
    instance - then destroys the handler, with the same result. *)
Theorem C58_after_firing_refuted : exists l s, runs tst0 l = Done s /\ running s /\ cycles_of s 0%nat = [1]
  /\ runs s [EOp (OKill (Id 0%nat)); ETick] = Undefined /\ runs s [EOp (ODeact (Id 0%nat)); ETick] = Undefined
  /\ runs s [EOp (OReset (Id 0%nat) 9); ETick] = Undefined /\ exists s', runs s [EOp (OSet (Id 0%nat)); ETick] = Done s' /\ cycles_of s' 0%nat = [2; 1].
Proof.
  exists [EFinalize; EStart; EOp (ONew 0%nat 5 []); EOp (OCount 0%nat 5); ETick]. eexists. split; [comp|]. comps. eexists. split; comp.
Qed.
Example C58_after_firing_refuted_ex : exists s, runs tst0 [EFinalize; EStart; EOp (ONew 0%nat 5 []); EOp (OCount 0%nat 5); ETick; ETick; EOp (ONew 0%nat 7 []); EOp (OKill (Id 0%nat)); ETick] = Done s.
Proof. do 1 eexists. comps. comp. Qed.
Print Assumptions C58_after_firing_refuted.

(** A callback that deactivates another trigger of the same clock: if that trigger comes later in the cycle, check() fails its
    assertion (ManagedTrigger.hpp 67), although it had been watched when the cycle began; if the callback destroys it, check() is called on
    a destroyed object (clockTick_, TriggerManager.hpp 359-370). If it came earlier, all is well. *)
Theorem C58_in_callback_refuted : exists s1 s2 s3 s4,
  runs tst0 [EFinalize; EStart; EOp (ONew 0%nat 5 [ODeact (Id 1%nat)]); EOp (ONew 0%nat 9 []); EOp (OCount 0%nat 5)] = Done s1 /\ step s1 ETick = Asserted
  /\ runs tst0 [EFinalize; EStart; EOp (ONew 0%nat 5 [OKill (Id 1%nat)]); EOp (ONew 0%nat 9 []); EOp (OCount 0%nat 5)] = Done s2 /\ step s2 ETick = Undefined
  /\ runs tst0 [EFinalize; EStart; EOp (ONew 0%nat 9 []); EOp (ONew 0%nat 5 [ODeact (Id 0%nat)]); EOp (OCount 0%nat 5)] = Done s3 /\ runs s3 [ETick; ETick] = Done s4
  /\ m_log s4 = [(1, 1%nat)].
Proof. do 4 eexists. comps. comp. Qed.
Example C58_in_callback_refuted_ex : exists s, runs tst0 [EFinalize; EStart; EOp (ONew 0%nat 5 [ODeact (Id 1%nat)]); EOp (ONew 0%nat 9 []); EOp (OCount 0%nat 4); ETick; ETick] = Done s.
Proof. do 1 eexists. comps. comp. Qed.
Print Assumptions C58_in_callback_refuted.

(** A callback that re-arms its trigger and then stops it: the cycle succeeds, and the next one fails the assertion in check(), because
    the deferred additions come after the deferred removals (TriggerManager.hpp 170-174). Setting the point twice fails at once. *)
Theorem C58_rearm_then_stop_refuted : exists s1 s2 s3,
  runs tst0 [EFinalize; EStart; EOp (ONew 0%nat 5 [OSet Self; ODeact Self]); EOp (OCount 0%nat 5)] = Done s1 /\ step s1 ETick = Done s2
  /\ map t_active (m_trigs s2) = [false] /\ step s2 ETick = Asserted
  /\ runs tst0 [EFinalize; EStart; EOp (ONew 0%nat 5 [OReset Self 7; OReset Self 8]); EOp (OCount 0%nat 5)] = Done s3 /\ step s3 ETick = Asserted.
Proof. do 3 eexists. comps. comp. Qed.
Example C58_rearm_then_stop_refuted_ex : exists s, runs tst0 [EFinalize; EStart; EOp (ONew 0%nat 5 [OReset Self 7]); EOp (OCount 0%nat 5); ETick; EOp (OCount 0%nat 7); ETick; ETick] = Done s
  /\ m_log s = [(3, 0%nat); (2, 0%nat); (1, 0%nat)].
Proof. do 1 eexists. comps. comp. Qed.
Print Assumptions C58_rearm_then_stop_refuted.

(** Before the first run: deactivate() has no effect, the startup handler activates the trigger all the same (ManagedTrigger::registerSelf_,
    Trigger.cpp 107-117); resetAbsolute makes the first run fail an assertion, as the trigger is registered twice; a copy of the trigger
    never fires, as a trigger is not active yet when it is copied; and destroying the trigger makes the first run call a destroyed
    object. *)
Theorem C58_before_run_refuted : exists s1 s2 s3,
  runs tst0 [EOp (ONew 0%nat 5 []); EOp (ODeact (Id 0%nat)); EFinalize; EStart; EOp (OCount 0%nat 5); ETick] = Done s1 /\ m_log s1 = [(1, 0%nat)]
  /\ runs tst0 [EOp (ONew 0%nat 5 []); EOp (OReset (Id 0%nat) 7); EFinalize] = Done s2 /\ step s2 EStart = Asserted
  /\ runs tst0 [EOp (ONew 0%nat 5 []); EOp (OCopy (Id 0%nat)); EFinalize; EStart; EOp (OCount 0%nat 5); ETick; ETick] = Done s3 /\ m_log s3 = [(1, 0%nat)]
  /\ runs tst0 [EOp (ONew 0%nat 5 []); EOp (OKill (Id 0%nat)); EFinalize; EStart] = Undefined.
Proof. do 3 eexists. comps. comp. Qed.
Example C58_before_run_refuted_ex : exists s, runs tst0 [EFinalize; EStart; EOp (ONew 0%nat 5 []); EOp (OCopy (Id 0%nat)); EOp (OCount 0%nat 5); ETick] = Done s /\ m_log s = [(1, 1%nat); (1, 0%nat)].
Proof. do 1 eexists. comps. comp. Qed.
Print Assumptions C58_before_run_refuted.

(** A trigger assigned to itself is deactivated and stays so (CounterTrigger::operator=, Trigger.cpp 59-70). *)
Theorem C58_self_assign_refuted : exists s s',
  runs tst0 [EFinalize; EStart; EOp (ONew 0%nat 5 []); EOp (ONew 1%nat 5 [])] = Done s /\ map t_active (m_trigs s) = [true; true]
  /\ runs s [EOp (OAssign (Id 0%nat) (Id 0%nat)); EOp (OCount 0%nat 5); ETick; ETick] = Done s' /\ map t_active (m_trigs s') = [false; true] /\ m_log s' = [].
Proof. do 2 eexists. comps. comp. Qed.
Example C58_self_assign_refuted_ex : exists s, runs tst0 [EFinalize; EStart; EOp (ONew 0%nat 5 []); EOp (ONew 1%nat 5 []); EOp (OAssign (Id 0%nat) (Id 1%nat)); EOp (OCount 1%nat 5); ETick] = Done s
  /\ m_log s = [(1, 0%nat); (1, 1%nat)].
Proof. do 1 eexists. comps. comp. Qed.
Print Assumptions C58_self_assign_refuted.
