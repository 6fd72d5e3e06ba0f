(** C59: cycle and time triggers call their callback at the time they were set for, once. *)
From Coq Require Import List NArith Bool Lia.
From Verif Require Import LayoutModel StorageModel CycleTriggerModel.
Import ListNotations.
Open Scope N_scope.

(** * What the documentation promises: a one-shot timer *)
(** When the callback is wanted: relative to the call of set() or at an absolute cycle, on a clock of period [p]; or, for a time
    trigger, relative in ticks. *)
Inductive what := Rel (p d : N) | Abs (p t : N).
(** The tick meant: [d] cycles from now; with alignRelative, the next cycle that is a multiple of [d]; the time at which the clock's cycle
    is [t]. [None] if there is none, or it does not fit 64 bits. *)
Definition target (al : bool) (w : what) (now : N) : option N :=
  let fits x := if x <? 2 ^ 64 then Some x else None in
  match w with
  | Rel p d => if p =? 0 then None
               else if al then (if d =? 0 then None else fits (now + (d * (now / p / d + 1) - now / p) * p)) else fits (now + d * p)
  | Abs p t => if p =? 0 then None else if t <? now / p then None else fits (now + (t - now / p) * p)
  end.
(** The timer: when it is due and whether it is still wanted, its settings, and when it rang, latest first. *)
Record timer := mkTim { m_now : N; m_passed : bool; m_due : option (N * bool); m_prep : option what; m_al : bool; m_log : list N }.
(** Only one kind of setting is used throughout (see [C59_two_kinds_refuted]). *)
Definition same_kind (a : option what) (w : what) : bool :=
  match a, w with None, _ => true | Some (Rel _ _), Rel _ _ => true | Some (Abs _ _), Abs _ _ => true | _, _ => false end.
(** The timer is set; not while an event is outstanding, even if it has been deactivated, as documented (SingleTrigger.hpp 477-480), and not
    for a moment that is over in this tick. *)
Definition arm (m : timer) (w : what) : option timer :=
  match m_due m, target (m_al m) w (m_now m) with
  | None, Some x => if (x =? m_now m) && m_passed m then None else Some (mkTim (m_now m) (m_passed m) (Some (x, true)) (Some w) (m_al m) (m_log m))
  | _, _ => None
  end.
(** What happens to the timer; [None] if the user breaks the rules, or the event cannot happen. *)
Definition tstep (m : timer) (e : cev) : option timer :=
  let prep w := match m_due m with None => if same_kind (m_prep m) w then Some (mkTim (m_now m) (m_passed m) None (Some w) (m_al m) (m_log m)) else None
                | Some _ => None end in
  let setw w := if same_kind (m_prep m) w then arm m w else None in
  match e with
  | COp (PrepAbs p t) => prep (Abs p t)
  | COp (PrepRel p d) => prep (Rel p d)
  | COp (SetAbs p t) => setw (Abs p t)
  | COp (SetRel p d) => setw (Rel p d)
  | COp (Align b) => match m_due m with None => Some (mkTim (m_now m) (m_passed m) None (m_prep m) b (m_log m)) | Some _ => None end
  | COp Set_ => match m_prep m with Some w => arm m w | None => None end
  | COp Deact => Some (mkTim (m_now m) (m_passed m) (option_map (fun d => (fst d, false)) (m_due m)) (m_prep m) (m_al m) (m_log m))
  | CInvoke [] => match m_due m with
                  | Some (x, live) => if (x =? m_now m) && negb (m_passed m)
                                      then Some (mkTim (m_now m) (m_passed m) None (m_prep m) (m_al m) (if live then x :: m_log m else m_log m)) else None
                  | None => None
                  end
  | CPass => if m_passed m || match m_due m with Some (x, _) => x =? m_now m | None => false end then None
             else Some (mkTim (m_now m) true (m_due m) (m_prep m) (m_al m) (m_log m))
  | CNext => if m_passed m then Some (mkTim (m_now m + 1) false (m_due m) (m_prep m) (m_al m) (m_log m)) else None
  | _ => None
  end.
(** A history of the timer. *)
Fixpoint truns (m : timer) (l : list cev) : option timer :=
  match l with [] => Some m | e :: r => match tstep m e with Some m' => truns m' r | None => None end end.
(** The timer at first. *)
Definition timer0 : timer := mkTim 0 false None None false [].

(** Computes a concrete history. *)
Ltac comp := match goal with
  | |- ?x = Done ?s => let v := eval vm_compute in x in match v with Done ?w => unify s w; vm_compute; reflexivity end
  | |- ?x = Some ?s => let v := eval vm_compute in x in match v with Some ?w => unify s w; vm_compute; reflexivity end
  | |- _ = _ => vm_compute; reflexivity
  end.
(** See [comp]. *)
Ltac comps := repeat match goal with |- _ /\ _ => split; [comp|] end.

(** * The trigger is such a timer *)
(** The settings in the trigger. *)
Definition prepped (c : ctr) (w : option what) : Prop :=
  match w with
  | None => c_rel c = false /\ c_abs c = false
  | Some (Rel p d) => c_rel c = true /\ c_abs c = false /\ c_clk c = p /\ c_delay c = d
  | Some (Abs p t) => c_rel c = false /\ c_abs c = true /\ c_clk c = p /\ c_when c = t
  end.
(** The trigger's state is the timer's. *)
Record sim (s : cst) (m : timer) : Prop := mkSim {
  q_now : s_now s = m_now m; q_passed : s_passed s = m_passed m; q_fin : s_fin s = true; q_run : s_run s = true; q_start : s_start s = 0%nat;
  q_log : s_log s = m_log m; q_ps : c_ps (s_c s) = None; q_al : c_align (s_c s) = m_al m; q_prep : prepped (s_c s) (m_prep m);
  q_due : match m_due m with
          | None => s_pend s = [] /\ c_set (s_c s) = false /\ c_sched (s_c s) = false
          | Some (x, live) => s_pend s = [x] /\ c_set (s_c s) = live /\ c_sched (s_c s) = true
          end }.
Lemma w64_small : forall x, x < 2 ^ 64 -> w64 x = x.
Proof. intros. unfold w64. apply N.mod_small. auto. Qed.
Lemma w64_zero : w64 0 = 0.
Proof. reflexivity. Qed.
Lemma tick_ok : forall s rel, s_now s + rel < 2 ^ 64 -> (rel = 0 -> s_passed s = false) ->
  schedule_tick s rel = Done (mkCS (s_now s) (s_passed s) (s_fin s) (s_run s) (s_start s) (s_pend s ++ [s_now s + rel]) (s_c s) (s_log s)).
Proof.
  intros s rel L Z. unfold schedule_tick. rewrite w64_small by auto. destruct (N.eqb_spec rel 0) as [->|N]; cbn [andb].
  - rewrite Z by auto. destruct (N.ltb_spec (s_now s + 0) (s_now s)); [lia|auto].
  - destruct (N.ltb_spec (s_now s + rel) (s_now s)); [lia|auto].
Qed.
Lemma aligned : forall c d, d <> 0 -> d - c mod d = d * (c / d + 1) - c.
Proof. intros c d D. pose proof (N.div_mod c d D). pose proof (N.mod_lt c d D). nia. Qed.
Lemma arm_sim : forall s m w m', sim s m -> prepped (s_c s) (Some w) -> arm m w = Some m' -> exists s', set_now s = Done s' /\ sim s' m'.
Proof.
  intros s m w m' Q P A. unfold arm in A. destruct (m_due m) eqn:D; [discriminate|]. destruct (target (m_al m) w (m_now m)) as [x|] eqn:T; [|discriminate].
  destruct ((x =? m_now m) && m_passed m) eqn:ZP; [discriminate|]. injection A as <-. pose proof (q_due _ _ Q) as QD. rewrite D in QD. destruct QD as [D1 [D2 D3]].
  pose proof (q_now _ _ Q) as QN. pose proof (q_passed _ _ Q) as QP. pose proof (q_al _ _ Q) as QA.
  assert (K : forall rel, x = m_now m + rel -> x < 2 ^ 64 -> schedule_tick (with_c s (flags (s_c s) true (c_sched (s_c s)))) rel
     = Done (mkCS (s_now s) (s_passed s) (s_fin s) (s_run s) (s_start s) [x] (flags (s_c s) true (c_sched (s_c s))) (s_log s))).
  { intros rel E L. rewrite tick_ok; cbn [with_c s_now s_passed s_fin s_run s_start s_pend s_c s_log].
    - rewrite D1, QN, E. reflexivity.
    - rewrite QN. lia.
    - intros ->. rewrite QP. rewrite N.add_0_r in E. rewrite E, N.eqb_refl in ZP. exact ZP. }
  assert (F : forall s', s' = mkCS (s_now s) (s_passed s) (s_fin s) (s_run s) (s_start s) [x] (flags (s_c s) true true) (s_log s) -> sim s' (mkTim (m_now m) (m_passed m) (Some (x, true)) (Some w) (m_al m) (m_log m))).
  { intros s' ->. constructor; cbn; try apply Q; auto. }
  unfold set_now. cbn [with_c s_c flags c_clk s_fin c_ps c_rel c_align c_delay c_abs c_when]. rewrite (q_fin _ _ Q), (q_ps _ _ Q), QA.
  change (mkCS (s_now s) (s_passed s) true (s_run s) (s_start s) (s_pend s) (flags (s_c s) true (c_sched (s_c s))) (s_log s)) with (with_c s (flags (s_c s) true (c_sched (s_c s)))).
  unfold target in T. unfold cycle. cbn [with_c s_now]. rewrite QN. destruct w as [p d|p t]; destruct P as [P1 [P2 [P3 P4]]]; rewrite P1, P3; rewrite P4 || idtac; destruct (N.eqb_spec p 0) as [P0|P0]; try discriminate.
  - destruct (m_al m).
    + destruct (N.eqb_spec d 0) as [D0|D0]; [discriminate|]. destruct (N.ltb_spec (m_now m + (d * (m_now m / p / d + 1) - m_now m / p) * p) (2 ^ 64)) as [L|L]; [|discriminate]. injection T as T.
      unfold schedule_cycle. rewrite aligned by auto. rewrite w64_small by lia. rewrite (K _ (eq_sym T)) by lia. cbn [obind with_c s_c]. eexists. split; [reflexivity|]. apply F. reflexivity.
    + destruct (N.ltb_spec (m_now m + d * p) (2 ^ 64)) as [L|L]; [|discriminate]. injection T as T.
      unfold schedule_cycle. rewrite w64_small by lia. rewrite (K _ (eq_sym T)) by lia. cbn [obind with_c s_c]. eexists. split; [reflexivity|]. apply F. reflexivity.
  - rewrite P2. destruct (N.ltb_spec t (m_now m / p)) as [LT|LT]; [discriminate|]. destruct (N.ltb_spec (m_now m + (t - m_now m / p) * p) (2 ^ 64)) as [L|L]; [|discriminate]. injection T as T.
    unfold schedule_cycle. assert (W : w64 (2 ^ 64 + t - m_now m / p) = t - m_now m / p).
    { assert (t - m_now m / p < 2 ^ 64) by (clear - L P0; nia). unfold w64. replace (2 ^ 64 + t - m_now m / p) with (t - m_now m / p + 1 * 2 ^ 64) by (clear - LT; lia).
      rewrite N.mod_add by discriminate. apply N.mod_small. auto. }
    rewrite W, w64_small by lia. rewrite (K _ (eq_sym T)) by lia. cbn [obind with_c s_c]. eexists. split; [reflexivity|]. apply F. reflexivity.
Qed.

Lemma same_kind_rel : forall c w p d, prepped c w -> same_kind w (Rel p d) = true -> c_abs c = false.
Proof. intros c [[q e|q t]|] p d P S; cbn in *; [apply P|discriminate|apply P]. Qed.
Lemma same_kind_abs : forall c w p t, prepped c w -> same_kind w (Abs p t) = true -> c_rel c = false.
Proof. intros c [[q e|q u]|] p t P S; cbn in *; [discriminate|apply P|apply P]. Qed.
Lemma safe : forall s m f, sim s m -> m_due m = None -> check_safe s f = f (s_c s).
Proof. intros s m f Q D. pose proof (q_due _ _ Q) as QD. rewrite D in QD. destruct QD as [_ [A B]]. unfold check_safe. now rewrite A, B. Qed.
Lemma prep_sim : forall s m w c, sim s m -> m_due m = None -> c_set c = c_set (s_c s) -> c_sched c = c_sched (s_c s) -> c_ps c = None -> c_align c = c_align (s_c s) ->
  prepped c (Some w) -> sim (with_c s c) (mkTim (m_now m) (m_passed m) None (Some w) (m_al m) (m_log m)).
Proof.
  intros s m w c Q D A1 A2 A3 A4 P. pose proof (q_due _ _ Q) as QD. rewrite D in QD. constructor; cbn [with_c s_now s_passed s_fin s_run s_start s_pend s_c s_log m_now m_passed m_due m_prep m_al m_log]; try apply Q; auto.
  - rewrite A4. apply Q. - rewrite A1, A2. auto.
Qed.
Lemma arm_prep : forall m w, m_due m = None -> arm (mkTim (m_now m) (m_passed m) None (Some w) (m_al m) (m_log m)) w = arm m w.
Proof. intros m w D. unfold arm. rewrite D. reflexivity. Qed.
Lemma arm_due : forall m w m', arm m w = Some m' -> m_due m = None.
Proof. intros m w m' A. unfold arm in A. destruct (m_due m); [discriminate|auto]. Qed.
Lemma take_one : forall x t, take t [x] = if x =? t then Some [] else None.
Proof. intros. cbn. destruct (x =? t); auto. Qed.
Lemma step_sim : forall s m e m', sim s m -> tstep m e = Some m' -> exists s', cstep s e = Done s' /\ sim s' m'.
Proof.
  intros s m e m' Q T. destruct e as [o| | |b| |]; try discriminate.
  - destruct o as [p t|p d|b|p t|p d| |]; cbn [tstep] in T.
    + destruct (m_due m) eqn:D; [discriminate|]. destruct (same_kind (m_prep m) (Abs p t)) eqn:K; [|discriminate]. injection T as <-. eexists. split; [cbn [cstep cexec]; rewrite (q_ps _ _ Q), (safe s m _ Q D); reflexivity|].
      apply prep_sim; auto; [apply Q|]. cbn. pose proof (same_kind_abs _ _ _ _ (q_prep _ _ Q) K). auto.
    + destruct (m_due m) eqn:D; [discriminate|]. destruct (same_kind (m_prep m) (Rel p d)) eqn:K; [|discriminate]. injection T as <-. eexists. split; [cbn [cstep cexec]; rewrite (q_ps _ _ Q), (safe s m _ Q D); reflexivity|].
      apply prep_sim; auto; [apply Q|]. cbn. pose proof (same_kind_rel _ _ _ _ (q_prep _ _ Q) K). auto.
    + destruct (m_due m) eqn:D; [discriminate|]. injection T as <-. eexists. split; [cbn [cstep cexec]; rewrite (q_ps _ _ Q), (safe s m _ Q D); reflexivity|].
      pose proof (q_due _ _ Q) as QD. rewrite D in QD. destruct Q. constructor; cbn; auto.
    + destruct (same_kind (m_prep m) (Abs p t)) eqn:K; [|discriminate]. pose proof (arm_due _ _ _ T) as D. cbn [cstep cexec]. rewrite (q_ps _ _ Q), (safe s m _ Q D).
      rewrite <- arm_prep in T by auto. eapply arm_sim; [|  |exact T].
      * apply prep_sim; auto; [apply Q|]. cbn. pose proof (same_kind_abs _ _ _ _ (q_prep _ _ Q) K). auto.
      * cbn. pose proof (same_kind_abs _ _ _ _ (q_prep _ _ Q) K). auto.
    + destruct (same_kind (m_prep m) (Rel p d)) eqn:K; [|discriminate]. pose proof (arm_due _ _ _ T) as D. cbn [cstep cexec]. rewrite (q_ps _ _ Q), (safe s m _ Q D).
      rewrite <- arm_prep in T by auto. eapply arm_sim; [|  |exact T].
      * apply prep_sim; auto; [apply Q|]. cbn. pose proof (same_kind_rel _ _ _ _ (q_prep _ _ Q) K). auto.
      * cbn. pose proof (same_kind_rel _ _ _ _ (q_prep _ _ Q) K). auto.
    + destruct (m_prep m) as [w|] eqn:P; [|discriminate]. pose proof (q_prep _ _ Q) as PR. rewrite P in PR. pose proof (arm_due _ _ _ T) as D. pose proof (q_due _ _ Q) as QD. rewrite D in QD.
      cbn [cstep cexec]. rewrite (q_ps _ _ Q). destruct QD as [_ [-> _]]. destruct w as [p d|p t]; destruct PR as [P1 [P2 P3]]; rewrite P1, P2; cbn [negb orb andb]; (eapply arm_sim; [exact Q| |exact T]); cbn; auto.
    + injection T as <-. eexists. split; [reflexivity|]. pose proof (q_due _ _ Q) as QD. destruct Q. constructor; cbn; auto. destruct (m_due m) as [[x v]|]; cbn; destruct QD as [? [? ?]]; auto.
  - destruct b; [|discriminate]. cbn [tstep] in T. destruct (m_due m) as [[x live]|] eqn:D; [|discriminate]. destruct (N.eqb_spec x (m_now m)) as [->|]; [|discriminate]. destruct (m_passed m) eqn:MP; [discriminate|].
    cbn [andb negb] in T. injection T as <-. pose proof (q_due _ _ Q) as QD. rewrite D in QD. destruct QD as [D1 [D2 D3]]. cbn [cstep]. rewrite (q_run _ _ Q), (q_passed _ _ Q), MP, D1, (q_now _ _ Q), take_one, N.eqb_refl.
    cbn [andb negb]. unfold invoke. cbn [s_c]. rewrite D2. destruct live; cbn [cexecs obind with_c s_c]; (eexists; split; [reflexivity|]); destruct Q; constructor; cbn; auto.
    rewrite q_log0. reflexivity.
  - cbn [tstep] in T. destruct (m_passed m) eqn:MP; [discriminate|]. cbn [orb] in T. cbn [cstep]. rewrite (q_run _ _ Q), (q_passed _ _ Q), MP. cbn [andb negb]. pose proof (q_due _ _ Q) as QD. rewrite (q_now _ _ Q).
    destruct (m_due m) as [[x live]|] eqn:D; destruct QD as [D1 [D2 D3]]; rewrite D1; [rewrite take_one; destruct (x =? m_now m); [discriminate|]|cbn [take]]; injection T as <-; (eexists; split; [reflexivity|]); destruct Q; constructor; cbn; auto.
  - cbn [tstep] in T. destruct (m_passed m) eqn:MP; [|discriminate]. injection T as <-. cbn [cstep]. rewrite (q_passed _ _ Q), MP. eexists. split; [reflexivity|]. destruct Q. constructor; cbn; auto. now rewrite q_now0.
Qed.
Lemma runs_sim : forall l s m m', sim s m -> truns m l = Some m' -> exists s', cruns s l = Done s' /\ sim s' m'.
Proof.
  induction l as [|e l IH]; intros s m m' Q T; cbn [truns] in T; [injection T as <-; exists s; auto|]. destruct (tstep m e) as [m1|] eqn:E; [|discriminate].
  destruct (step_sim s m e m1 Q E) as [s1 [E1 Q1]]. destruct (IH s1 m1 m' Q1 T) as [s2 [E2 Q2]]. exists s2. split; [|auto]. cbn [cruns]. rewrite E1. exact E2.
Qed.
(** A running trigger that has never been set. *)
Definition fresh : cst := mkCS 0 false true true 0 [] cycle0 [].
Lemma fresh_sim : sim fresh timer0.
Proof. constructor; cbn; auto. Qed.

(** As long as the user keeps to the rules of the timer - nothing is set while an event is outstanding, one kind of setting, times to
    come that fit 64 bits, nothing done in the callback - no operation fails, and the callback is called exactly when the timer
    rings. *)
Theorem C59_timer_partial : forall l m, truns timer0 l = Some m ->
  exists s, cruns (cst0 cycle0) (CFinalize :: CStart :: l) = Done s /\ s_now s = m_now m /\ s_log s = m_log m
    /\ c_set (s_c s) = match m_due m with Some (_, live) => live | None => false end.
Proof.
  intros l m T. destruct (runs_sim l fresh timer0 m fresh_sim T) as [s [E Q]]. exists s. split; [exact E|]. split; [apply Q|]. split; [apply Q|].
  pose proof (q_due _ _ Q) as D. destruct (m_due m) as [[x v]|]; apply D.
Qed.
(** Ticks pass. *)
Fixpoint ticks (n : nat) : list cev := match n with O => [] | S k => [CPass; CNext] ++ ticks k end.
Example C59_timer_partial_ex : truns timer0 ([COp (Align true); COp (SetRel 2 3)] ++ ticks 6 ++ [CInvoke []; COp (Align false); COp Set_] ++ ticks 1 ++ [COp Deact] ++ ticks 5 ++ [CInvoke []; COp (SetRel 5 1)]
    ++ ticks 5 ++ [CInvoke []; CPass]) = Some (mkTim 17 true None (Some (Rel 5 1)) false [17; 6]).
Proof. reflexivity. Qed.
Print Assumptions C59_timer_partial.

(** In cycles of the clock: the target of a relative setting is [d] cycles away; of an aligned one, the first later cycle that is a
    multiple of [d]; of an absolute one, the cycle given. *)
Theorem C59_target : forall al w now x, target al w now = Some x -> now <= x /\ x < 2 ^ 64 /\
  match w with
  | Rel p d => if al then (x / p) mod d = 0 /\ now / p < x / p /\ x / p <= now / p + d else x / p = now / p + d
  | Abs p t => x / p = t
  end.
Proof.
  intros al w now x T. unfold target in T. destruct w as [p d|p t]; destruct (N.eqb_spec p 0) as [P|P]; try discriminate.
  - destruct al.
    + destruct (N.eqb_spec d 0) as [D|D]; [discriminate|]. destruct (N.ltb_spec (now + (d * (now / p / d + 1) - now / p) * p) (2 ^ 64)) as [L|L]; [|discriminate]. injection T as <-.
      split; [apply N.le_add_r|]. split; [exact L|]. clear L. rewrite N.div_add by auto. set (c := now / p). pose proof (N.div_mod c d D). pose proof (N.mod_lt c d D).
      assert (Z1 : d * (c / d + 1) = d * (c / d) + d) by ring. assert (Z2 : (c / d + 1) * d = d * (c / d) + d) by ring.
      replace (c + (d * (c / d + 1) - c)) with ((c / d + 1) * d) by lia. rewrite N.mod_mul by auto. split; [auto|].
      rewrite Z2. clear Z1 Z2 P. clearbody c. revert H H0. generalize (d * (c / d)), (c mod d). intros; lia.
    + destruct (N.ltb_spec (now + d * p) (2 ^ 64)) as [L|L]; [|discriminate]. injection T as <-. split; [apply N.le_add_r|]. split; [exact L|]. apply N.div_add; auto.
  - destruct (N.ltb_spec t (now / p)) as [LT|LT]; [discriminate|]. destruct (N.ltb_spec (now + (t - now / p) * p) (2 ^ 64)) as [L|L]; [|discriminate]. injection T as <-.
    split; [apply N.le_add_r|]. split; [exact L|]. rewrite N.div_add by auto. lia.
Qed.
Example C59_target_ex : target true (Rel 4 10) 100 = Some 120 /\ target false (Rel 4 10) 101 = Some 141 /\ target false (Abs 4 30) 101 = Some 121.
Proof. repeat split. Qed.
Print Assumptions C59_target.

(** Events of the scheduler only; the callback leaves the trigger alone. *)
Definition quiet (l : list cev) : bool := forallb (fun e => match e with CInvoke [] | CPass | CNext => true | _ => false end) l.
Lemma rings : forall l s s' x, quiet l = true -> s_run s = true -> cruns s l = Done s' ->
  (s_pend s = [x] -> s_now s < x \/ s_now s = x /\ s_passed s = false ->
     (s_log s' = s_log s /\ s_pend s' = [x] /\ c_set (s_c s') = c_set (s_c s) /\ (s_now s' < x \/ s_now s' = x /\ s_passed s' = false))
     \/ (s_log s' = (if c_set (s_c s) then x :: s_log s else s_log s) /\ s_pend s' = [] /\ c_set (s_c s') = false /\ x <= s_now s'))
  /\ (s_pend s = [] -> s_log s' = s_log s /\ s_pend s' = [] /\ c_set (s_c s') = c_set (s_c s) /\ s_now s <= s_now s').
Proof.
  induction l as [|e l IH]; intros s s' x QL R E; cbn [cruns] in E.
  - injection E as <-. split; [intros P [L|L]; left; auto|]. intros P. repeat split; auto. lia.
  - unfold quiet in QL. cbn [forallb] in QL. apply andb_true_iff in QL. destruct QL as [Q1 Q2].
    destruct e as [o| | |b| |]; try discriminate; cbn [cstep] in E.
    + destruct b; [|discriminate]. rewrite R in E. destruct (s_passed s) eqn:SP; [discriminate|]. cbn [andb negb] in E. split; intros P.
      * intros L. rewrite P, take_one in E. destruct (N.eqb_spec x (s_now s)) as [EX|NX]; [|discriminate]. unfold invoke in E. cbn [s_c] in E. right.
        destruct (c_set (s_c s)) eqn:CS; cbn [cexecs obind with_c s_c] in E; match type of E with cruns ?z _ = _ => destruct (IH z s' x Q2 ltac:(first [exact R|reflexivity]) E) as [_ K] end;
          destruct (K eq_refl) as [K1 [K2 [K3 K4]]]; cbn in K1, K3, K4; rewrite K1, K2, K3; rewrite ?CS, ?EX; repeat split; auto; rewrite <- EX in *; auto; lia.
      * rewrite P in E. discriminate.
    + rewrite R in E. destruct (s_passed s) eqn:SP; [discriminate|]. cbn [andb negb] in E. split; intros P.
      * intros L. rewrite P, take_one in E. destruct (N.eqb_spec x (s_now s)) as [EX|NX]; [discriminate|]. cbn [obind] in E.
        match type of E with cruns ?z _ = _ => destruct (IH z s' x Q2 ltac:(first [exact R|reflexivity]) E) as [K _] end. apply K; [auto|]. left. cbn. destruct L as [L|[L _]]; [auto|congruence].
      * rewrite P in E. cbn [take obind] in E. match type of E with cruns ?z _ = _ => destruct (IH z s' x Q2 ltac:(first [exact R|reflexivity]) E) as [_ K] end. apply K. auto.
    + destruct (s_passed s) eqn:SP; [|discriminate]. cbn [obind] in E. match type of E with cruns ?z _ = _ => destruct (IH z s' x Q2 ltac:(first [exact R|reflexivity]) E) as [K1 K2] end. split; intros P.
      * intros L. apply K1; [auto|]. cbn. destruct L as [L|[_ L]]; [|discriminate]. assert (s_now s + 1 <= x) by lia. destruct (N.eq_dec (s_now s + 1) x); [right; auto|left; lia].
      * destruct (K2 P) as [A [B [D F]]]. cbn in F. repeat split; auto. lia.
Qed.
(** Set and then left alone, a trigger that no event was outstanding for calls its callback at the target, once: before that
    moment the log is unchanged; after the tick it contains the target once more. *)
Theorem C59_once_partial : forall l m w m1 s s1 l2 s2, truns timer0 l = Some m -> arm m w = Some m1 -> same_kind (m_prep m) w = true ->
  cruns (cst0 cycle0) (CFinalize :: CStart :: l) = Done s ->
  cstep s (COp match w with Rel p d => SetRel p d | Abs p t => SetAbs p t end) = Done s1 -> quiet l2 = true -> cruns s1 l2 = Done s2 ->
  exists x, target (m_al m) w (m_now m) = Some x
    /\ (s_now s2 < x -> s_log s2 = s_log s) /\ (x < s_now s2 \/ x = s_now s2 /\ s_passed s2 = true -> s_log s2 = x :: s_log s)
    /\ (s_log s2 = s_log s \/ s_log s2 = x :: s_log s).
Proof.
  intros l m w m1 s s1 l2 s2 T A K E ES QL E2. destruct (runs_sim l fresh timer0 m fresh_sim T) as [s0 [E0 Q]].
  assert (EQ : s0 = s) by (change (cruns (cst0 cycle0) (CFinalize :: CStart :: l)) with (cruns fresh l) in E; congruence). subst s0.
  assert (TS : tstep m (COp match w with Rel p d => SetRel p d | Abs p t => SetAbs p t end) = Some m1) by (destruct w; cbn [tstep]; rewrite K; exact A).
  destruct (step_sim s m _ m1 Q TS) as [s1' [E1 Q1]]. rewrite ES in E1. injection E1 as <-. unfold arm in A. destruct (m_due m); [discriminate|].
  destruct (target (m_al m) w (m_now m)) as [x|] eqn:TG; [|discriminate]. destruct ((x =? m_now m) && m_passed m) eqn:ZP; [discriminate|]. injection A as <-. exists x. split; [auto|].
  pose proof (q_due _ _ Q1) as [D1 [D2 _]]. pose proof (q_now _ _ Q1) as QN. pose proof (q_passed _ _ Q1) as QP. cbn in QN, QP. pose proof (q_log _ _ Q1) as QG. cbn in QG. pose proof (q_log _ _ Q) as QG0.
  assert (LE : m_now m <= x) by (apply (C59_target _ _ _ _ TG)). destruct (rings l2 s1 s2 x QL (q_run _ _ Q1) E2) as [R _]. rewrite D2 in R. rewrite QG, <- QG0 in R.
  destruct (R D1) as [[R1 [R2 [R3 R4]]]|[R1 [R2 [R3 R4]]]].
  - rewrite QN, QP. destruct (N.eq_dec (m_now m) x) as [EX|NX]; [right; split; [auto|]|left; lia]. rewrite EX, N.eqb_refl in ZP. exact ZP.
  - split; [auto|]. split; [|auto]. intros [H|[H H']]; destruct R4 as [R4|[R4 R5]]; try lia; congruence.
  - split; [intros; lia|]. auto.
Qed.
Example C59_once_partial_ex : exists m1 s s1 s2, arm timer0 (Abs 2 3) = Some m1 /\ cruns (cst0 cycle0) [CFinalize; CStart] = Done s /\ cstep s (COp (SetAbs 2 3)) = Done s1
  /\ cruns s1 (ticks 6 ++ [CInvoke []] ++ ticks 9) = Done s2 /\ s_log s2 = [6] /\ s_now s2 = 15.
Proof. do 4 eexists. comps. comp. Qed.
Print Assumptions C59_once_partial.

Lemma silent : forall l s s2, c_set (s_c s) = false -> quiet l = true -> cruns s l = Done s2 -> s_log s2 = s_log s.
Proof.
  induction l as [|e l IH]; intros s s2 CS QL E; cbn [cruns] in E; [injection E as <-; auto|].
  unfold quiet in QL. cbn [forallb] in QL. apply andb_true_iff in QL. destruct QL as [Q1 Q2].
  destruct e as [o| | |b| |]; try discriminate; cbn [cstep] in E.
  - destruct b; [|discriminate]. destruct (s_run s && negb (s_passed s)); [|discriminate]. destruct (take (s_now s) (s_pend s)); [|discriminate]. unfold invoke in E. cbn [s_c] in E. rewrite CS in E. cbn [obind] in E.
    match type of E with cruns ?z _ = _ => rewrite (IH z s2) end; auto.
  - destruct (s_run s && negb (s_passed s)); [|discriminate]. destruct (take (s_now s) (s_pend s)); [discriminate|]. cbn [obind] in E. match type of E with cruns ?z _ = _ => rewrite (IH z s2) end; auto.
  - destruct (s_passed s); [|discriminate]. cbn [obind] in E. match type of E with cruns ?z _ = _ => rewrite (IH z s2) end; auto.
Qed.
(** Deactivated in whatever state, a trigger does not call its callback until it is set again (or, before the first run, until the
    startup handlers are called; see [C59_deactivate_before_start_refuted]). *)
Theorem C59_deactivated_partial : forall s s1 l s2, cstep s (COp Deact) = Done s1 -> quiet l = true -> cruns s1 l = Done s2 -> s_log s2 = s_log s.
Proof. intros s s1 l s2 ED QL E2. cbn in ED. injection ED as <-. match type of E2 with cruns ?z _ = _ => rewrite (silent l z s2) end; auto. Qed.
Example C59_deactivated_partial_ex : exists s s1 s2, cruns (cst0 cycle0) (CFinalize :: CStart :: COp (SetRel 2 3) :: ticks 2) = Done s /\ c_set (s_c s) = true /\ cstep s (COp Deact) = Done s1
  /\ cruns s1 (ticks 4 ++ [CInvoke []] ++ ticks 9) = Done s2 /\ s_now s2 = 15.
Proof. do 3 eexists. comps. comp. Qed.
Print Assumptions C59_deactivated_partial.

(** What operations leave alone. *)
Lemma tick_fired : forall s r s', schedule_tick s r = Done s' -> c_fired (s_c s') = c_fired (s_c s) /\ s_log s' = s_log s.
Proof.
  intros s r s' E. unfold schedule_tick in E. destruct ((r =? 0) && s_passed s); [discriminate|]. destruct (w64 (s_now s + r) <? s_now s); [discriminate|]. injection E as <-. split; reflexivity.
Qed.
Lemma set_now_fired : forall s s', set_now s = Done s' -> c_fired (s_c s') = c_fired (s_c s) /\ s_log s' = s_log s.
Proof.
  intros s s' E. unfold set_now in E. cbv zeta in E.
  set (z := with_c s (flags (s_c s) true (c_sched (s_c s)))) in E. assert (Z : c_fired (s_c z) = c_fired (s_c s) /\ s_log z = s_log s) by (split; reflexivity). clearbody z.
  destruct (c_clk (s_c z) =? 0); [discriminate|]. destruct (s_fin z); [|injection E as <-; exact Z].
  match type of E with obind ?o _ = _ => assert (K : forall s1, o = Done s1 -> c_fired (s_c s1) = c_fired (s_c z) /\ s_log s1 = s_log z); [|destruct o as [s1| | | |]; try discriminate] end.
  - intros s1 X. unfold schedule_cycle in X. destruct (c_ps (s_c z)); [now apply tick_fired in X|]. destruct (c_rel (s_c z)).
    + destruct (c_align (s_c z)); [destruct (c_delay (s_c z) =? 0); [discriminate|]|]; now apply tick_fired in X.
    + destruct (c_abs (s_c z)); [now apply tick_fired in X|discriminate].
  - cbn [obind] in E. injection E as <-. destruct (K s1 eq_refl) as [K1 K2]. destruct Z. cbn. split; congruence.
Qed.
Lemma cexec_fired : forall s o s', cexec s o = Done s' -> c_fired (s_c s') = c_fired (s_c s) /\ s_log s' = s_log s.
Proof.
  intros s o s' E. destruct o; cbn [cexec] in E; unfold check_safe in E;
    repeat match type of E with context [if ?b then _ else _] => destruct b | context [match ?b with Some _ => _ | None => _ end] => destruct b end;
    try discriminate; try (injection E as <-; split; reflexivity); apply set_now_fired in E; exact E.
Qed.
Lemma cexecs_fired : forall l s s', cexecs s l = Done s' -> c_fired (s_c s') = c_fired (s_c s) /\ s_log s' = s_log s.
Proof.
  induction l as [|o l IH]; intros s s' E; cbn [cexecs] in E; [injection E as <-; auto|]. destruct (cexec s o) as [s1| | | |] eqn:X; try discriminate. cbn [obind] in E.
  apply cexec_fired in X. apply IH in E. destruct X, E. split; congruence.
Qed.
Lemma cstarts_fired : forall n s s', cstarts s n = Done s' -> c_fired (s_c s') = c_fired (s_c s) /\ s_log s' = s_log s.
Proof.
  induction n as [|n IH]; intros s s' E; cbn [cstarts] in E; [injection E as <-; auto|]. destruct (set_now s) as [s1| | | |] eqn:X; try discriminate. cbn [obind] in E.
  apply set_now_fired in X. apply IH in E. destruct X, E. split; congruence.
Qed.
(** hasFired answers yes exactly if the callback has been called, in every history of any trigger. *)
Theorem C59_has_fired : forall c l s, c = cycle0 \/ (exists p ps, c = mkC false false false false false false p 0 0 (Some ps)) ->
  cruns (cst0 c) l = Done s -> (c_fired (s_c s) = true <-> s_log s <> []).
Proof.
  intros c l s IC E.
  assert (G : forall l s0 s, (c_fired (s_c s0) = true <-> s_log s0 <> []) -> cruns s0 l = Done s -> (c_fired (s_c s) = true <-> s_log s <> [])).
  { clear. induction l as [|e l IH]; intros s0 s V E; cbn [cruns] in E; [injection E as <-; auto|]. destruct (cstep s0 e) as [s1| | | |] eqn:X; try discriminate. cbn [obind] in E.
    apply (IH s1 s); [|exact E]. clear E IH. destruct e as [o| | |b| |]; cbn [cstep] in X.
    - apply cexec_fired in X. destruct X as [-> ->]. auto.
    - destruct (s_fin s0); [discriminate|]. injection X as <-. auto.
    - destruct (s_fin s0 && negb (s_run s0)); [|discriminate]. apply cstarts_fired in X. destruct X as [-> ->]. auto.
    - destruct (s_run s0 && negb (s_passed s0)); [|discriminate]. destruct (take (s_now s0) (s_pend s0)); [|discriminate]. unfold invoke in X. cbn [s_c s_now s_passed s_fin s_run s_start s_pend s_log] in X.
      destruct (c_set (s_c s0)); [|cbn [obind] in X; injection X as <-; auto]. match type of X with context [cexecs ?z b] => destruct (cexecs z b) as [s2| | | |] eqn:Y end; try discriminate. cbn [obind] in X. injection X as <-.
      apply cexecs_fired in Y. destruct Y as [_ Y]. cbn in Y. cbn. rewrite Y. split; [discriminate|auto].
    - destruct (s_run s0 && negb (s_passed s0)); [|discriminate]. destruct (take (s_now s0) (s_pend s0)); [discriminate|]. injection X as <-. auto.
    - destruct (s_passed s0); [|discriminate]. injection X as <-. auto. }
  apply (G l (cst0 c) s); auto. destruct IC as [->|(p & ps & ->)]; cbn; split; congruence.
Qed.
Example C59_has_fired_ex : exists s1 s2, cruns (cst0 cycle0) ([CFinalize; CStart; COp (SetRel 2 3)] ++ ticks 6) = Done s1 /\ c_fired (s_c s1) = false
  /\ cruns (cst0 cycle0) ([CFinalize; CStart; COp (SetRel 2 3)] ++ ticks 6 ++ [CInvoke []]) = Done s2 /\ c_fired (s_c s2) = true.
Proof. do 2 eexists. comps. comp. Qed.
Print Assumptions C59_has_fired.

Lemma set_rel_now : forall s p d, s_fin s = true -> s_passed s = false -> c_ps (s_c s) = None -> c_align (s_c s) = false -> c_rel (s_c s) = true -> c_clk (s_c s) = p -> c_delay (s_c s) = d ->
  p <> 0 -> s_now s + d * p < 2 ^ 64 ->
  set_now s = Done (mkCS (s_now s) false true (s_run s) (s_start s) (s_pend s ++ [s_now s + d * p]) (flags (s_c s) true true) (s_log s)).
Proof.
  intros s p d F PS CP CA CR CK CD P L. unfold set_now. cbn [with_c s_c flags c_clk s_fin c_ps c_rel c_align c_delay c_abs c_when]. rewrite F, CP, CA, CR, CK, CD.
  destruct (N.eqb_spec p 0); [congruence|]. unfold schedule_cycle. rewrite w64_small by (apply N.le_lt_trans with (2 := L); apply N.le_add_l).
  rewrite tick_ok by auto. cbn [obind with_c s_now s_passed s_fin s_run s_start s_pend s_c s_log]. rewrite PS, F. reflexivity.
Qed.
(** Set before the scheduler is finalized, a trigger behaves as one set at the beginning of the first run. *)
Theorem C59_before_start_partial : forall p d, p <> 0 -> d * p < 2 ^ 64 ->
  exists s, cruns (cst0 cycle0) [COp (SetRel p d); CFinalize; CStart] = Done s /\ cruns (cst0 cycle0) [CFinalize; CStart; COp (SetRel p d)] = Done s /\ s_pend s = [d * p] /\ c_set (s_c s) = true.
Proof.
  intros p d P L. exists (mkCS 0 false true true 0 [d * p] (flags (prep_rel cycle0 p d) true true) []).
  assert (E1 : cexec (cst0 cycle0) (SetRel p d) = Done (mkCS 0 false false false 1 [] (flags (prep_rel cycle0 p d) true false) [])).
  { destruct p as [|p]; [congruence|reflexivity]. }
  cbn [cruns cstep obind]. rewrite E1. cbn [obind s_fin s_run andb negb s_start s_now s_passed s_pend s_c s_log cstarts]. rewrite (set_rel_now _ p d) by auto. split; [reflexivity|].
  cbn [cst0 s_fin s_run andb negb s_start s_now s_passed s_pend s_c s_log cstarts obind]. cbn [cexec s_c cycle0 c_ps check_safe c_set c_sched orb]. rewrite (set_rel_now _ p d) by auto. split; [reflexivity|]. split; reflexivity.
Qed.
Example C59_before_start_partial_ex : exists s, cruns (cst0 cycle0) ([COp (SetRel 2 3); CFinalize; CStart] ++ ticks 6 ++ [CInvoke []]) = Done s /\ s_log s = [6].
Proof. eexists. comps. comp. Qed.
Print Assumptions C59_before_start_partial.

(** A time trigger is active when it is made, and calls its callback [ps] ticks (picoseconds) later, once, if it is left alone. *)
Theorem C59_time_partial : forall s p ps s1 l s2, s_fin s = true -> s_run s = true -> s_pend s = [] -> p <> 0 -> s_now s + ps < 2 ^ 64 -> (ps = 0 -> s_passed s = false) ->
  quiet l = true -> time_new s p ps = Done s1 -> cruns s1 l = Done s2 ->
  (s_now s2 < s_now s + ps -> s_log s2 = s_log s) /\ (s_now s + ps < s_now s2 \/ s_now s + ps = s_now s2 /\ s_passed s2 = true -> s_log s2 = (s_now s + ps) :: s_log s)
  /\ (s_log s2 = s_log s \/ s_log s2 = (s_now s + ps) :: s_log s).
Proof.
  intros s p ps s1 l s2 F R PE P L Z QL E E2. unfold time_new, set_now in E. cbn [with_c s_c flags c_clk c_ps s_fin] in E. destruct (N.eqb_spec p 0); [congruence|]. rewrite F in E. rewrite w64_small in E by lia.
  rewrite tick_ok in E by auto. cbn [obind with_c s_now s_passed s_fin s_run s_start s_pend s_c s_log] in E. injection E as <-. rewrite PE in E2. cbn [app] in E2.
  match type of E2 with cruns ?z _ = _ => destruct (rings l z s2 (s_now s + ps) QL) as [K _]; [exact R|exact E2|] end.
  destruct (K eq_refl) as [[R1 [R2 [R3 R4]]]|[R1 [R2 [R3 R4]]]].
  - cbn. destruct (N.eq_dec ps 0) as [->|]; [right; split; [lia|auto]|left; lia].
  - split; [auto|]. split; [|auto]. intros [H|[H H']]; destruct R4 as [R4|[R4 R5]]; try lia; congruence.
  - split; [intros; lia|]. auto.
Qed.
Example C59_time_partial_ex : exists s1 s2, time_new fresh 7 12 = Done s1 /\ cruns s1 (ticks 12 ++ [CInvoke []] ++ ticks 20) = Done s2 /\ s_log s2 = [12] /\ s_now s2 = 32.
Proof. do 2 eexists. comps. comp. Qed.
Print Assumptions C59_time_partial.

(** deactivate() and then set() while the earlier event is outstanding: set() does not look at scheduled_ (SingleTrigger.hpp 496-507), so the
    earlier event calls the callback, at the old time, and the later one is ignored. The same holds for time triggers. *)
Theorem C59_set_again_refuted : exists s s1 s2, cruns (cst0 cycle0) ([CFinalize; CStart; COp (SetRel 1 10)] ++ ticks 4) = Done s
  /\ cruns s ([COp Deact; COp Set_] ++ ticks 6 ++ [CInvoke []] ++ ticks 4 ++ [CInvoke []] ++ ticks 2) = Done s1 /\ s_now s = 4 /\ s_log s1 = [10] /\ s_now s1 = 16
  /\ (exists t t1, time_new fresh 1 10 = Done t /\ cruns t (ticks 4 ++ [COp Deact; COp Set_] ++ ticks 6 ++ [CInvoke []]) = Done t1 /\ s_log t1 = [10])
  /\ cruns fresh ([COp (SetRel 1 10)] ++ ticks 4 ++ [COp Deact] ++ ticks 6 ++ [CInvoke []; COp Set_] ++ ticks 10 ++ [CInvoke []]) = Done s2 /\ s_log s2 = [20].
Proof.
  do 3 eexists. split; [comp|]. split; [comp|]. split; [comp|]. split; [comp|]. split; [comp|]. split; [do 2 eexists; comps; comp|]. split; [comp|comp].
Qed.
Example C59_set_again_refuted_ex : truns timer0 ([COp (SetRel 1 10)] ++ ticks 4 ++ [COp Deact; COp Set_]) = None.
Proof. reflexivity. Qed.
Print Assumptions C59_set_again_refuted.

(** A trigger that has been set relatively once cannot be set for an absolute cycle any more: the earlier kind is never forgotten, set_
    looks at it first (SingleTrigger.hpp 619-629), and the callback comes after the earlier delay. With prepAbsolute, set() fails an
    assertion. *)
Theorem C59_two_kinds_refuted : exists s s1, cruns fresh ([COp (SetRel 1 3)] ++ ticks 3 ++ [CInvoke []]) = Done s /\ s_pend s = [] /\ c_set (s_c s) = false
  /\ cruns s ([COp (SetAbs 1 20)] ++ ticks 3 ++ [CInvoke []] ++ ticks 30) = Done s1 /\ s_log s1 = [6; 3]
  /\ cruns s [COp (PrepAbs 1 20); COp Set_] = Asserted.
Proof. do 2 eexists. comps. comp. Qed.
Example C59_two_kinds_refuted_ex : exists s, cruns fresh ([COp (SetAbs 1 20)] ++ ticks 20 ++ [CInvoke []]) = Done s /\ s_log s = [20].
Proof. eexists. comps. comp. Qed.
Print Assumptions C59_two_kinds_refuted.

(** An aligned trigger with a delay of 0 divides by zero (SingleTrigger.hpp 623). *)
Theorem C59_align_zero_refuted : forall p, p <> 0 -> cruns fresh [COp (Align true); COp (SetRel p 0)] = Undefined.
Proof. intros [|p] P; [congruence|]. reflexivity. Qed.
Example C59_align_zero_refuted_ex : exists s, cruns fresh [COp (SetRel 3 0); CInvoke []] = Done s /\ s_log s = [0].
Proof. eexists. comps. comp. Qed.
Print Assumptions C59_align_zero_refuted.

(** A trigger set and then deactivated before the first run calls its callback all the same: the startup handler sets it again
    (SingleTrigger.hpp 648-651). *)
Theorem C59_deactivate_before_start_refuted : exists s s1, cruns (cst0 cycle0) [COp (SetRel 1 5); COp Deact] = Done s /\ c_set (s_c s) = false
  /\ cruns s ([CFinalize; CStart] ++ ticks 5 ++ [CInvoke []]) = Done s1 /\ s_log s1 = [5].
Proof. do 2 eexists. comps. comp. Qed.
Example C59_deactivate_before_start_refuted_ex : exists s, cruns (cst0 cycle0) ([CFinalize; COp (SetRel 1 5); COp Deact; CStart] ++ ticks 5 ++ [CInvoke []]) = Done s /\ s_log s = [].
Proof. eexists. comps. comp. Qed.
Print Assumptions C59_deactivate_before_start_refuted.

(** In its callback a trigger cannot be set for a new time: scheduled_ is still true (SingleTrigger.hpp 657-666), and setRelative fails an
    assertion. set() succeeds, but scheduled_ is then cleared though the new event is outstanding; after deactivate() the trigger can be
    set again, and the outstanding event calls the callback early. *)
Theorem C59_in_callback_refuted : exists s s1 s2, cruns fresh ([COp (SetRel 1 3)] ++ ticks 3) = Done s
  /\ cstep s (CInvoke [SetRel 1 5]) = Asserted
  /\ cstep s (CInvoke [Set_]) = Done s1 /\ s_pend s1 = [6] /\ c_sched (s_c s1) = false
  /\ cruns s1 ([COp Deact; COp (SetRel 1 50)] ++ ticks 3 ++ [CInvoke []]) = Done s2 /\ s_log s2 = [6; 3].
Proof. do 3 eexists. comps. comp. Qed.
Example C59_in_callback_refuted_ex : exists s, cruns fresh ([COp (SetRel 1 3)] ++ ticks 3 ++ [CInvoke [Set_]] ++ ticks 3 ++ [CInvoke []]) = Done s /\ s_log s = [6; 3].
Proof. eexists. comps. comp. Qed.
Print Assumptions C59_in_callback_refuted.

(** setAbsolute for a cycle that is over: the documentation says that the event never occurs (SingleTrigger.hpp 487-491); the difference
    wraps around, and the event is put in the scheduler at a tick that is over. *)
Theorem C59_past_refuted : exists s, cruns fresh (ticks 9) = Done s /\ cruns s [COp (PrepAbs 1 5); COp Set_] = Undefined /\ cstep s (COp (SetAbs 1 5)) = Undefined.
Proof. eexists. comps. comp. Qed.
Example C59_past_refuted_ex : exists s, cruns fresh (ticks 9 ++ [COp (SetAbs 1 9); CInvoke []]) = Done s /\ s_log s = [9].
Proof. eexists. comps. comp. Qed.
Print Assumptions C59_past_refuted.
