(** C54: elapsed ticks follow the current tick. C55: a run without limit ends with every continuing event done. *)
From Coq Require Import List NArith Arith Bool Lia Sorted.
From Verif Require Import SchedModel SchedProofs SchedRunProofs SchedProps.
Import ListNotations.
Open Scope N_scope.

(* ================= C54 ================= *)
Lemma absdiff_le : forall a b, b <= a -> b + absdiff a b = a.
Proof. intros. unfold absdiff. lia. Qed.

Lemma exec_cmd_time : forall c s k, s_tick (exec_cmd c s k) = s_tick s /\ s_elapsed (exec_cmd c s k) = s_elapsed s /\
  s_first (exec_cmd c s k) = s_first s /\ s_ctl (exec_cmd c s k) = s_ctl s.
Proof.
  intros c s k. destruct k; simpl; auto.
  unfold schedule_user. destruct (_ && _)%bool; [simpl; auto|].
  destruct (schedule_event c s (User n) rel (c_gid c n) cont (c_uniq c n)) as [s1 ok] eqn:E. simpl.
  pose proof (schedule_event_frame c s (User n) _ _ _ _ _ E) as (F1 & F2 & F3 & F4 & F5 & F6 & F7 & F8 & F9). auto.
Qed.
Lemma drain_time : forall c l s s', drain c s l = Some s' ->
  s_tick s' = s_tick s /\ s_elapsed s' = s_elapsed s /\ s_first s' = s_first s /\ s_ctl s' = s_ctl s /\ s_running s' = s_running s.
Proof.
  intros c. induction l as [|[[n rel] cont] r IH]; simpl; intros s s' H.
  - injection H as <-. auto 10.
  - destruct (schedule_event c s (User n) rel (c_gid c n) cont false) as [s1 ok] eqn:ES. destruct ok; [|discriminate].
    pose proof (schedule_event_frame c s (User n) _ _ _ _ _ ES) as (F1 & F2 & F3 & F4 & F5 & F6 & F7 & F8 & F9).
    destruct (IH s1 s' H) as (G1 & G2 & G3 & G4 & G5). repeat split; congruence.
Qed.

(** What time looks like; [gap] says whether the clock of elapsed ticks may stand at the current tick between runs, as a
    restart leaves it. *)
Definition time_ok (gap : bool) (s : sched) : Prop :=
  s_elapsed s <= s_tick s /\
  match s_ctl s with
  | Idle => s_elapsed s = s_tick s - 1 \/ (gap = true /\ s_elapsed s = s_tick s)
  | Scan | Handler => s_elapsed s = s_tick s
  | _ => True
  end.
Lemma run_end_time : forall gap s, s_elapsed s <= s_tick s -> time_ok gap (run_end s).
Proof. intros gap s H. unfold time_ok, run_end. simpl. rewrite absdiff_le by exact H. split; [lia|]. left. lia. Qed.

Lemma step_time : forall c gap s a, Inv c s -> time_ok gap s ->
  (match a with ARestart t => gap = true /\ (s_first s = true \/ t = 0) | _ => True end) ->
  time_ok gap (step c s a).
Proof.
  intros c gap s a I [T1 T2] HA. unfold step.
  destruct a as [k|num ex| |t|]; destruct (s_ctl s) eqn:HC; try (split; [exact T1|rewrite HC; exact T2]).
  - destruct (exec_cmd_time c s k) as (K1 & K2 & _ & K4). unfold time_ok. rewrite K1, K2, K4, HC. auto.
  - destruct (exec_cmd_time c s k) as (K1 & K2 & _ & K4). unfold time_ok. rewrite K1, K2, K4, HC. auto.
  - unfold run_begin. destruct num as [[|n]|].
    + split; [exact T1|rewrite HC; exact T2].
    + cbv zeta. destruct (match s_queue _ with [] => true | _ :: _ => _ end).
      * destruct ex; unfold time_ok; simpl; rewrite HC; [|auto].
        rewrite N.add_comm. assert (E : s_elapsed s + 1 <= s_tick s + N.pos n) by lia.
        unfold absdiff. split; [lia|]. left. lia.
      * match goal with |- context [schedule_event ?c ?x Stop ?r ?g ?a ?b] =>
          destruct (schedule_event c x Stop r g a b) as [s1 ok] eqn:ES;
          pose proof (schedule_event_frame c x Stop _ _ _ _ _ ES) as (F1 & F2 & F3 & F4 & F5 & F6 & F7 & F8 & F9) end.
        unfold time_ok. simpl in *. split; [|auto]. rewrite F2, F6. exact T1.
    + unfold time_ok. simpl. split; auto.
  - unfold time_ok. simpl. rewrite HC. auto.
  - destruct HA as [G HA]. unfold time_ok, restart_at. simpl. rewrite HC.
    destruct HA as [HA| ->]; [rewrite HA; cbn [orb]|rewrite orb_true_r]; split; try lia; right; auto.
  - unfold tick_begin. destruct (s_running s) eqn:RU; [|apply run_end_time; exact T1].
    destruct (s_queue s) as [|q rest] eqn:EQ; [split; simpl; auto|].
    pose proof (I_ge c s I) as GE. rewrite EQ in GE. apply Forall_inv in GE. cbv zeta.
    match goal with |- context [drain c ?x ?l] => destruct (drain c x l) as [s'|] eqn:ED end.
    + destruct (drain_time _ _ _ _ ED) as (D1 & D2 & _ & D4 & _). simpl in *. unfold time_ok. rewrite D1, D2, D4.
      rewrite absdiff_le by lia. split; [lia|reflexivity].
    + unfold time_ok. simpl. rewrite absdiff_le by lia. split; [lia|exact Logic.I].
  - unfold scan. destruct (s_queue s) as [|q rest] eqn:EQ; [split; simpl; auto|].
    destruct (Nat.ltb _ _).
    + destruct (nth_error _ _) as [sl|]; [destruct (sl_ev sl) as [[|n]|]|]; split; simpl; auto.
    + unfold tick_end. rewrite EQ. destruct rest as [|n r].
      * apply run_end_time. simpl. exact T1.
      * cbv zeta. simpl. destruct (_ <? _); [apply run_end_time; simpl; exact T1|]. split; simpl; auto.
  - split; simpl; auto.
Qed.

(** A restart to a tick other than 0 after a run. *)
Definition late_restart (acts : list action) : Prop :=
  exists a t b n ex, acts = a ++ ARestart t :: b /\ t <> 0 /\ In (ARun n ex) a.
Lemma first_kept : forall c l, (forall n ex, ~ In (ARun n ex) l) -> s_first (exec c init l) = true.
Proof.
  intros c l. induction l as [|a l IH] using rev_ind; intros H; [reflexivity|].
  unfold exec in *. rewrite fold_left_app. cbn [fold_left].
  assert (F : s_first (fold_left (step c) l init) = true).
  { apply IH. intros n ex X. apply (H n ex). apply in_or_app. auto. }
  set (s := fold_left (step c) l init) in *. clearbody s. unfold step.
  destruct a as [k|num ex| |t|]; destruct (s_ctl s); auto.
  - destruct (exec_cmd_time c s k) as (_ & _ & -> & _). exact F.
  - destruct (exec_cmd_time c s k) as (_ & _ & -> & _). exact F.
  - exfalso. apply (H num ex). apply in_or_app. right. left. reflexivity.
  - unfold tick_begin. destruct (s_running s); [|exact F]. destruct (s_queue s); [exact F|]. cbv zeta.
    match goal with |- context [drain c ?x ?l] => destruct (drain c x l) as [s'|] eqn:ED end; [|exact F].
    destruct (drain_time _ _ _ _ ED) as (_ & _ & -> & _). exact F.
  - unfold scan. destruct (s_queue s) as [|q rest]; [exact F|]. destruct (Nat.ltb _ _).
    + destruct (nth_error _ _) as [sl|]; [destruct (sl_ev sl) as [[|n]|]|]; exact F.
    + unfold tick_end. destruct (s_queue s) as [|q' [|n r]]; try exact F. cbv zeta. simpl. destruct (_ <? _); exact F.
Qed.

(** Between runs elapsed ticks trail the current tick by one; inside a handler both are the tick of the event. With restarts
    before the first run, or to tick 0, both may be equal between runs. Missing: other restarts, see below. *)
Theorem C54_elapsed_partial : forall c acts, let s := exec c init acts in
  ~ late_restart acts ->
  s_elapsed s <= s_tick s /\
  (s_ctl s = Handler -> s_elapsed s = s_tick s) /\
  (s_ctl s = Idle -> s_elapsed s = s_tick s - 1 \/ s_elapsed s = s_tick s) /\
  ((forall t, ~ In (ARestart t) acts) -> s_ctl s = Idle -> s_elapsed s = s_tick s - 1).
Proof.
  intros c acts. cbv zeta.
  assert (G : forall gap, ~ late_restart acts -> (gap = false -> forall t, ~ In (ARestart t) acts) -> time_ok gap (exec c init acts)).
  { intros gap. induction acts as [|a l IH] using rev_ind; intros HL HG.
    - split; simpl; [lia|]. left. reflexivity.
    - assert (HL' : ~ late_restart l).
      { intros (x & t & b & n & ex & -> & Ht & Hin). apply HL. exists x, t, (b ++ [a]), n, ex.
        split; [rewrite <- app_assoc; reflexivity|auto]. }
      assert (IH' : time_ok gap (exec c init l)).
      { apply IH; auto. intros E t X. apply (HG E t). apply in_or_app. auto. }
      unfold exec in *. rewrite fold_left_app. cbn [fold_left]. apply step_time; auto; [apply (reach_inv c l)|].
      destruct a as [k|num ex| |t|]; auto. split.
      + destruct gap; auto. exfalso. apply (HG eq_refl t). apply in_or_app. right. left. reflexivity.
      + destruct (N.eq_dec t 0) as [->|Ne]; [auto|]. left. apply (first_kept c l). intros n ex X. apply HL.
        exists l, t, [], n, ex. auto. }
  intros HL. pose proof (G true HL ltac:(discriminate)) as [T1 T2]. split; [exact T1|]. split; [|split].
  - intros E. rewrite E in T2. exact T2.
  - intros E. rewrite E in T2. tauto.
  - intros HR E. destruct (G false HL ltac:(auto)) as [_ T3]. rewrite E in T3. destruct T3 as [T3|[T3 _]]; [exact T3|discriminate].
Qed.
Example C54_ex : let acts := [ARestart 7; ACmd (CSchedule 0 5 true); ARun None true] ++ steps 30 ++
    [ACmd (CSchedule 1 4 true); ARun None true; AStep] in
  ~ late_restart acts /\ s_ctl (exec cex init acts) = Scan /\ s_tick (exec cex init acts) = 17 /\ s_elapsed (exec cex init acts) = 17 /\
  let idle := exec cex init ([ACmd (CSchedule 0 5 true); ARun None true] ++ steps 30) in
  s_ctl idle = Idle /\ s_tick idle = 6 /\ s_elapsed idle = 5.
Proof.
  cbv zeta. split; [|vm_compute; auto 10].
  intros (a & t & b & n & ex & H & Ht & Hin). destruct a as [|x a]; [destruct Hin|]. injection H as <- H.
  assert (X : In (ARestart t) (a ++ ARestart t :: b)) by (apply in_or_app; right; left; reflexivity).
  rewrite <- H in X. clear - X. cbn in X. repeat (destruct X as [X|X]; [discriminate|]). destruct X.
Qed.
Print Assumptions C54_elapsed_partial.

(** Whatever happens, elapsed ticks go backwards only by a restart. *)
Theorem C54_monotone : forall c s a, (forall t, a <> ARestart t) -> s_elapsed s <= s_elapsed (step c s a).
Proof.
  intros c s a HA. unfold step.
  destruct a as [k|num ex| |t|]; destruct (s_ctl s) eqn:HC; try lia; try (simpl; lia).
  - destruct (exec_cmd_time c s k) as (_ & -> & _). lia.
  - destruct (exec_cmd_time c s k) as (_ & -> & _). lia.
  - unfold run_begin. destruct num as [[|n]|]; [lia| |simpl; lia]. cbv zeta.
    destruct (match s_queue _ with [] => true | _ :: _ => _ end); [destruct ex; simpl; lia|].
    match goal with |- context [schedule_event ?c ?x Stop ?r ?g ?a ?b] =>
      destruct (schedule_event c x Stop r g a b) as [s1 ok] eqn:ES;
      pose proof (schedule_event_frame c x Stop _ _ _ _ _ ES) as (F1 & F2 & F3 & F4 & F5 & F6 & F7 & F8 & F9) end.
    simpl in *. lia.
  - exfalso. apply (HA t). reflexivity.
  - unfold tick_begin. destruct (s_running s); [|simpl; lia]. destruct (s_queue s); [simpl; lia|]. cbv zeta.
    match goal with |- context [drain c ?x ?l] => destruct (drain c x l) as [s'|] eqn:ED end; [|simpl; lia].
    destruct (drain_time _ _ _ _ ED) as (_ & -> & _). simpl. lia.
  - unfold scan. destruct (s_queue s) as [|q rest]; [simpl; lia|]. destruct (Nat.ltb _ _).
    + destruct (nth_error _ _) as [sl|]; [destruct (sl_ev sl) as [[|n]|]|]; simpl; lia.
    + unfold tick_end. destruct (s_queue s) as [|q' [|n r]]; simpl; try lia. destruct (_ <? _); simpl; lia.
Qed.
Example C54_monotone_ex : s_elapsed (step cex (exec cex init [ACmd (CSchedule 0 5 true); ARun None true]) AStep) = 5.
Proof. reflexivity. Qed.
Print Assumptions C54_monotone.

(** A restart after a run breaks the count: at tick 10 the scheduler reports 12 elapsed ticks. *)
Theorem C54_restart_refuted : exists c acts, let s := exec c init acts in
  s_ctl s = Handler /\ s_tick s = 10 /\ s_elapsed s = 12.
Proof.
  exists cex, ([ACmd (CSchedule 0 5 true); ARun None true] ++ steps 30 ++ [ARestart 10; ACmd (CSchedule 0 0 true); ARun None true; AStep; AStep]).
  vm_compute. auto.
Qed.
Print Assumptions C54_restart_refuted.

(* ================= C55 ================= *)
(** Nothing is pending at or before the latest continuing request. *)
Definition drained (s : sched) : Prop := Forall (fun q => s_latest s < q_tick q) (s_queue s).
(** During a run that started in the loop. *)
Definition looping (s : sched) : Prop :=
  match s_ctl s with
  | Idle => s_finished s = true -> drained s
  | LoopHead => s_running s = false -> s_finished s = true -> s_queue s = []
  | _ => True
  end.
Lemma sorted_after : forall (q : quantum) r t, StronglySorted qlt (q :: r) -> t < q_tick q -> Forall (fun x => t < q_tick x) (q :: r).
Proof.
  intros q r t H HT. constructor; auto. apply StronglySorted_inv in H. destruct H as [_ H]. rewrite Forall_forall in *.
  intros x Hx. specialize (H x Hx). unfold qlt in H. lia.
Qed.
Lemma tick_end_looping : forall c s, Inv c s -> looping (tick_end s).
Proof.
  intros c s I. unfold tick_end. destruct (s_queue s) as [|q [|n r]] eqn:EQ.
  - exact Logic.I.
  - unfold looping, drained. simpl. constructor.
  - cbv zeta. simpl. pose proof (I_sorted c s I) as SS. rewrite EQ in SS. apply StronglySorted_inv in SS. destruct SS as [SS _].
    destruct (N.ltb_spec (s_latest s) (q_tick n)).
    + unfold looping, drained. simpl. intros _. apply sorted_after; auto.
    + unfold looping. simpl. discriminate.
Qed.
Lemma step_looping : forall c s a, Inv c s -> looping s -> s_ctl s <> Idle -> looping (step c s a).
Proof.
  intros c s a I H HI. unfold step. destruct a as [k|num ex| |t|]; destruct (s_ctl s) eqn:HC; auto; try congruence.
  - destruct (exec_cmd_time c s k) as (_ & _ & _ & K). unfold looping. rewrite K, HC. exact Logic.I.
  - unfold tick_begin. destruct (s_running s) eqn:RU.
    + destruct (s_queue s) eqn:EQ; [exact Logic.I|]. cbv zeta.
      match goal with |- context [drain c ?x ?l] => destruct (drain c x l) as [s'|] eqn:ED end; [|exact Logic.I].
      destruct (drain_time _ _ _ _ ED) as (_ & _ & _ & D & _). unfold looping. rewrite D. exact Logic.I.
    + unfold looping in *. rewrite HC in H. simpl. intros F. unfold drained. simpl. rewrite (H RU F). constructor.
  - unfold scan. destruct (s_queue s) as [|q rest] eqn:EQ; [exact Logic.I|]. destruct (Nat.ltb _ _).
    + destruct (nth_error _ _) as [sl|]; [destruct (sl_ev sl) as [[|n]|]|]; exact Logic.I.
    + apply (tick_end_looping c); auto.
  - exact Logic.I.
Qed.
Lemma run_looping : forall c s l s', run_to c s l s' -> Inv c s -> looping s -> looping s'.
Proof. induction 1; intros; auto. apply IHrun_to; [apply step_inv; auto|apply step_looping; auto]. Qed.
Lemma run_idle : forall c s l s', run_to c s l s' -> s_ctl s' = Idle.
Proof. induction 1; auto. Qed.
Lemma run_exec : forall c s l s', run_to c s l s' -> exec c s l = s'.
Proof. induction 1; auto. Qed.

Lemma enter_looping : forall c s num ex, Inv c s -> s_ctl s = Idle -> s_ctl (run_begin c s num ex) = LoopHead -> looping (run_begin c s num ex).
Proof.
  intros c s num ex I HC HL. unfold looping. rewrite HL. unfold run_begin in *. destruct num as [[|n]|].
  - congruence.
  - cbv zeta in *. destruct (match s_queue _ with [] => true | _ :: _ => _ end) eqn:FAR.
    + destruct ex; simpl in HL; congruence.
    + simpl in FAR. destruct (s_queue s) as [|q0 r0] eqn:EQ; [discriminate|].
      match goal with |- context [schedule_event ?c ?x Stop ?r ?g ?a ?b] =>
        destruct (schedule_event c x Stop r g a b) as [s1 ok] eqn:ES;
        pose proof (schedule_event_frame c x Stop _ _ _ _ _ ES) as (F1 & F2 & F3 & F4 & F5 & _) end.
      cbn in F5 |- *. rewrite EQ in F5. intros X. congruence.
  - simpl. destruct (s_queue s); [reflexivity|discriminate].
Qed.

Lemma cmd_latest : forall c s k, s_latest s <= s_latest (exec_cmd c s k) /\
  (s_finished (exec_cmd c s k) = true -> s_finished s = true) /\ exists new, s_log (exec_cmd c s k) = new ++ s_log s.
Proof.
  intros c s k. destruct (exec_cmd_frame c s k) as (_ & _ & _ & _ & _ & _ & L & _ & new & HL & _).
  split; [exact L|]. split; [|eauto]. destruct k; auto. simpl. unfold schedule_user. destruct (_ && _)%bool; [auto|].
  unfold schedule_event. destruct ((rel =? 0) && _)%bool; [auto|]. destruct (negb _); [auto|]. cbv zeta.
  match goal with |- context [if ?b then note _ _ else _] => destruct b end.
  - destruct cont; simpl; [discriminate|auto].
  - destruct (q_insert _ _ _ _ _ _). destruct cont; simpl; [discriminate|auto].
Qed.
Lemma step_log : forall c s a, exists new, s_log (step c s a) = new ++ s_log s.
Proof.
  intros c s a.
  assert (R : exists new : list obs, s_log s = new ++ s_log s) by (exists []; reflexivity).
  assert (R1 : forall o, exists new : list obs, o :: s_log s = new ++ s_log s) by (intros o; exists [o]; reflexivity).
  unfold step. destruct a as [k|num ex| |t|]; destruct (s_ctl s) eqn:HC; auto.
  - apply cmd_latest.
  - apply cmd_latest.
  - unfold run_begin. destruct num as [[|n]|]; auto. cbv zeta.
    destruct (match s_queue _ with [] => true | _ :: _ => _ end); [destruct ex; auto|].
    match goal with |- context [schedule_event ?c ?x Stop ?r ?g ?a ?b] =>
      destruct (schedule_event c x Stop r g a b) as [s1 ok] eqn:ES;
      destruct (schedule_event_log c x Stop _ _ _ _ _ ES) as (o & Ho & _) end.
    cbn in *. rewrite Ho. auto.
  - simpl. auto.
  - exists [ORestart t; OClear]. reflexivity.
  - unfold tick_begin. destruct (s_running s); [|auto]. destruct (s_queue s); [auto|]. cbv zeta.
    match goal with |- context [drain c ?x ?l] => destruct (drain c x l) as [s'|] eqn:ED end; [|auto].
    assert (D : forall l s s', drain c s l = Some s' -> exists new, s_log s' = new ++ s_log s).
    { clear. induction l as [|[[n rel] cont] r IH]; simpl; intros s s' H; [injection H as <-; exists []; reflexivity|].
      destruct (schedule_event c s (User n) rel (c_gid c n) cont false) as [s1 ok] eqn:ES. destruct ok; [|discriminate].
      destruct (schedule_event_log c s (User n) _ _ _ _ _ ES) as (o & Ho & _). destruct (IH _ _ H) as [new Hn].
      exists (new ++ [o]). rewrite Hn, Ho, <- app_assoc. reflexivity. }
    apply D in ED. cbn in ED. exact ED.
  - unfold scan. destruct (s_queue s) as [|q rest] eqn:EQ; [auto|]. destruct (Nat.ltb _ _).
    + destruct (nth_error _ _) as [sl|]; [destruct (sl_ev sl) as [[|n]|]|]; cbn; auto.
    + unfold tick_end. rewrite EQ. destruct rest as [|n r]; cbn; auto. destruct (_ <? _); cbn; auto.
Qed.
Lemma step_latest : forall c s a, s_latest s <= s_latest (step c s a) \/ exists new, s_log (step c s a) = new ++ OClear :: s_log s.
Proof.
  intros c s a. unfold step. destruct a as [k|num ex| |t|]; destruct (s_ctl s) eqn:HC; try (left; simpl; lia).
  - left. apply cmd_latest.
  - left. apply cmd_latest.
  - left. unfold run_begin. destruct num as [[|n]|]; [lia| |simpl; lia]. cbv zeta.
    destruct (match s_queue _ with [] => true | _ :: _ => _ end); [destruct ex; simpl; lia|].
    match goal with |- context [schedule_event ?c ?x Stop ?r ?g ?a ?b] =>
      destruct (schedule_event c x Stop r g a b) as [s1 ok] eqn:ES;
      destruct (schedule_event_latest c x Stop _ _ _ _ _ ES) as (L & _) end. cbn in *. exact L.
  - right. exists []. reflexivity.
  - right. exists [ORestart t]. reflexivity.
  - left. unfold tick_begin. destruct (s_running s); [|simpl; lia]. destruct (s_queue s); [simpl; lia|]. cbv zeta.
    match goal with |- context [drain c ?x ?l] => destruct (drain c x l) as [s'|] eqn:ED end; [|simpl; lia].
    assert (D : forall l s s', drain c s l = Some s' -> s_latest s <= s_latest s').
    { clear. induction l as [|[[n rel] cont] r IH]; simpl; intros s s' H; [injection H as <-; simpl; lia|].
      destruct (schedule_event c s (User n) rel (c_gid c n) cont false) as [s1 ok] eqn:ES. destruct ok; [|discriminate].
      destruct (schedule_event_latest c s (User n) _ _ _ _ _ ES) as (L & _). specialize (IH _ _ H). lia. }
    apply D in ED. cbn in ED. exact ED.
  - left. unfold scan. destruct (s_queue s) as [|q rest] eqn:EQ; [simpl; lia|]. destruct (Nat.ltb _ _).
    + destruct (nth_error _ _) as [sl|]; [destruct (sl_ev sl) as [[|n]|]|]; cbn; lia.
    + unfold tick_end. rewrite EQ. destruct rest as [|n r]; cbn; [lia|]. destruct (_ <? _); cbn; lia.
Qed.

(** An accepted occurrence that is alive in a longer log was alive before. *)
Lemma alive_back : forall c s new id e t g l2 l1, Inv c s -> s_log s = new ++ l2 ++ OSched id e t g :: l1 ->
  alive_log (s_log s) id e t g -> alive_log (l2 ++ OSched id e t g :: l1) id e t g /\ (forall o, In o new -> ~ kills e t o).
Proof.
  intros c s new id e t g l2 l1 I E (m2 & m1 & Em & K & F).
  assert (EQ : m2 = new ++ l2).
  { rewrite E in Em. rewrite app_assoc in Em. pose proof (I_schedids c s I) as U.
    assert (D : forall (a b x y : list obs) o, a ++ o :: x = b ++ o :: y -> a = b \/ In o x \/ In o y).
    { clear. induction a as [|p a IH]; intros b x y o H.
      - destruct b as [|q b]; [auto|]. injection H as H1 H2. right. left. rewrite H2. apply in_or_app. right. left. reflexivity.
      - destruct b as [|q b]; injection H as -> H.
        + right. right. rewrite <- H. apply in_or_app. right. left. reflexivity.
        + destruct (IH _ _ _ _ H) as [->|X]; auto. }
    destruct (D _ _ _ _ _ Em) as [X|[X|X]]; [congruence| |].
    - exfalso. rewrite app_assoc in E. specialize (U _ _ _ _ _ _ E _ _ _ _ X). lia.
    - exfalso. rewrite app_assoc, Em in E. specialize (U _ _ _ _ _ _ E _ _ _ _ X). lia. }
  subst m2. split.
  - exists l2, l1. split; [reflexivity|]. split; [intros o Ho; apply K; apply in_or_app; auto|intros e' t' g' Ho; apply (F e' t' g'); apply in_or_app; auto].
  - intros o Ho. apply K. apply in_or_app. auto.
Qed.

(** Where a continuing occurrence stands. *)
Record Cont (c : cfg) (id : nat) (e : ev) (t : N) (g : nat) (s : sched) : Prop := {
  N_inv : Inv c s;
  N_in : exists l2 l1, s_log s = l2 ++ OSched id e t g :: l1;
  N_latest : alive_log (s_log s) id e t g -> t <= s_latest s;
  N_idle : s_ctl s = Idle -> s_finished s = true -> ~ alive_log (s_log s) id e t g;
  N_loop : s_ctl s = LoopHead -> s_running s = false -> s_finished s = true -> s_queue s = []
}.
Lemma alive_pending : forall c s id e t g, Inv c s -> s_ctl s <> Crashed -> alive_log (s_log s) id e t g ->
  In (t, g, mkSlot (Some e) id) (pend s).
Proof.
  intros c s id e t g I HC (l2 & l1 & E & K & F).
  destruct (I_complete c s I _ _ _ _ _ _ E) as [X|[(o & X & Y)|[X|X]]]; [exfalso; eapply F; eauto|exfalso; eapply K; eauto|congruence|exact X].
Qed.
Lemma drained_dead : forall c s id e t g, Inv c s -> s_ctl s = Idle -> drained s -> t <= s_latest s -> ~ alive_log (s_log s) id e t g.
Proof.
  intros c s id e t g I HC D L A. apply (alive_pending c) in A; [|exact I|congruence].
  unfold pend in A. apply skipn_In in A. apply flat_In in A. destruct A as (q & Hq & Et & _).
  unfold drained in D. rewrite Forall_forall in D. specialize (D q Hq). change (e_t (t, g, mkSlot (Some e) id)) with t in Et. lia.
Qed.
Lemma idle_step_finished : forall c s a, s_ctl s = Idle -> s_ctl (step c s a) = Idle ->
  (forall o, In o [AClear] -> a <> o) -> (forall t, a <> ARestart t) -> s_finished (step c s a) = true -> s_finished s = true.
Proof.
  intros c s a HC HI HA HR. unfold step in *. rewrite HC in *. destruct a as [k|num ex| |t|]; auto.
  - apply cmd_latest.
  - unfold run_begin in *. destruct num as [[|n]|]; auto; cbv zeta in *.
    + destruct (match s_queue _ with [] => true | _ :: _ => _ end); [destruct ex; auto|]. cbn in HI. discriminate.
    + cbn in HI. discriminate.
  - intros _. exfalso. apply (HA AClear); [left; reflexivity|reflexivity].
  - intros _. exfalso. apply (HR t). reflexivity.
Qed.
Lemma step_Cont : forall c id e t g s a, Cont c id e t g s -> Cont c id e t g (step c s a).
Proof.
  intros c id e t g s a [I (l2 & l1 & HI) HL HD HQ].
  pose proof (step_inv c s a I) as I'. destruct (step_log c s a) as [new Hn].
  assert (AB : alive_log (s_log (step c s a)) id e t g -> alive_log (s_log s) id e t g /\ (forall o, In o new -> ~ kills e t o)).
  { intros A. rewrite HI. eapply (alive_back c (step c s a)); eauto. rewrite Hn, HI. reflexivity. }
  assert (L' : alive_log (s_log (step c s a)) id e t g -> t <= s_latest (step c s a)).
  { intros A. destruct (AB A) as [A1 A2]. specialize (HL A1). destruct (step_latest c s a) as [X|[n2 X]]; [lia|].
    exfalso. rewrite Hn in X. change (OClear :: s_log s) with ([OClear] ++ s_log s) in X. rewrite app_assoc in X. apply app_inv_tail in X.
    apply (A2 OClear); [rewrite X; apply in_or_app; right; left; reflexivity|unfold kills; auto]. }
  assert (LP : s_ctl s <> Idle -> looping s).
  { unfold looping. destruct (s_ctl s); auto; congruence. }
  constructor; auto.
  - exists (new ++ l2), l1. rewrite Hn, HI, app_assoc. reflexivity.
  - intros HC' HF A. destruct (AB A) as [A1 A2].
    destruct (s_ctl s) eqn:HC.
    2-5: assert (LS : looping (step c s a)) by (apply step_looping; auto; [apply LP; congruence|congruence]);
      unfold looping in LS; rewrite HC' in LS; exact (drained_dead c _ id e t g I' HC' (LS HF) (L' A) A).
    destruct a as [k|num ex| |u|].
    1,2,5: apply (HD eq_refl); [eapply idle_step_finished; eauto; [intros o [<-|[]]|intros u]; discriminate|exact A1].
    + unfold step in Hn. rewrite HC in Hn. cbn in Hn. change (OClear :: s_log s) with ([OClear] ++ s_log s) in Hn.
      apply app_inv_tail in Hn. subst new. apply (A2 OClear); [left; reflexivity|unfold kills; auto].
    + unfold step in Hn. rewrite HC in Hn. cbn in Hn. change (ORestart u :: OClear :: s_log s) with ([ORestart u; OClear] ++ s_log s) in Hn.
      apply app_inv_tail in Hn. subst new. apply (A2 OClear); [right; left; reflexivity|unfold kills; auto].
  - intros HC' HR HF. destruct (s_ctl s) eqn:HC.
    2-5: assert (LS : looping (step c s a)) by (apply step_looping; auto; [apply LP; congruence|congruence]);
      unfold looping in LS; rewrite HC' in LS; exact (LS HR HF).
    unfold step in *. rewrite HC in *. destruct a as [k|num ex| |u|].
    + rewrite exec_cmd_ctl in HC'. congruence.
    + pose proof (enter_looping c s num ex I HC HC') as LS. unfold looping in LS. rewrite HC' in LS. auto.
    + cbn in HC'. congruence.
    + cbn in HC'. congruence.
    + congruence.
Qed.

(** When isFinished() is true between runs, every accepted continuing request has fired or was cancelled. *)
Theorem C55_finished : forall c acts n rel acts2 id t g,
  let s1 := exec c init acts in
  let s2 := step c s1 (ACmd (CSchedule n rel true)) in
  let s := exec c s2 acts2 in
  s_log s2 = OSched id (User n) t g :: s_log s1 ->
  s_ctl s = Idle -> s_finished s = true ->
  exists new, s_log s = new ++ s_log s2 /\ (In (OFire id (User n) t g) new \/ exists o, In o new /\ cancels (User n) t o).
Proof.
  intros c acts n rel acts2 id t g s1 s2 s HS HC HF.
  assert (I1 : Inv c s1) by apply reach_inv. assert (I2 : Inv c s2) by (apply step_inv; exact I1).
  assert (K : Cont c id (User n) t g s2).
  { assert (CT : s_ctl s1 = Idle \/ s_ctl s1 = Handler).
    { unfold s2, step in HS. destruct (s_ctl s1); auto; exfalso; symmetry in HS; clear - HS;
        (assert (X : length (OSched id (User n) t g :: s_log s1) = length (s_log s1)) by congruence); cbn in X; lia. }
    assert (E : s2 = fst (schedule_user c s1 n rel true)) by (unfold s2, step; destruct CT as [-> | ->]; reflexivity).
    assert (G : t <= s_latest s2 /\ s_finished s2 = false /\ s_ctl s2 = s_ctl s1).
    { rewrite E in *. unfold schedule_user in *. destruct (_ && _)%bool; [cbn in HS; discriminate|].
      unfold schedule_event in *. destruct ((rel =? 0) && _)%bool; [cbn in HS; discriminate|].
      destruct (negb _); [cbn in HS; discriminate|]. cbv zeta in *.
      match goal with |- context [if ?b then note _ _ else _] => destruct b end; [cbn in HS; discriminate|].
      destruct (q_insert _ _ _ _ _ _). cbn in *. injection HS as _ <- _. split; [lia|auto]. }
    destruct G as (G1 & G2 & G3). constructor; auto; try congruence.
    - exists [], (s_log s1). exact HS. }
  assert (K' : Cont c id (User n) t g s).
  { unfold s. clear - K. revert K. generalize s2. induction acts2 as [|a l IH]; intros x K; [exact K|]. cbn [exec fold_left].
    apply IH. apply step_Cont. exact K. }
  destruct K' as [I _ _ HD _]. specialize (HD HC HF).
  assert (LG : exists new, s_log s = new ++ s_log s2).
  { unfold s. clear. generalize s2. induction acts2 as [|a l IH]; intros x; [exists []; reflexivity|]. cbn [exec fold_left].
    destruct (IH (step c x a)) as [n1 H1]. destruct (step_log c x a) as [n2 H2]. exists (n1 ++ n2).
    unfold exec in H1. rewrite H1, H2, app_assoc. reflexivity. }
  destruct LG as [new LG]. exists new. split; [exact LG|]. rewrite HS in LG.
  destruct (I_complete c s I _ _ _ _ _ _ LG) as [X|[X|[X|X]]]; [left; exact X|right; exact X|congruence|].
  exfalso. apply HD. apply (I_alive c s I _ (User n) X). reflexivity.
Qed.
Example C55_ex : let s1 := exec cex init [ACmd (CSchedule 1 3 false)] in
  let s2 := step cex s1 (ACmd (CSchedule 0 5 true)) in
  let s := exec cex s2 ([ARun None true] ++ steps 40) in
  s_log s2 = OSched 1 (User 0) 5 2 :: s_log s1 /\ s_ctl s = Idle /\ s_finished s = true /\ s_finished s2 = false /\
  s_log s = [OFire 1 (User 0) 5 2; OFire 0 (User 1) 3 2] ++ s_log s2.
Proof. vm_compute. auto 10. Qed.
Print Assumptions C55_finished.

(** A run without limit returns only when it was stopped or is finished. *)
Definition nostop (s : sched) : Prop := forall x, In x (pend s) -> sl_ev (e_s x) <> Some Stop.
Record Free (c : cfg) (s : sched) : Prop := {
  U_inv : Inv c s;
  U_stop : nostop s;
  U_main : match s_ctl s with
           | Idle => s_finished s = true
           | LoopHead => s_running s = true \/ s_finished s = true
           | Crashed => True
           | _ => s_running s = true
           end
}.
Lemma Free_step : forall c s a, Free c s -> s_ctl s <> Idle -> a <> ACmd CStop -> Free c (step c s a).
Proof.
  intros c s a [I NS HM] HNI HNS. pose proof (step_inv c s a I) as I'.
  unfold step in *. destruct a as [k|num ex| |t|]; destruct (s_ctl s) eqn:HC; try congruence;
    try (constructor; auto; rewrite HC; auto; fail).
  - destruct (exec_cmd_frame c s k) as (F1 & _ & _ & _ & F5 & _). constructor; auto.
    + intros x Hx Hs. apply (NS x); auto. apply (exec_cmd_pend_stop c s k x); auto; congruence.
    + rewrite F1, HC. rewrite F5 by congruence. exact HM.
  - unfold tick_begin in *. destruct (s_running s) eqn:ER.
    2:{ destruct HM as [HM|HM]; [discriminate|]. constructor; [exact I'| |exact HM].
        unfold nostop, pend, done in *. rewrite HC in NS. exact NS. }
    destruct (s_queue s) as [|q rest] eqn:EQ.
    { constructor; auto; [|exact Logic.I]. unfold nostop, pend, done in *. rewrite HC, ?EQ in NS. cbn. rewrite EQ. exact NS. }
    set (gf := match q_first q with Some f => f | None => group_count c end) in *.
    set (s1 := set_pos (set_time s (q_tick q) (s_elapsed s + absdiff (q_tick q) (s_elapsed s))) gf 0 Scan) in *.
    assert (Hp1 : pend s1 = pend s) by (unfold pend, done; rewrite HC; reflexivity).
    assert (I1 : Inv c s1).
    { apply (reposition_inv c s); auto.
      - unfold ctl_ok; simpl. exists q, rest. split; auto. split; auto. split; [|lia].
        intros g Hg. pose proof (I_q c s I) as GQ. rewrite EQ in GQ. inversion GQ as [|? ? GQ1 _]; subst.
        apply GQ1. unfold gf in Hg. destruct (q_first q); auto.
      - simpl. rewrite EQ. pose proof (I_sorted c s I) as SS. rewrite EQ in SS. inversion SS; subst.
        constructor; [lia|]. eapply Forall_impl; [|eassumption]. unfold qlt; simpl; intros; lia.
      - intros H; rewrite HC in H; discriminate.
      - unfold fired_key_ok. rewrite HC. simpl. intros t g [_ H]. rewrite EQ in H. inversion H; subst. auto. }
    change (s_async (set_pos (set_time s (q_tick q) (s_elapsed s + absdiff (q_tick q) (s_elapsed s))) gf 0 Scan)) with (s_async s1) in *.
    destruct (drain c s1 (s_async s1)) as [s2|] eqn:ED.
    + destruct (drain_frame c _ s1 s2 I1 eq_refl ED) as (F1 & F2 & F3 & F4 & F5 & F6 & _).
      destruct (drain_inv c _ s1 s2 I1 eq_refl ED) as [_ FC]. constructor; auto.
      * intros x Hx Hs. apply (NS x); auto. rewrite <- Hp1. apply F6; auto.
      * rewrite FC, F2. simpl. auto.
    + constructor; auto; [|exact Logic.I]. intros x Hx Hs. apply (NS x); auto. rewrite <- Hp1. exact Hx.
  - unfold scan in *. destruct (s_queue s) as [|q rest] eqn:EQ.
    { constructor; auto; [|exact Logic.I]. intros x Hx Hs. unfold pend in Hx. cbn in Hx. rewrite EQ in Hx. destruct Hx. }
    destruct (Nat.ltb_spec (s_grp s) (group_count c)) as [HG|HG].
    + destruct (nth_error (nth (s_grp s) (q_groups q) []) (s_idx s)) as [sl|] eqn:EN.
      * destruct (sl_ev sl) as [[|n]|] eqn:EE.
        -- exfalso. pose proof (scan_head c s q rest sl I HC EQ HG EN) as Hp.
           apply (NS (s_tick s, s_grp s, sl)); [rewrite Hp; left; reflexivity|exact EE].
        -- match goal with |- Free c ?s' => assert (Hp : pend s = (s_tick s, s_grp s, sl) :: pend s') by
             (eapply (fire_inv c s s' sl (User n) q rest); eauto) end.
           constructor; auto. intros x Hx. apply NS. rewrite Hp. right. exact Hx.
        -- destruct (skip_inv c s sl q rest I HC EQ HG EN EE) as [_ Hp]. constructor; auto.
           intros x Hx. apply NS. rewrite Hp. right. exact Hx.
      * destruct (next_group_inv c s q rest I HC EQ HG EN) as [_ Hp]. constructor; auto.
        intros x Hx. apply NS. rewrite Hp in Hx. exact Hx.
    + destruct (tick_end_pend c s I HC HG q rest EQ) as [Hp Ht].
      unfold tick_end in *. rewrite EQ in *. destruct rest as [|n rr].
      * constructor; auto; [|reflexivity]. intros x Hx. cbn in Hx. apply NS. rewrite Hp. exact Hx.
      * cbv zeta in *. cbn [set_queue s_latest] in *. destruct (s_latest s <? q_tick n); constructor; auto;
          try (intros x Hx; apply NS; rewrite Hp; exact Hx); try reflexivity. left. exact HM.
  - constructor; auto. intros x Hx. apply NS. unfold pend, done in *. rewrite HC. exact Hx.
Qed.
(** Running to the return of run, computed; used for the witnesses below. *)
Fixpoint runb (c : cfg) (s : sched) (l : list action) : bool :=
  match l, s_ctl s with
  | [], Idle => true
  | _ :: _, Idle => false
  | [], _ => false
  | a :: l', _ => runb c (step c s a) l'
  end.
Lemma runb_run : forall c l s, runb c s l = true -> run_to c s l (exec c s l).
Proof.
  induction l as [|a l IH]; intros s H; cbn [runb] in H.
  - change (exec c s []) with s. apply run_done. destruct (s_ctl s); auto; discriminate.
  - change (exec c s (a :: l)) with (exec c (step c s a) l).
    destruct (s_ctl s) eqn:E; try discriminate; apply run_step; auto; congruence.
Qed.
Theorem C55_runs_to_the_end_partial : forall c acts ex racts s',
  let s := exec c init acts in
  s_ctl s = Idle -> (forall id t, ~ outstanding (trace c acts) id Stop t) -> ~ In (ACmd CStop) racts ->
  run_to c (step c s (ARun None ex)) racts s' -> s_finished s' = true.
Proof.
  intros c acts ex racts s' s HC HO HNC HR.
  assert (I : Inv c s) by apply reach_inv.
  assert (F0 : Free c (step c s (ARun None ex))).
  { pose proof (step_inv c s (ARun None ex) I) as I'. unfold step in *. rewrite HC in *. constructor; auto.
    - intros x Hx Hs. apply (HO (sl_id (e_s x)) (e_t x)). apply (alive_outstanding _ _ _ _ (e_g x)).
      apply (I_alive c s I); auto. unfold pend, done in *. rewrite HC. exact Hx.
    - cbn. destruct (s_queue s); auto. }
  assert (F : Free c s').
  { clear - HR F0 HNC. induction HR; auto. apply IHHR.
    - intros K. apply HNC. right. exact K.
    - apply Free_step; auto. intros ->. apply HNC. left. reflexivity. }
  destruct F as [_ _ F]. rewrite (run_idle _ _ _ _ HR) in F. exact F.
Qed.
Example C55_runs_ex : let acts := [ACmd (CSchedule 0 3 true); ACmd (CSchedule 1 9 true); ACmd (CSchedule 2 20 false)] in
  (forall id t, ~ outstanding (trace cex acts) id Stop t) /\
  let s' := exec cex (step cex (exec cex init acts) (ARun None true)) (steps 14) in
  run_to cex (step cex (exec cex init acts) (ARun None true)) (steps 14) s' /\ s_tick s' = 10 /\ is_scheduled cex s' (User 2) = true.
Proof.
  split.
  - intros id t (g & a & b & H & _).
    assert (K : In (OSched id Stop t g) (a ++ OSched id Stop t g :: b)) by (apply in_or_app; right; left; auto).
    rewrite <- H in K.
    replace (trace cex _) with [OSched 0 (User 0) 3 2; OSched 1 (User 1) 9 2; OSched 2 (User 2) 20 3] in K by (vm_compute; reflexivity).
    destruct K as [K|[K|[K|K]]]; try discriminate; easy.
  - cbv zeta. split; [|split; vm_compute; reflexivity]. apply runb_run. vm_compute. reflexivity.
Qed.
Print Assumptions C55_runs_to_the_end_partial.

(** The left-over stop marker of an earlier run ends a run without limit while continuing events are pending. *)
Theorem C55_stale_stop_refuted : exists c acts racts s', let s := exec c init acts in
  s_ctl s = Idle /\ ~ In (ACmd CStop) racts /\ run_to c (step c s (ARun None true)) racts s' /\ s_finished s' = false.
Proof.
  pose (acts := [ACmd (CSchedule 0 5 true); ARun (Some 100) false] ++ steps 7 ++ [ACmd (CSchedule 0 150 true)]).
  exists cex, acts, (steps 5), (exec cex (step cex (exec cex init acts) (ARun None true)) (steps 5)).
  cbv zeta. split; [vm_compute; reflexivity|]. split; [intros H; unfold steps in H; apply repeat_spec in H; discriminate|].
  split; [apply runb_run; vm_compute; reflexivity|vm_compute; reflexivity].
Qed.
Print Assumptions C55_stale_stop_refuted.
(** A continuing event handed over by scheduleAsyncEvent to an idle scheduler is not run by run(), which reports finished. *)
Theorem C55_async_refuted : exists c racts s', run_to c (step c (exec c init [ACmd (CAsync 0 0 true)]) (ARun None true)) racts s' /\
  s_finished s' = true /\ (forall id e t g, ~ In (OFire id e t g) (s_log s')) /\ s_async s' = [(0%nat, 0, true)].
Proof.
  exists cex, [AStep], (exec cex (step cex (exec cex init [ACmd (CAsync 0 0 true)]) (ARun None true)) [AStep]).
  split; [apply runb_run; vm_compute; reflexivity|].
  split; [vm_compute; reflexivity|]. split; [intros id e t g H; vm_compute in H; exact H|vm_compute; reflexivity].
Qed.
Print Assumptions C55_async_refuted.
