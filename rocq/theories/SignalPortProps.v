(** C77: signals arrive in their tick, and those for one tick together. *)
From Coq Require Import List NArith Bool Arith Lia.
From Verif Require Import DataPortModel SignalPortModel SignalPortSpec SignalPortProofs.
Import ListNotations.
Open Scope N_scope.

(** Port 0 has no delay and is in phase 5, port 1 a delay of 2 and phase 2, in
    ticks of 10; output 0 is bound to both, output 1 to the first, output 2 to
    none. *)
Definition ex_c := mkDC [mkIn 0 5 10; mkIn 2 2 10] [[0; 1]; [0]; []]%nat.

(** At tick 0: three signals in phase 3, of which two for tick 10; at tick 10
    one more on the spot. *)
Definition ex_h : list sop :=
  [Send 1 0; Fire 0; Phase 5; Time 10; Fire 0; Phase 5; Send 1 0; Send 1 1; Send 0 1; Phase 3]%nat.

Definition shown (c : dcfg) (h : list sop) : option (list (N * nat) * list (N * nat)) :=
  match srun c h with Some s => Some (s_log s, s_pend s) | None => None end.

(** The number of calls of the handler of a port in a tick, with a delivery
    that is still pending for it, is the number of the signals received on the
    spot, plus one if there are others, however many. *)
Theorem C77_calls : forall c h s p t, clocked c -> Forall (fair c) h -> srun c h = Some s ->
  (times (s_log s) p t + times (s_pend s) p t = direct c h p t + Nat.min 1 (queued c h p t))%nat.
Proof. intros c h s p t CK F E. apply (srun_inv c h s CK F E). Qed.
Print Assumptions C77_calls.

Example C77_calls_ex : clocked ex_c /\ Forall (fair ex_c) ex_h /\
  shown ex_c ex_h = Some ([(10, 0%nat); (10, 0%nat); (0, 0%nat)], [(30, 1%nat)]) /\
  queued ex_c ex_h 0 10 = 2%nat /\ direct ex_c ex_h 0 10 = 1%nat /\
  queued ex_c ex_h 0 0 = 1%nat /\ queued ex_c ex_h 1 30 = 1%nat.
Proof.
  split. { intros [|[|p]] n E; cbn in E; try (injection E as <-; reflexivity). destruct p; discriminate. }
  split.
  { repeat constructor; cbn; intros p n X E; repeat (destruct X as [<-|X]; [injection E as <-; reflexivity|]);
      destruct X. }
  split; [vm_compute; reflexivity|]. split; [vm_compute; reflexivity|]. split; [vm_compute; reflexivity|].
  split; vm_compute; reflexivity.
Qed.

(** In ticks that are over, nothing is pending: the calls are exactly those. *)
Theorem C77_on_time : forall c h s p t, clocked c -> Forall (fair c) h -> srun c h = Some s -> t < s_now s ->
  times (s_log s) p t = (direct c h p t + Nat.min 1 (queued c h p t))%nat.
Proof.
  intros c h s p t CK F E L. rewrite <- (C77_calls c h s p t CK F E).
  destruct (srun_inv c h s CK F E) as (_ & _ & K).
  destruct (times (s_pend s) p t) eqn:X; [lia|]. exfalso.
  destruct (ok_pend _ _ _ _ K t p) as [Y _]. { apply times_in. lia. } lia.
Qed.
Print Assumptions C77_on_time.

Example C77_on_time_ex : shown ex_c (Time 20 :: ex_h)%nat = Some ([(10, 0%nat); (10, 0%nat); (0, 0%nat)], [(30, 1%nat)]) /\
  direct ex_c (Time 20 :: ex_h) 0 10 = 1%nat /\ queued ex_c (Time 20 :: ex_h) 0 10 = 2%nat.
Proof. split; [vm_compute; reflexivity|]. split; vm_compute; reflexivity. Qed.

(** A handler is called only in a tick for which a signal was sent to it, not in
    the future. *)
Theorem C77_only_sent : forall c h s p t, clocked c -> Forall (fair c) h -> srun c h = Some s ->
  In (t, p) (s_log s) -> t <= s_now s /\ (0 < direct c h p t + queued c h p t)%nat.
Proof.
  intros c h s p t CK F E I. pose proof (C77_calls c h s p t CK F E) as C.
  destruct (srun_inv c h s CK F E) as (_ & _ & K). split. { apply (ok_log _ _ _ _ K t p I). }
  apply times_in in I. lia.
Qed.
Print Assumptions C77_only_sent.

Example C77_only_sent_ex : exists l, shown ex_c ex_h = Some ((10, 0%nat) :: l, [(30, 1%nat)]).
Proof. exists [(10, 0%nat); (0, 0%nat)]. vm_compute. reflexivity. Qed.

(** A port with a delay is called at most once in a tick. *)
Theorem C77_once : forall c h s p n t, clocked c -> Forall (fair c) h -> srun c h = Some s ->
  nth_error (d_in c) p = Some n -> n_delay n <> 0 -> (times (s_log s) p t <= 1)%nat.
Proof.
  intros c h s p n t CK F E EN Z. pose proof (C77_calls c h s p t CK F E) as C.
  assert (direct c h p t = 0%nat); [|lia]. clear - EN Z.
  induction h as [|[o rel|q|q|u] r IH]; cbn [direct]; auto.
  rewrite IH. unfold direct1, at_once. rewrite EN.
  destruct (N.eqb_spec (rel + n_delay n) 0); [lia|]. reflexivity.
Qed.
Print Assumptions C77_once.

Example C77_once_ex : exists n, nth_error (d_in ex_c) 1 = Some n /\ n_delay n <> 0 /\
  shown ex_c [Fire 1; Phase 2; Time 30; Fire 0; Phase 5; Time 20; Fire 0; Phase 5; Send 0 0; Send 1 1;
              Phase 3; Time 10; Send 0 1]
    = Some ([(30, 1%nat); (20, 0%nat); (10, 0%nat)], []).
Proof. eexists. split; [reflexivity|]. split; [discriminate|]. vm_compute. reflexivity. Qed.

(** A send is accepted exactly when the output is bound and no port would have
    to receive it in a phase of this tick that is over. In particular the
    assertion of the event that it has fired in this tick never fails. *)
Theorem C77_accepted : forall c h s o rel, clocked c -> Forall (fair c) h -> srun c h = Some s ->
  fair c (Send o rel) ->
  (exists s', srun c (Send o rel :: h) = Some s') <->
  nth o (d_bound c) [] <> [] /\
  forall p, In p (nth o (d_bound c) []) ->
  exists n, nth_error (d_in c) p = Some n /\ (rel + n_delay n = 0 -> (phase h <= n_phase n)%nat).
Proof.
  intros c h s o rel CK F E SM. destruct (srun_inv c h s CK F E) as (_ & IP & K).
  cbn [srun]. rewrite E. cbn [sstep]. unfold signal. cbn [fair] in SM.
  destruct (nth_error (d_bound c) o) as [l|] eqn:B.
  - rewrite (nth_error_nth _ _ [] B) in *. rewrite <- IP.
    pose proof (signal_all_some c rel l s _ _ CK SM K) as A. destruct l as [|a l].
    + split; [intros [x X]; discriminate|intros [X _]; congruence].
    + rewrite A. split; [intros X; split; [discriminate|exact X]|intros [_ X]; exact X].
  - assert (nth o (d_bound c) [] = []) as ->.
    { apply nth_overflow. apply nth_error_None. auto. }
    split; [intros [x X]; discriminate|intros [X _]; congruence].
Qed.
Print Assumptions C77_accepted.

Example C77_accepted_ex : shown ex_c (Send 1 0 :: ex_h) <> None /\
  shown ex_c (Send 1 0 :: Phase 6 :: ex_h) = None /\ shown ex_c (Send 1 1 :: Phase 6 :: ex_h) <> None /\
  shown ex_c (Send 2 0 :: ex_h) = None.
Proof.
  split; [vm_compute; discriminate|]. split; [vm_compute; reflexivity|].
  split; [vm_compute; discriminate|vm_compute; reflexivity].
Qed.

(** dataReceivedThisCycle tells whether the handler was called in this tick. *)
Theorem C77_received_now : forall c h s p, clocked c -> Forall (fair c) h -> srun c h = Some s ->
  signalled_now s p = true <-> In (s_now s, p) (s_log s).
Proof.
  intros c h s p CK F E. destruct (srun_inv c h s CK F E) as (_ & _ & K).
  rewrite (ok_stamp _ _ _ _ K), Nat.ltb_lt. apply times_in.
Qed.
Print Assumptions C77_received_now.

Example C77_received_now_ex :
  option_map (fun s => (signalled_now s 0, signalled_now s 1)) (srun ex_c ex_h) = Some (true, false) /\
  option_map (fun s => signalled_now s 0) (srun ex_c (Time 20 :: ex_h)) = Some false.
Proof. split; vm_compute; reflexivity. Qed.

(** The port with the first phase among those due. *)
Lemma first_due : forall c now (l : list (N * nat)) p0, In (now, p0) l ->
  exists p, In (now, p) l /\ forall q, In (now, q) l -> (port_phase c p <= port_phase c q)%nat.
Proof.
  intros c now l p0. revert p0. induction l as [|[d q] l IH]; intros p0 I; [destruct I|].
  destruct (in_dec N.eq_dec now (map fst l)) as [J|J].
  - apply in_map_iff in J. destruct J as ([d' q'] & <- & J). cbn [fst] in *.
    destruct (IH q' J) as (m & M1 & M2). destruct (N.eq_dec d d') as [->|N].
    + destruct (le_lt_dec (port_phase c q) (port_phase c m)) as [L|L].
      * exists q. split; [left; auto|]. intros r [X|X]; [injection X as <-; auto|]. specialize (M2 r X). lia.
      * exists m. split; [right; auto|]. intros r [X|X]; [injection X as <-; lia|]. auto.
    + exists m. split; [right; auto|]. intros r [X|X]; [injection X as <- <-; congruence|]. auto.
  - assert (forall r, ~ In (now, r) l) as Z.
    { intros r X. apply J. apply in_map_iff. exists (now, r). auto. }
    destruct I as [I|I]; [|exfalso; apply (Z p0 I)]. injection I as -> ->.
    exists p0. split; [left; auto|]. intros r [X|X]; [injection X as <-; auto|exfalso; apply (Z r X)].
Qed.

(** While a signal is due in this tick, it can be delivered or a later phase be
    entered. *)
Theorem C77_progress : forall c h s p, clocked c -> Forall (fair c) h -> srun c h = Some s ->
  In (s_now s, p) (s_pend s) ->
  exists s', (exists q, srun c (Fire q :: h) = Some s') \/ (exists q, srun c (Phase q :: h) = Some s').
Proof.
  intros c h s p CK F E I. destruct (srun_inv c h s CK F E) as (_ & _ & K).
  destruct (first_due c (s_now s) (s_pend s) p I) as (m & M1 & M2).
  destruct (ok_pend _ _ _ _ K _ _ M1) as (_ & _ & P). specialize (P eq_refl).
  cbn [srun]. rewrite E. cbn [sstep].
  destruct (Nat.eq_dec (port_phase c m) (s_phase s)) as [Q|Q].
  - eexists. left. exists m. rewrite Q, Nat.eqb_refl. apply exists_same in M1. rewrite M1. reflexivity.
  - eexists. right. exists (port_phase c m).
    assert (Nat.ltb (s_phase s) (port_phase c m) = true) as -> by (apply Nat.ltb_lt; lia).
    assert (forallb (fun a => negb (fst a =? s_now s) || Nat.leb (port_phase c m) (port_phase c (snd a)))
      (s_pend s) = true) as ->.
    { apply forallb_forall. intros [d q] X. cbn [fst snd].
      destruct (N.eqb_spec d (s_now s)) as [->|]; auto. cbn [negb orb]. apply Nat.leb_le. auto. }
    reflexivity.
Qed.
Print Assumptions C77_progress.

Example C77_progress_ex :
  shown ex_c [Send 1 0; Phase 3]%nat = Some ([], [(0, 0%nat)]) /\
  shown ex_c [Phase 5; Send 1 0; Phase 3]%nat = Some ([], [(0, 0%nat)]) /\
  shown ex_c [Fire 0; Phase 5; Send 1 0; Phase 3]%nat = Some ([(0, 0%nat)], []).
Proof. split; [vm_compute; reflexivity|]. split; vm_compute; reflexivity. Qed.

(** A handler can be called more than once in a tick, and signals received on
    the spot are not put together with those of the event. *)
Theorem C77_once_refuted : exists c h s, clocked c /\ Forall (fair c) h /\ srun c h = Some s /\
  times (s_log s) 0 10 = 3%nat.
Proof.
  set (h := [Send 1 0; Send 1 0; Fire 0; Phase 5; Time 10; Send 1 1]%nat).
  assert (X : exists s, srun ex_c h = Some s /\ times (s_log s) 0 10 = 3%nat).
  { eexists. split; reflexivity. }
  destruct X as (s & X & Y). exists ex_c, h, s. split; [apply C77_calls_ex|]. split; [|auto].
  repeat constructor; cbn; intros p n Z E; repeat (destruct Z as [<-|Z]; [injection E as <-; reflexivity|]);
    destruct Z.
Qed.
Print Assumptions C77_once_refuted.

(** A delay of 2^32 cycles is none: the signal arrives at once. *)
Theorem C77_far_refuted : exists c h s, clocked c /\ srun c h = Some s /\
  In (0, 0%nat) (s_log s) /\ direct c h 0 0 = 0%nat /\ queued c h 0 0 = 0%nat.
Proof.
  set (h := [Send 1 4294967296; Phase 5]%nat).
  exists ex_c, h. assert (X : exists s, srun ex_c h = Some s /\ s_log s = [(0, 0%nat)]).
  { eexists. split; reflexivity. }
  destruct X as (s & X & Y). exists s. split; [apply C77_calls_ex|]. split; [auto|].
  rewrite Y. split; [left; auto|]. split; reflexivity.
Qed.
Print Assumptions C77_far_refuted.

Example C77_far_ex : shown ex_c [Send 1 4294967295; Phase 5]%nat = Some ([], [(42949672950, 0%nat)]).
Proof. vm_compute. reflexivity. Qed.
