(** C81: what a statistic instance reports. *)
From Coq Require Import ZArith Bool List Lia Floats.SpecFloat.
From Verif Require Import StatInstModel StatInstProofs StatInstFloat.
Import ListNotations.
Open Scope Z_scope.

(** Two counters and a statistic dividing one by the other, with everything alive, at three moments. *)
Definition ipc : expr :=
  EDef 0 (EBin (SFdiv 53 1024) (ECtr 0 false st0) (ECtr 1 false st0)) st0.
Definition moment (t a b : Z) : world :=
  mkW t (fun n => match n with O => a | _ => b end) (fun _ => NAN) (fun _ => NAN)
      (fun _ => true) (fun _ => true) (fun _ => true).
Definition m0 : world := moment 10 100 50.
Definition m1 : world := moment 20 130 70.
Definition m2 : world := moment 30 190 90.
(** The moment m2 with every node destroyed. *)
Definition m2_gone : world :=
  mkW 30 (fun _ => 0) (fun _ => NAN) (fun _ => NAN) (fun _ => false) (fun _ => false) (fun _ => false).
(** 1.5 and 2 as doubles. *)
Definition d15 : dbl := S754_finite false 6755399441055744 (-52).
Definition d2 : dbl := S754_finite false 4503599627370496 (-51).
Example d15_ex : d15 = SFdiv 53 1024 (of_u64 30) (of_u64 20).
Proof. vm_compute. reflexivity. Qed.

(** The end tick of a window that is not ended is the last one there is. *)
Example C81_indef_ex : INDEF = 18446744073709551615.
Proof. reflexivity. Qed.
Lemma below_le : forall x, x < 2 ^ 64 -> x <= INDEF.
Proof. unfold INDEF. intros. lia. Qed.
Lemma below_lt : forall x, x < 2 ^ 64 - 1 -> x < INDEF.
Proof. unfold INDEF. intros. lia. Qed.
Local Hint Resolve below_le below_lt : core.

(** However the instance was started and ended before, a start at w0 opens a window: until it is ended, every read
    gives the value of the expression over the window from w0 to the moment of the read. *)
Theorem C81_window : forall cs e e1 w0,
  windowed e -> acts cs e = Ok e1 -> up w0 e -> now w0 < 2 ^ 64 ->
  exists e2, start w0 e1 = Ok e2 /\
    forall w1, up w1 e -> now w0 <= now w1 -> value w1 e2 = Ok (delta w0 w1 e).
Proof.
  intros cs e e1 w0 W A U I. pose proof (acts_same _ _ _ A) as S. pose proof (acts_windowed _ _ _ A W) as W1.
  destruct (start_ok w0 e1 (same_up _ _ _ S U)) as [e2 E]. exists e2. split; auto. intros w1 U1 L.
  pose proof (start_same _ _ _ E) as S2. pose proof (same_trans _ _ _ S S2) as S3.
  rewrite (same_delta e e2 w0 w1 S3). apply from_value with (now w0); auto.
  - eapply start_from; eauto.
  - eapply same_up; eauto.
Qed.
Print Assumptions C81_window.
Example C81_window_ex :
  windowed ipc /\ up m0 ipc /\ up m1 ipc /\
  match acts [Cstart (moment 1 0 0); Cend (moment 2 5 9); Cstart m0] ipc with
  | Ok e => value m1 e = Ok d15 /\ value m2 e = Ok (SFdiv 53 1024 (of_u64 90) (of_u64 40))
  | _ => False
  end.
Proof. vm_compute. intuition. Qed.

(** Ending the window at w1 succeeds, and from then on every read, whatever the counters do and even when the nodes are
    destroyed, gives the value of the window from w0 to w1. *)
Theorem C81_end : forall cs e e1 w0 w1,
  instance e -> windowed e -> acts cs e = Ok e1 -> up w0 e -> up w1 e -> now w0 <= now w1 -> now w1 < 2 ^ 64 - 1 ->
  exists e3, acts [Cstart w0; Cend w1] e1 = Ok e3 /\
    forall w2, now w1 <= now w2 -> value w2 e3 = Ok (delta w0 w1 e).
Proof.
  intros cs e e1 w0 w1 I W A U U1 L M. pose proof (acts_same _ _ _ A) as S.
  pose proof (acts_windowed _ _ _ A W) as W1. destruct (start_ok w0 e1 (same_up _ _ _ S U)) as [e2 E].
  pose proof (start_same _ _ _ E) as S2. pose proof (same_trans _ _ _ S S2) as S3.
  destruct (from_finish (now w0) w0 w1 e2) as [e3 [F [_ V]]]; auto.
  - eapply start_from; eauto.
  - eapply same_up; eauto.
  - exists e3. cbn [acts act bind]. rewrite E. cbn [bind]. rewrite F. cbn [bind]. split; auto.
    intros w2 K. rewrite (same_delta e e2 w0 w1 S3). apply V; auto.
    destruct e, e2; cbn in S3 |- *; tauto.
Qed.
Print Assumptions C81_end.
Example C81_end_ex :
  instance ipc /\
  match acts [Cstart m0; Cend m1] ipc with
  | Ok e => value m2 e = Ok d15 /\ value m2_gone e = Ok d15
  | _ => False
  end.
Proof. vm_compute. intuition. Qed.

(** Claim: a window that is ended stays as it was. One that is ended at the last tick there is, 2^64 - 1, is taken for one
    that is not ended: it goes on counting. *)
Theorem C81_last_tick_refuted : exists e w0 w1 w2 e3,
  instance e /\ windowed e /\ up w0 e /\ up w1 e /\ now w0 <= now w1 /\ now w1 = 2 ^ 64 - 1 /\ now w1 <= now w2 /\
  acts [Cstart w0; Cend w1] e = Ok e3 /\ value w2 e3 = Ok (of_u64 7) /\ delta w0 w1 e = of_u64 5.
Proof.
  exists (ECtr 0 false st0), (moment 0 0 0), (moment (2 ^ 64 - 1) 5 0), (moment (2 ^ 64 - 1) 7 0).
  let r := eval vm_compute in (acts [Cstart (moment 0 0 0); Cend (moment (2 ^ 64 - 1) 5 0)] (ECtr 0 false st0)) in
  match r with Ok ?e => exists e end.
  vm_compute. intuition congruence.
Qed.
Print Assumptions C81_last_tick_refuted.

(** Once told to accumulate, the instance counts from the start before that, over any number of later starts and ends. *)
Theorem C81_cumulative : forall cs e e1 e2 e3 w0 wk,
  windowed e -> start w0 e = Ok e1 -> acts cs (accumulate e1) = Ok e2 -> start wk e2 = Ok e3 -> now wk < 2 ^ 64 ->
  forall w1, up w1 e -> now wk <= now w1 -> value w1 e3 = Ok (delta w0 w1 e).
Proof.
  intros cs e e1 e2 e3 w0 wk W E A E2 I w1 U L.
  pose proof (start_from _ _ _ W E) as F. pose proof (accumulate_based _ _ _ F) as B.
  pose proof (acts_based _ _ _ _ A B) as B2. destruct (start_based _ _ _ _ B2 E2) as [_ F3].
  assert (S : same e e3).
  { eapply same_trans; [eapply start_same; eauto|]. eapply same_trans; [apply accumulate_same|].
    eapply same_trans; [eapply acts_same; eauto|]. eapply start_same; eauto. }
  rewrite (same_delta e e3 w0 w1 S). apply from_value with (now wk); auto. eapply same_up; eauto.
Qed.
Print Assumptions C81_cumulative.
Example C81_cumulative_ex :
  match start m0 ipc with
  | Ok e1 => match acts [Cend m1; Cstart m1] (accumulate e1) with
             | Ok e3 => value m2 e3 = Ok (SFdiv 53 1024 (of_u64 90) (of_u64 40))
             | _ => False
             end
  | _ => False
  end.
Proof. vm_compute. reflexivity. Qed.

(** For a counter that stays below 2^53 the value over a window is exactly the number counted in it, and different
    numbers are different values. *)
Theorem C81_counter : forall c s e w0 w1,
  s_cum s = false -> start w0 (ECtr c false s) = Ok e -> c_up w1 c = true -> now w0 <= now w1 -> now w0 < 2 ^ 64 ->
  0 <= ctr w0 c < 2 ^ 53 -> 0 <= ctr w1 c < 2 ^ 53 ->
  value w1 e = Ok (of_u64 (ctr w1 c - ctr w0 c)) /\
  (ctr w0 c <= ctr w1 c -> forall n, 0 <= n < 2 ^ 53 -> value w1 e = Ok (of_u64 n) -> n = ctr w1 c - ctr w0 c).
Proof.
  intros c s e w0 w1 Q E U L I A B.
  assert (V : value w1 e = Ok (of_u64 (ctr w1 c - ctr w0 c))).
  { pose proof (start_from _ (ECtr c false s) _ Q E) as F. pose proof (start_same _ _ _ E) as S.
    rewrite (from_value (now w0) w0 w1 e); auto.
    - rewrite <- (same_delta _ _ w0 w1 S). cbn [delta]. rewrite dsub_exact by lia. reflexivity.
    - eapply same_up; eauto. }
  split; auto. intros M n N X. rewrite V in X. injection X as X. apply of_u64_inj; auto; lia.
Qed.
Print Assumptions C81_counter.
Example C81_counter_ex :
  match start m0 (ECtr 0 false st0) with Ok e => value m1 e = Ok (of_u64 30) | _ => False end.
Proof. vm_compute. reflexivity. Qed.

(** Below 2^53 the values of two windows that follow each other add up to the value of the window that covers both. *)
Theorem C81_windows_add : forall c s e e' w0 w1 w2,
  s_cum s = false -> acts [Cstart w0; Cend w1] (ECtr c false s) = Ok e -> acts [Cstart w1] e = Ok e' ->
  c_up w2 c = true -> now w0 <= now w1 -> now w1 <= now w2 -> now w2 < 2 ^ 64 - 1 ->
  0 <= ctr w0 c -> ctr w0 c <= ctr w1 c -> ctr w1 c <= ctr w2 c -> ctr w2 c < 2 ^ 53 ->
  exists x y, value w1 e = Ok x /\ value w2 e' = Ok y /\ dadd x y = of_u64 (ctr w2 c - ctr w0 c).
Proof.
  intros c s e e' w0 w1 w2 Q A B U2 L1 L2 M C0 C1 C2 C3.
  assert (U : c_up w0 c = true /\ c_up w1 c = true).
  { cbn in A. destruct (c_up w0 c); [|discriminate A]. cbn in A. destruct (c_up w1 c); [auto|discriminate A]. }
  destruct U as [U0 U1].
  destruct (C81_end [] (ECtr c false s) _ w0 w1 I Q eq_refl U0 U1 L1 ltac:(lia)) as [e3 [E V]].
  assert (e3 = e) by congruence. subst e3.
  destruct (C81_window [Cstart w0; Cend w1] (ECtr c false s) e w1 Q A U1 ltac:(lia)) as [e4 [E4 V4]].
  assert (e4 = e'). { unfold acts, act in B. rewrite E4 in B. cbn [bind] in B. congruence. }
  subst e4. exists (of_u64 (ctr w1 c - ctr w0 c)), (of_u64 (ctr w2 c - ctr w1 c)).
  repeat split.
  - rewrite V by lia. cbn [delta]. rewrite dsub_exact by lia. reflexivity.
  - rewrite V4 by (auto; lia). cbn [delta]. rewrite dsub_exact by lia. reflexivity.
  - rewrite dadd_exact by lia. f_equal. lia.
Qed.
Print Assumptions C81_windows_add.
Example C81_windows_add_ex :
  match acts [Cstart m0; Cend m1] (ECtr 0 false st0) with
  | Ok e => match acts [Cstart m1] e with
            | Ok e' => value m1 e = Ok (of_u64 30) /\ value m2 e' = Ok (of_u64 60) /\ dadd (of_u64 30) (of_u64 60) = of_u64 90
            | _ => False
            end
  | _ => False
  end.
Proof. vm_compute. intuition. Qed.

(** A read before the window began is refused, and so is a read of an ended window before its end; the clock only goes back when
    a checkpoint is loaded. *)
Theorem C81_early : forall e e1 w0 w1 w,
  instance e -> windowed e -> up w0 e -> up w1 e -> now w0 <= now w1 -> now w1 < 2 ^ 64 - 1 ->
  start w0 e = Ok e1 ->
  (now w < now w0 -> value w e1 = Future) /\
  (forall e2, finish w1 e1 = Ok e2 -> now w < now w1 -> value w e2 = Future).
Proof.
  intros e e1 w0 w1 w N W U U1 L M E.
  assert (X : forall s v, s_start s = now w0 -> s_end s = INDEF -> now w < now w0 -> in_range w s v = Future).
  { intros s v A B C. unfold in_range. rewrite A, B. destruct (INDEF <? now w0) eqn:Z1; [apply Z.ltb_lt in Z1; unfold INDEF in *; lia|].
    destruct (now w <? now w0) eqn:Z2; [reflexivity|apply Z.ltb_ge in Z2; lia]. }
  assert (Y : forall s v, s_start s = now w0 -> s_end s = now w1 -> now w < now w1 -> in_range w s v = Future).
  { intros s v A B C. unfold in_range. rewrite A, B. destruct (now w1 <? now w0) eqn:Z1; [apply Z.ltb_lt in Z1; unfold INDEF in *; lia|].
    destruct (now w <? now w0) eqn:Z2; [reflexivity|]. destruct (now w1 =? INDEF) eqn:Z3; [apply Z.eqb_eq in Z3; unfold INDEF in *; lia|].
    destruct (now w <? now w1) eqn:Z4; [reflexivity|apply Z.ltb_ge in Z4; lia]. }
  split.
  - intros C. destruct e; try contradiction N; cbn in E; opens; cbn [value]; try (rewrite X; auto; fail).
  - intros e2 F C. destruct e; try contradiction N; cbn in E; opens; cbn [finish compute] in F; opens; cbn [value];
      rewrite Y; auto.
Qed.
Print Assumptions C81_early.
Example C81_early_ex :
  match start m0 ipc with
  | Ok e1 => value (moment 9 0 0) e1 = Future /\
             match finish m1 e1 with Ok e2 => value (moment 19 0 0) e2 = Future | _ => False end
  | _ => False
  end.
Proof. vm_compute. intuition. Qed.

(** Once the node of an instance is destroyed, its open window reads NaN without an error, and it can neither be
    started nor ended. *)
Theorem C81_destroyed : forall e e1 w0 w1,
  instance e -> start w0 e = Ok e1 -> now w0 <= now w1 -> now w0 < 2 ^ 64 ->
  match e with
  | ECtr c _ _ => c_up w1 c = false
  | EPar p _ => p_up w1 p = false
  | EDef d _ _ => d_up w1 d = false
  | _ => False
  end ->
  value w1 e1 = Ok NAN /\ start w1 e1 = Gone /\ finish w1 e1 = Gone.
Proof.
  intros e e1 w0 w1 N E L I U.
  destruct e; try contradiction U; cbn in E; opens; cbn [value start finish]; rewrite U;
    rewrite (open_range _ _ _ (now w0)); auto.
Qed.
Print Assumptions C81_destroyed.
Example C81_destroyed_ex :
  match start m0 ipc with Ok e1 => value m2_gone e1 = Ok NAN /\ finish m2_gone e1 = Gone | _ => False end.
Proof. vm_compute. intuition. Qed.

(** Claim: over any window the value of a counter is the number of events counted in it. It is not: at 2^53 the counter
    and its starting value are both rounded to doubles before they are subtracted, so a window in which one event was counted
    reads 0 (si 189, 554). *)
Theorem C81_count_refuted : exists e w0 w1,
  start w0 (ECtr 0 false st0) = Ok e /\ 0 <= ctr w0 0%nat /\ ctr w1 0%nat = ctr w0 0%nat + 1 /\ ctr w1 0%nat < 2 ^ 64 /\
  value w1 e = Ok (of_u64 0).
Proof.
  set (a := moment 1 (2 ^ 53) 0). set (b := moment 2 (2 ^ 53 + 1) 0).
  exists (ECtr 0 false (mkSt 1 INDEF (Some (of_u64 (2 ^ 53))) false NAN)), a, b.
  repeat split; vm_compute; congruence.
Qed.
Print Assumptions C81_count_refuted.

(** Claim: an instance made from a free expression can be started like any other. It cannot before setContext was called: it has
    no scheduler and no node to ask, and the assertion in getScheduler_ fails (si 566-589). *)
Theorem C81_free_refuted : exists body w, up w body /\ start w body <> NoSched /\
  start w (EFree false body st0) = NoSched /\ value w (EFree false body st0) = NoSched /\
  exists e, start w (EFree true body st0) = Ok e.
Proof.
  exists ipc, m0. split; [vm_compute; auto|]. split; [vm_compute; discriminate|].
  split; [reflexivity|]. split; [reflexivity|]. eexists. vm_compute. reflexivity.
Qed.
Print Assumptions C81_free_refuted.
