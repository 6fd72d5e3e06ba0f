(** C12: a PayloadEvent delivers every scheduled payload exactly once. *)
From Coq Require Import List ZArith NArith Arith Bool Lia.
From Verif Require Import PayloadModel PayloadProofs.
Import ListNotations.

Section P.
Context {A : Type}.

Lemma reach_good : forall l (s : pst A), ok_run p_init l -> prun p_init l = Some s -> Good s.
Proof. intros l s OK R. eapply run_good; eauto. apply init_inv. Qed.

(** Bookkeeping: every schedule call on a payload is answered by one delivery, one cancellation or one slot that is
    still pending; what is delivered is what was prepared, and one preparation number stands for one value. *)
Theorem C12_exactly_once_partial : forall l (s : pst A), ok_run p_init l -> prun p_init l = Some s ->
  (forall u, n_sch u (x_log s) = n_fire u (x_log s) + n_can u (x_log s) + length (filter (fun e => has_uid s u (fst e)) (x_pend s))) /\
  (forall u v w, In (OFire u v) (x_log s) -> In (OPrep u v) (x_log s) /\ (In (OPrep u w) (x_log s) -> v = w)).
Proof.
  intros l s OK R. pose proof (reach_good l s OK R) as G. split; [apply (v_cnt _ _ _ G)|].
  intros u v w F. split; [apply (v_fire _ _ _ G); auto|]. intros P. eapply (v_fun _ _ _ G); eauto. apply (v_fire _ _ _ G); auto.
Qed.

(** No assertion of the event fails, except when 1099 payloads are outstanding. *)
Theorem C12_no_failure_partial : forall l (s : pst A) a, ok_run p_init l -> prun p_init l = Some s -> ok_act s a -> pstep s a = None ->
  (exists v, a = PPrepare v) /\ 1099 <= outstanding s.
Proof.
  intros l s a OK R OA N. pose proof (reach_good l s OK R) as G. pose proof (step_good s a G OA) as S. rewrite N in S. exact S.
Qed.

(** Storage: payloads in flight are in distinct proxies that are not free, every proxy is in flight or free, and when
    nothing is pending, no handler runs and no handle is left, all of them are free. *)
Theorem C12_storage_partial : forall l (s : pst A), ok_run p_init l -> prun p_init l = Some s ->
  NoDup (x_infl s ++ x_free s) /\ (forall p, In p (x_infl s ++ x_free s) <-> p < x_alloc s) /\
  (forall p, In p (x_infl s) <-> p_pay (x_px s p) <> None) /\
  (forall p q u v w, p_pay (x_px s p) = Some (u, v) -> p_pay (x_px s q) = Some (u, w) -> p = q) /\
  (x_pend s = [] -> x_cur s = None -> (forall p, p_obj (x_px s p) = 0) -> x_infl s = [] /\ length (x_free s) = x_alloc s).
Proof.
  intros l s OK R. pose proof (reach_good l s OK R) as G. split; [apply (v_nd _ _ _ G)|]. split; [apply (v_all _ _ _ G)|].
  split; [intros p; rewrite (v_pay _ _ _ G); tauto|]. split; [apply (v_uid _ _ _ G)|].
  intros E1 E2 E3. assert (IN : x_infl s = []).
  { destruct (x_infl s) as [|p r] eqn:EI; auto. exfalso. assert (I : In p (x_infl s)) by (rewrite EI; left; auto).
    pose proof (v_live _ _ _ G p I) as L. unfold exempt in L. rewrite E2 in L. apply L; auto. destruct (p_sched (x_px s p)) eqn:SP; auto.
    apply (v_pend _ _ _ G) in SP. rewrite E1 in SP. destruct SP. }
  split; [auto|]. pose proof (v_nd _ _ _ G) as ND. pose proof (v_all _ _ _ G) as AL. rewrite IN in *. cbn [app] in *.
  apply Nat.le_antisymm.
  - rewrite <- (seq_length (x_alloc s) 0). apply NoDup_incl_length; auto. intros q Q. apply AL in Q. apply in_seq. lia.
  - rewrite <- (seq_length (x_alloc s) 0) at 1. apply NoDup_incl_length; [apply seq_NoDup|]. intros q Q. apply AL. apply in_seq in Q. lia.
Qed.

Lemma cancel_p_pend : forall (s : pst A) p, x_pend (cancel_p s p) = filter (fun e => negb (Nat.eqb (fst e) p)) (x_pend s).
Proof. intros s p. unfold cancel_p. match goal with |- context [event_cancelled ?x p] => destruct (event_cancelled_frame x p) as [_ [_ [-> _]]] end. reflexivity. Qed.
Lemma fold_cancel_pend : forall l (s : pst A), x_pend (fold_left cancel_p l s) = filter (fun e => negb (existsb (Nat.eqb (fst e)) l)) (x_pend s).
Proof.
  induction l as [|p l IH]; intros s; cbn [fold_left existsb].
  - symmetry. induction (x_pend s) as [|e r IH]; [auto|]. cbn [filter negb]. f_equal. auto.
  - rewrite IH, cancel_p_pend. induction (x_pend s) as [|e r IH2]; [auto|]. cbn [filter]. destruct (Nat.eqb (fst e) p); cbn [negb orb filter]; [auto|].
    destruct (existsb _ l); cbn [negb]; [auto|]. f_equal. auto.
Qed.

(** cancel() takes every slot away; cancelIf exactly those whose payload meets the criterion. *)
Theorem C12_cancel_partial : forall l (s : pst A) f, ok_run p_init l -> prun p_init l = Some s ->
  x_pend (cancel_all s) = [] /\
  x_pend (cancel_if f s) = filter (fun e => match p_pay (x_px s (fst e)) with Some (_, v) => negb (f v) | None => true end) (x_pend s) /\
  cancel_if_count f s = length (filter (fun p => match p_pay (x_px s p) with Some (_, v) => f v | None => false end) (x_infl s)) /\
  (confirm_if f s = true <-> exists p u v, p_pay (x_px s p) = Some (u, v) /\ f v = true).
Proof.
  intros l s f OK R. pose proof (reach_good l s OK R) as G.
  assert (PI : forall e, In e (x_pend s) -> In (fst e) (x_infl s)).
  { intros e I. apply (sched_in _ _ _ _ G). apply (v_pend _ _ _ G). now apply in_map. }
  split; [|split; [|split; [reflexivity|]]].
  - unfold cancel_all. rewrite fold_cancel_pend. assert (X : forall l', (forall e, In e l' -> In (fst e) (x_infl s)) -> filter (fun e : nat * N => negb (existsb (Nat.eqb (fst e)) (x_infl s))) l' = []).
    { induction l' as [|e r IH]; intros H; [auto|]. cbn [filter]. assert (Y : existsb (Nat.eqb (fst e)) (x_infl s) = true).
      { apply existsb_exists. exists (fst e). split; [apply H; left; auto|apply Nat.eqb_refl]. }
      rewrite Y. cbn [negb]. apply IH. intros. apply H. right. auto. }
    apply X. auto.
  - unfold cancel_if. rewrite fold_cancel_pend. apply filter_ext_in. intros e I. apply PI in I.
    destruct (existsb (Nat.eqb (fst e)) (filter (matches f s) (x_infl s))) eqn:EX.
    + apply existsb_exists in EX. destruct EX as [q [Q1 Q2]]. apply Nat.eqb_eq in Q2. subst q. apply filter_In in Q1. destruct Q1 as [_ Q1]. unfold matches in Q1.
      destruct (p_pay (x_px s (fst e))) as [[u v]|]; [|discriminate]. now rewrite Q1.
    + destruct (p_pay (x_px s (fst e))) as [[u v]|] eqn:PP; auto. destruct (f v) eqn:FV; auto. exfalso.
      assert (Y : existsb (Nat.eqb (fst e)) (filter (matches f s) (x_infl s)) = true).
      { apply existsb_exists. exists (fst e). split; [|apply Nat.eqb_refl]. apply filter_In. split; auto. unfold matches. now rewrite PP. }
      congruence.
  - unfold confirm_if. rewrite existsb_exists. split.
    + intros [p [I M]]. unfold matches in M. destruct (p_pay (x_px s p)) as [[u v]|] eqn:PP; [|discriminate]. eauto.
    + intros [p [u [v [PP FV]]]]. exists p. split; [apply (v_pay _ _ _ G); congruence|]. unfold matches. now rewrite PP.
Qed.

(** isScheduled() misses no pending slot, and after cancel() isScheduled(rel_cycle) is false for every cycle. *)
Theorem C12_is_scheduled_partial : forall l (s : pst A), ok_run p_init l -> prun p_init l = Some s ->
  (x_pend s <> [] -> is_sched s = true) /\
  (is_sched s = true <-> exists p, p_pay (x_px s p) <> None) /\
  forall t, is_sched_at (cancel_all s) t = false.
Proof.
  intros l s OK R. pose proof (reach_good l s OK R) as G. unfold is_sched, outstanding. split; [|split].
  - intros H. destruct (x_pend s) as [|e r] eqn:E; [congruence|].
    assert (I : In (fst e) (x_infl s)).
    { apply (sched_in _ _ _ _ G). apply (v_pend _ _ _ G). apply in_map. rewrite E. left. reflexivity. }
    destruct (x_infl s); [destruct I|]. reflexivity.
  - split.
    + intros H. destruct (x_infl s) as [|p r] eqn:E; [discriminate|]. exists p. apply (v_pay _ _ _ G). rewrite E. left. reflexivity.
    + intros [p H]. apply (v_pay _ _ _ G) in H. destruct (x_infl s); [destruct H|]. reflexivity.
  - intros t. unfold is_sched_at. destruct (existsb _ _) eqn:X; [|reflexivity]. exfalso. apply existsb_exists in X. destruct X as [p [I X]].
    assert (PE : x_pend (cancel_all s) = []) by (apply (C12_cancel_partial l s (fun _ => true) OK R)).
    rewrite PE in X. cbn [existsb orb] in X. apply andb_true_iff in X. destruct X as [_ X]. apply existsb_exists in X.
    destruct X as [q [Q1 Q2]]. apply Nat.eqb_eq in Q2. subst q.
    assert (ST : forall l (s : pst A) q, In q (x_stale (fold_left cancel_p l s)) <-> In q (x_stale s) /\ ~ In q l).
    { clear. induction l as [|a l IH]; intros s q; cbn [fold_left]; [cbn; tauto|]. rewrite IH. unfold cancel_p.
      match goal with |- context [event_cancelled ?x a] => destruct (event_cancelled_frame x a) as [_ [_ [_ F]]]; rewrite F end.
      cbn [set_slots x_stale]. rewrite in_rm. cbn [In]. firstorder congruence. }
    assert (INF : forall l (s : pst A) q, In q (x_infl (fold_left cancel_p l s)) -> In q (x_infl s)).
    { clear. induction l as [|a l IH]; intros s q H; cbn [fold_left] in H; [exact H|]. apply IH in H. unfold cancel_p, event_cancelled, reclaim in H.
      repeat match type of H with context [if ?b then _ else _] => destruct b | context [match ?b with _ => _ end] => destruct b end;
        cbn in H; try apply in_rm in H; tauto. }
    unfold cancel_all in *. apply ST in Q1. apply INF in I. tauto.
Qed.

Lemma n_can_mono : forall l (s s' : pst A) u, prun s l = Some s' -> n_can u (x_log s) <= n_can u (x_log s').
Proof.
  assert (RC : forall (s : pst A) p u, n_can u (x_log s) <= n_can u (x_log (event_cancelled s p))).
  { intros s p u. unfold event_cancelled. match goal with |- context [reclaim ?t p] => destruct (reclaim_frame t p) as [_ [_ [_ [_ [_ ->]]]]] end.
    destruct (p_sched (x_px s p)); [destruct (p_pay (x_px s p)) as [[w v]|]|]; cbn [set_px pnote x_log]; auto. unfold n_can. cbn [filter]. destruct (Nat.eqb w u); cbn [length]; lia. }
  assert (CP : forall (s : pst A) p u, n_can u (x_log s) <= n_can u (x_log (cancel_p s p))).
  { intros. unfold cancel_p. eapply Nat.le_trans; [|apply RC]. cbn [set_slots x_log]. auto. }
  assert (FC : forall l (s : pst A) u, n_can u (x_log s) <= n_can u (x_log (fold_left cancel_p l s))).
  { induction l as [|p l IH]; intros s u; cbn [fold_left]; auto. eapply Nat.le_trans; [|apply IH]. apply CP. }
  assert (TM : forall n (s : pst A) p u, n_can u (x_log s) <= n_can u (x_log (times n (fun s => event_cancelled s p) s))).
  { induction n; intros s p u; cbn [times]; auto. eapply Nat.le_trans; [|apply IHn]. apply RC. }
  assert (FA : forall t l (s : pst A) u, n_can u (x_log s) <= n_can u (x_log (fold_left (cancel_at t) l s))).
  { intros t. induction l as [|p l IH]; intros s u; cbn [fold_left]; auto. eapply Nat.le_trans; [|apply IH]. unfold cancel_at. eapply Nat.le_trans; [|apply TM]. auto. }
  assert (RL : forall (s : pst A) p, x_log (reclaim s p) = x_log s) by (intros; apply reclaim_frame).
  assert (OT : forall u (o : pobs A) r, n_can u r <= n_can u (o :: r)).
  { intros u o r. unfold n_can. cbn [filter]. destruct o; auto. destruct (Nat.eqb u0 u); cbn [length]; lia. }
  induction l as [|a l IH]; intros s s' u R; cbn [prun] in R; [injection R as <-; auto|].
  destruct (pstep s a) as [s1|] eqn:S; [|discriminate]. eapply Nat.le_trans; [|eapply IH; eauto]. clear IH R.
  destruct a as [v|p|p|p|p|p t|p| |t|f|p| | |t|]; cbn [pstep] in S; try (injection S as <-).
  - unfold prepare in S. destruct (x_free s); [destruct (Nat.ltb _ _); [|discriminate]|destruct (p_sched _); [discriminate|]]; injection S as <-; cbn [x_log]; apply OT.
  - destruct (Nat.ltb _ _); auto.
  - destruct (Nat.ltb _ _); auto. unfold disconnect. destruct (_ =? 0)%Z; [rewrite RL|]; auto.
  - destruct (Nat.ltb _ _); auto.
  - destruct (Nat.ltb _ _); auto. unfold connect, disconnect. cbn [set_px x_log]. destruct (_ =? 0)%Z; [rewrite RL|]; auto.
  - destruct (_ && _)%bool; auto. unfold sched_p. destruct (_ || _)%bool; auto. destruct (p_pay _) as [[w v]|]; cbn; auto.
  - destruct (Nat.ltb _ _); auto.
  - apply FC.
  - apply FA.
  - apply FC.
  - destruct (x_cur s); [injection S as <-; auto|]. destruct (existsb _ _); [|injection S as <-; auto]. destruct (p_sched _); [|discriminate]. injection S as <-.
    destruct (p_pay _) as [[w v]|]; cbn; auto.
  - destruct (x_cur s); auto. rewrite RL. auto.
  - destruct (x_cur s); auto.
  - destruct (x_cur s); auto. destruct (_ && _)%bool; auto.
  - destruct (x_cur s); auto. cbn [set_slots x_log]. apply FC.
Qed.

(** A payload without a pending slot (not scheduled, delivered, or cancelled) is not delivered again unless it is
    scheduled again. *)
Theorem C12_cancelled_partial : forall l1 l2 (s1 s2 : pst A) u, ok_run p_init (l1 ++ l2) -> prun p_init l1 = Some s1 -> prun s1 l2 = Some s2 ->
  (forall e, In e (x_pend s1) -> has_uid s1 u (fst e) = false) -> n_sch u (x_log s2) = n_sch u (x_log s1) -> n_fire u (x_log s2) <= n_fire u (x_log s1).
Proof.
  intros l1 l2 s1 s2 u OK R1 R2 NP NS.
  assert (SP : forall (s : pst A) s1, ok_run s (l1 ++ l2) -> prun s l1 = Some s1 -> ok_run s l1 /\ ok_run s1 l2 /\ prun s (l1 ++ l2) = prun s1 l2).
  { clear. induction l1 as [|a l1 IH]; intros s s1 OK R; cbn [app ok_run prun] in *; [injection R as <-; auto|].
    destruct OK as [O1 O2]. destruct (pstep s a) as [s'|]; [|discriminate]. destruct (IH _ _ O2 R) as [I1 [I2 I3]]. auto. }
  destruct (SP _ _ OK R1) as [K1 [K2 K3]]. pose proof (reach_good l1 s1 K1 R1) as G1.
  assert (G2 : Good s2) by (eapply reach_good; [exact OK|congruence]).
  pose proof (v_cnt _ _ _ G1 u) as C1. pose proof (v_cnt _ _ _ G2 u) as C2. pose proof (n_can_mono l2 s1 s2 u R2) as M.
  assert (N0 : n_pend u s1 = 0).
  { unfold n_pend. clear - NP. induction (x_pend s1) as [|e r IH]; [auto|]. cbn [filter]. rewrite (NP e) by (left; auto). apply IH. intros. apply NP. right. auto. }
  lia.
Qed.

(** Payloads cancelled so far: proxies have them marked. *)
Record KInv (s : pst A) : Prop := {
  k_in : forall p, p_pay (x_px s p) <> None -> p_in (x_px s p) = true;
  k_uid : forall p q u v w, p_pay (x_px s p) = Some (u, v) -> p_pay (x_px s q) = Some (u, w) -> p = q;
  k_pay : forall p u v, p_pay (x_px s p) = Some (u, v) -> u < x_next s;
  k_can : forall u, In (OCan u) (x_log s) -> u < x_next s;
  k_mark : forall u p v, In (OCan u) (x_log s) -> p_pay (x_px s p) = Some (u, v) -> p_canc (x_px s p) = true /\ p_sched (x_px s p) = false }.
Definition KR (s s' : pst A) : Prop := KInv s -> KInv s' /\ forall u, In (OCan u) (x_log s) ->
  In (OCan u) (x_log s') /\ n_sch u (x_log s') = n_sch u (x_log s) /\ n_fire u (x_log s') = n_fire u (x_log s).
Lemma KR_refl : forall s, KR s s.
Proof. intros s K. auto. Qed.
Lemma KR_trans : forall s1 s2 s3, KR s1 s2 -> KR s2 s3 -> KR s1 s3.
Proof.
  intros s1 s2 s3 R1 R2 K. destruct (R1 K) as [K2 M1]. destruct (R2 K2) as [K3 M2]. split; auto. intros u H. destruct (M1 u H) as (A1 & A2 & A3).
  destruct (M2 u A1) as (B1 & B2 & B3). rewrite B2, B3. auto.
Qed.
(** Only proxies, counter and log matter. *)
Lemma KR_same : forall s s' : pst A, x_px s' = x_px s -> x_next s' = x_next s -> x_log s' = x_log s -> KR s s'.
Proof. intros s s' E1 E2 E3 [k1 k2 k3 k4 k5]. split; [constructor; rewrite ?E1, ?E2, ?E3; auto|]. rewrite E3. auto. Qed.
Lemma KR_upd : forall (s s' : pst A) p y, x_px s' = xset (x_px s) p y -> x_next s' = x_next s -> x_log s' = x_log s ->
  p_pay y = None \/ (p_pay y = p_pay (x_px s p) /\ p_in y = p_in (x_px s p) /\
    (p_canc (x_px s p) = true -> p_sched (x_px s p) = false -> p_canc y = true /\ p_sched y = false)) -> KR s s'.
Proof.
  intros s s' p y E1 E2 E3 H [k1 k2 k3 k4 k5].
  assert (PY : forall q u v, p_pay (x_px s' q) = Some (u, v) -> p_pay (x_px s q) = Some (u, v)).
  { intros q u v. rewrite E1. unfold xset. destruct (Nat.eqb_spec q p) as [->|]; auto. destruct H as [H|[H _]]; rewrite H; [discriminate|auto]. }
  split; [|rewrite E3; auto]. constructor; rewrite ?E2, ?E3; eauto.
  - intros q Hq. specialize (k1 q). rewrite E1 in *. unfold xset in *. destruct (Nat.eqb_spec q p) as [->|]; auto. destruct H as [H|[H [H1 _]]]; [congruence|]. rewrite H1. apply k1. congruence.
  - intros u q v I Hq. pose proof (k5 u q v I (PY _ _ _ Hq)) as [M1 M2]. rewrite E1 in *. unfold xset in *. destruct (Nat.eqb_spec q p) as [->|]; auto.
    destruct H as [H|[_ [_ H]]]; [congruence|auto].
Qed.
Lemma KR_reclaim : forall s p, KR s (reclaim s p).
Proof.
  intros s p. unfold reclaim. destruct (negb (p_sched (x_px s p)) && _)%bool eqn:E; [|apply KR_refl]. destruct (p_in (x_px s p)) eqn:EI.
  - match goal with |- KR s (set_px ?m p ?y) => apply KR_trans with m; [eapply (KR_upd s m p); try reflexivity; left; reflexivity|]; eapply (KR_upd m (set_px m p y) p y); try reflexivity end.
    left. cbn [x_px p_pay]. unfold xset. rewrite Nat.eqb_refl. reflexivity.
  - intros K. cbv zeta. match goal with |- context [set_px s p ?y] => refine (KR_upd s (set_px s p y) p y eq_refl eq_refl eq_refl _ K) end. left. cbn [p_pay]. destruct (p_pay (x_px s p)) eqn:EP; auto. assert (X : p_in (x_px s p) = true) by (apply k_in; auto; congruence). congruence.
Qed.
Lemma KR_note : forall s p u v, p_pay (x_px s p) = Some (u, v) -> p_canc (x_px s p) = true -> p_sched (x_px s p) = false -> KR s (pnote s (OCan u)).
Proof.
  intros s p u v E1 E2 E3 [k1 k2 k3 k4 k5]. split.
  - constructor; cbn [pnote x_px x_next x_log]; auto.
    + intros w [H|H]; auto. injection H as <-. eauto.
    + intros w q z [H|H] Q; eauto. injection H as <-. assert (q = p) by eauto. subst. auto.
  - intros w I. cbn [pnote x_log]. split; [right; auto|]. split; reflexivity.
Qed.
Lemma KR_event_cancelled : forall s p, KR s (event_cancelled s p).
Proof.
  intros s p. unfold event_cancelled. eapply KR_trans; [|apply KR_reclaim]. set (y := mkPx false true _ _ _ _).
  assert (KR s (set_px s p y)) as R1 by (eapply KR_upd with (p := p); try reflexivity; right; auto).
  destruct (p_sched (x_px s p)); [|exact R1]. destruct (p_pay (x_px s p)) as [[u v]|] eqn:EP; [|exact R1].
  apply KR_trans with (pnote (set_px s p y) (OCan u)).
  - eapply KR_trans; [exact R1|]. apply (KR_note _ p u v); cbn [set_px x_px]; unfold xset; rewrite Nat.eqb_refl; auto.
  - apply KR_same; reflexivity.
Qed.
Lemma KR_slots : forall (s : pst A) a b, KR s (set_slots s a b).
Proof. intros. apply KR_same; reflexivity. Qed.
Lemma KR_cancel_p : forall s p, KR s (cancel_p s p).
Proof. intros. unfold cancel_p. eapply KR_trans; [|apply KR_event_cancelled]. apply KR_slots. Qed.
Lemma KR_times : forall n p s, KR s (times n (fun s => event_cancelled s p) s).
Proof. induction n as [|n IH]; intros p s; [apply KR_refl|]. cbn [times]. eapply KR_trans; [apply KR_event_cancelled|apply IH]. Qed.
Lemma KR_cancel_at : forall t s p, KR s (cancel_at t s p).
Proof. intros. unfold cancel_at. cbv zeta. eapply KR_trans; [|apply KR_times]. apply KR_slots. Qed.
Lemma KR_fold : forall (f : pst A -> nat -> pst A) l s, (forall s p, KR s (f s p)) -> KR s (fold_left f l s).
Proof. induction l as [|p l IH]; intros s H; [apply KR_refl|]. cbn [fold_left]. eapply KR_trans; eauto. Qed.
Lemma KR_step : forall s a s', pstep s a = Some s' -> KR s s'.
Proof.
  assert (CN : forall s p, KR s (connect s p)) by (intros; eapply KR_upd with (p := p); try reflexivity; right; auto).
  assert (OB : forall s p n, KR s (objs s p n)) by (intros; eapply KR_upd with (p := p); try reflexivity; right; auto).
  assert (DC : forall s p, KR s (disconnect s p)).
  { intros. unfold disconnect. cbv zeta. assert (KR s (set_px s p (mkPx (p_sched (x_px s p)) (p_canc (x_px s p)) (p_hnd (x_px s p) - 1) (p_obj (x_px s p)) (p_in (x_px s p)) (p_pay (x_px s p))))) as R
      by (eapply KR_upd with (p := p); try reflexivity; right; auto). destruct (_ =? 0)%Z; [|exact R]. eapply KR_trans; [exact R|]. apply KR_reclaim. }
  intros s a s' H. destruct a as [v|p|p|p|p|p t|p| |t|f|p| | |t|]; cbn [pstep] in H.
  - assert (PUT : forall p n fr, KR s (mkP (xset (x_px s) p (mkPx (p_sched (x_px s p)) (p_canc (x_px s p)) (p_hnd (x_px s p) + 1) (Datatypes.S (p_obj (x_px s p))) true (Some (x_next s, v))))
        n fr (x_infl s ++ [p]) (x_pend s) (x_stale s) (x_cur s) (x_now s) (Datatypes.S (x_next s)) (OPrep (x_next s) v :: x_log s))).
    { intros p n fr [k1 k2 k3 k4 k5].
      assert (PY : forall q u w, p_pay (xset (x_px s) p (mkPx (p_sched (x_px s p)) (p_canc (x_px s p)) (p_hnd (x_px s p) + 1) (Datatypes.S (p_obj (x_px s p))) true (Some (x_next s, v))) q) = Some (u, w) ->
        (q = p /\ u = x_next s) \/ (q <> p /\ p_pay (x_px s q) = Some (u, w))).
      { intros q u w. unfold xset. destruct (Nat.eqb_spec q p); cbn [p_pay]; intros E; [injection E as <- <-; auto|auto]. }
      split.
      - constructor; cbn [x_px x_next x_log].
        + intros q. unfold xset. destruct (Nat.eqb_spec q p); auto.
        + intros q r u w z Hq Hr. destruct (PY _ _ _ Hq) as [[-> ->]|[N1 Q1]]; destruct (PY _ _ _ Hr) as [[-> ?]|[N2 Q2]]; subst; auto; try (apply k3 in Q1; lia); try (apply k3 in Q2; lia). eauto.
        + intros q u w Hq. destruct (PY _ _ _ Hq) as [[-> ->]|[N1 Q1]]; [lia|]. apply k3 in Q1. lia.
        + intros u [E|E]; [discriminate|]. apply k4 in E. lia.
        + intros u q w [E|E] Hq; [discriminate|]. destruct (PY _ _ _ Hq) as [[-> ->]|[N1 Q1]]; [apply k4 in E; lia|]. unfold xset. destruct (Nat.eqb_spec q p); [congruence|]. eauto.
      - intros u I. cbn [x_log]. split; [right; auto|]. split; reflexivity. }
    unfold prepare in H. cbv zeta in H. destruct (x_free s) as [|p r].
    + destruct (Nat.ltb _ _); [|discriminate]. injection H as <-. apply PUT.
    + destruct (p_sched (x_px s p)) eqn:ES; [discriminate|]. injection H as <-. pose proof (PUT p (x_alloc s) r) as P. rewrite ES in *. exact P.
  - injection H as <-. destruct (Nat.ltb _ _); [|apply KR_refl]. eapply KR_trans; [apply CN|apply OB].
  - injection H as <-. destruct (Nat.ltb _ _); [|apply KR_refl]. eapply KR_trans; [apply OB|apply DC].
  - injection H as <-. destruct (Nat.ltb _ _); [|apply KR_refl]. apply OB.
  - injection H as <-. destruct (Nat.ltb _ _); [|apply KR_refl]. eapply KR_trans; [apply DC|apply CN].
  - injection H as <-. destruct (Nat.ltb _ _ && _)%bool; [|apply KR_refl]. unfold sched_p. cbv zeta. destruct (p_canc (x_px s p) || p_sched (x_px s p))%bool eqn:EC; [apply KR_refl|].
    apply orb_false_iff in EC. destruct EC as [EC ES]. set (y := mkPx true _ _ _ _ _).
    assert (R1 : KR s (set_slots (set_px s p y) (x_pend s ++ [(p, t)]) (x_stale s))) by (eapply KR_upd with (p := p); try reflexivity; right; split; [auto|split; [auto|congruence]]).
    destruct (p_pay (x_px s p)) as [[u v]|] eqn:EP; [|exact R1]. intros K. destruct (R1 K) as [[k1 k2 k3 k4 k5] M]. split.
    + constructor; cbn [pnote x_px x_next x_log]; auto; intros w; [intros [E|E]; [discriminate|auto]|intros q z [E|E]; [discriminate|eauto]].
    + intros w I. destruct (M w I) as (M1 & M2 & M3). cbn [pnote x_log]. split; [right; auto|].
      assert (NE : u <> w) by (intros ->; destruct (k_mark s K w p v I EP); congruence). unfold n_sch, n_fire in *. cbn [filter] in *. destruct (Nat.eqb_spec u w); [congruence|]. auto.
  - injection H as <-. destruct (Nat.ltb _ _); [|apply KR_refl]. apply KR_cancel_p.
  - injection H as <-. apply KR_fold, KR_cancel_p.
  - injection H as <-. apply KR_fold, KR_cancel_at.
  - injection H as <-. apply KR_fold, KR_cancel_p.
  - destruct (x_cur s); [injection H as <-; apply KR_refl|]. destruct (existsb _ _); [|injection H as <-; apply KR_refl]. destruct (p_sched (x_px s p)) eqn:ES; [|discriminate].
    injection H as <-. set (y := mkPx false _ _ _ _ _). match goal with |- context [set_cur ?z ?c] => assert (R1 : KR s (set_cur z c)) by (eapply KR_upd with (p := p) (y := y); try reflexivity; right; auto); set (s2 := set_cur z c) in * end.
    destruct (p_pay (x_px s p)) as [[u v]|] eqn:EP; [|exact R1]. intros K. destruct (R1 K) as [[k1 k2 k3 k4 k5] M]. split.
    + constructor; cbn [pnote x_px x_next x_log]; auto; intros w; [intros [E|E]; [discriminate|auto]|intros q z [E|E]; [discriminate|eauto]].
    + intros w I. destruct (M w I) as (M1 & M2 & M3). cbn [pnote x_log]. split; [right; auto|].
      assert (NE : u <> w) by (intros ->; destruct (k_mark s K w p v I EP); congruence). unfold n_sch, n_fire in *. cbn [filter] in *. destruct (Nat.eqb_spec u w); [congruence|]. auto.
  - injection H as <-. destruct (x_cur s); [|apply KR_refl]. eapply KR_trans; [|apply KR_reclaim]. apply KR_same; reflexivity.
  - injection H as <-. destruct (x_cur s); [apply KR_refl|]. apply KR_slots.
  - injection H as <-. destruct (x_cur s); [apply KR_refl|]. destruct (_ && _)%bool; [|apply KR_refl]. apply KR_same; reflexivity.
  - injection H as <-. destruct (x_cur s); [apply KR_refl|]. eapply KR_trans; [|apply KR_slots]. apply KR_fold, KR_cancel_p.
Qed.
(** Cancelling is final: in every history whatever, a payload cancelled while scheduled is never scheduled nor delivered
    again, even through handles to it that are still around. *)
Theorem C12_cancel_final : forall (l1 l2 : list (pact A)) (s1 s2 : pst A) u, prun p_init l1 = Some s1 -> prun s1 l2 = Some s2 ->
  In (OCan u) (x_log s1) -> n_sch u (x_log s2) = n_sch u (x_log s1) /\ n_fire u (x_log s2) = n_fire u (x_log s1).
Proof.
  assert (RUN : forall (l : list (pact A)) s s', prun s l = Some s' -> KR s s').
  { induction l as [|a l IH]; intros s s' H; cbn [prun] in H; [injection H as <-; apply KR_refl|]. destruct (pstep s a) as [s1|] eqn:E; [|discriminate].
    eapply KR_trans; [eapply KR_step; exact E|eauto]. }
  intros l1 l2 s1 s2 u R1 R2 I. assert (K0 : KInv p_init) by (constructor; cbn; try congruence; try discriminate; tauto).
  destruct (RUN _ _ _ R1 K0) as [K1 _]. destruct (RUN _ _ _ R2 K1) as [_ M]. destruct (M u I) as (_ & M2 & M3). auto.
Qed.

(** isScheduled(rel_cycle) is exact when no fired slot of the current tick can be hit. *)
Theorem C12_is_scheduled_at_partial : forall l (s : pst A) t, ok_run p_init l -> prun p_init l = Some s -> (t <> x_now s \/ x_stale s = []) ->
  (is_sched_at s t = true <-> exists p, In (p, t) (x_pend s)).
Proof.
  intros l s t OK R HT. pose proof (reach_good l s OK R) as G. unfold is_sched_at. rewrite existsb_exists. split.
  - intros [p [I X]]. apply orb_true_iff in X. destruct X as [X|X].
    + apply existsb_exists in X. destruct X as [[q t'] [X1 X2]]. apply andb_true_iff in X2. destruct X2 as [X2 X3]. apply Nat.eqb_eq in X2. apply N.eqb_eq in X3. cbn in *. subst. eauto.
    + apply andb_true_iff in X. destruct X as [X1 X2]. apply N.eqb_eq in X1. destruct HT as [HT|HT]; [congruence|]. rewrite HT in X2. discriminate.
  - intros [p I]. exists p. split.
    + apply (sched_in _ _ _ _ G). apply (v_pend _ _ _ G). change p with (fst (p, t)). now apply in_map.
    + apply orb_true_iff. left. apply existsb_exists. exists (p, t). split; [auto|]. cbn. now rewrite Nat.eqb_refl, N.eqb_refl.
Qed.

Lemma handler_payload : forall (l : list (pact A)) (s s' : pst A) p x,
  Good s -> x_cur s = Some p -> p_pay (x_px s p) = Some x -> ok_run s l -> prun s l = Some s' ->
  Forall (fun a => match a with PPrepare _ | PCopy _ | PSched _ _ => True | PDrop q | PCancel q => q <> p | _ => False end) l ->
  p_pay (x_px s' p) = Some x /\ x_cur s' = Some p.
Proof.
  induction l as [|a l IH]; intros s s' p x G CU PP OK R F; cbn [prun ok_run] in *; [injection R as <-; auto|].
  destruct OK as [O1 O2]. pose proof (step_good s a G O1) as G1. inversion F as [|? ? F1 F2]; subst.
  assert (IP : In p (x_infl s)) by (apply (v_pay _ _ _ G); congruence).
  assert (RC : forall (t : pst A) q, q <> p -> x_px (reclaim t q) p = x_px t p).
  { intros t q NE. unfold reclaim. destruct (_ && _)%bool; auto. destruct (p_in _); cbn [set_px x_px]; rewrite ?xset_ne by auto; auto. }
  assert (EC : forall (t : pst A) q, q <> p -> x_px (event_cancelled t q) p = x_px t p).
  { intros t q NE. unfold event_cancelled. rewrite RC by auto. cbn [set_px x_px]. rewrite xset_ne by auto. destruct (p_sched (x_px t q)); [destruct (p_pay (x_px t q)) as [[u v]|]|]; reflexivity. }
  assert (X : forall s1, pstep s a = Some s1 -> p_pay (x_px s1 p) = Some x /\ x_cur s1 = Some p).
  { intros s1 S. destruct a as [v|q|q|q|q|q t|q| |t|f|q| | |t|]; cbn [pstep] in S; try contradiction; try (injection S as <-).
    - destruct (prepare_inv _ _ _ _ _ G S) as [_ C]. rewrite C. split; [|auto]. unfold prepare in S. pose proof (v_nd _ _ _ G) as ND. pose proof (v_all _ _ _ G) as AL.
      destruct (x_free s) as [|q r] eqn:FR.
      + destruct (Nat.ltb _ _); [|discriminate]. injection S as <-. cbn [x_px]. rewrite xset_ne; auto. intros E. rewrite app_nil_r in AL. apply AL in IP. lia.
      + destruct (p_sched _); [discriminate|]. injection S as <-. cbn [x_px]. rewrite xset_ne; auto. intros ->. apply NoDup_remove_2 in ND. apply ND. apply in_or_app. auto.
    - destruct (Nat.ltb _ _); [|auto]. cbn [objs connect set_px x_px x_cur]. split; [|auto]. destruct (Nat.eq_dec q p) as [->|NE].
      + rewrite !xset_eq. cbn. auto.
      + rewrite !xset_ne by auto. auto.
    - destruct (Nat.ltb _ _); [|auto]. unfold disconnect. split.
      + assert (Y : x_px (set_px (objs s q (Nat.pred (p_obj (x_px s q)))) q (mkPx (p_sched (x_px (objs s q (Nat.pred (p_obj (x_px s q)))) q)) (p_canc (x_px (objs s q (Nat.pred (p_obj (x_px s q)))) q)) (p_hnd (x_px (objs s q (Nat.pred (p_obj (x_px s q)))) q) - 1) (p_obj (x_px (objs s q (Nat.pred (p_obj (x_px s q)))) q)) (p_in (x_px (objs s q (Nat.pred (p_obj (x_px s q)))) q)) (p_pay (x_px (objs s q (Nat.pred (p_obj (x_px s q)))) q)))) p = x_px s p).
        { unfold objs. cbn [set_px x_px]. rewrite !xset_ne by auto. auto. }
        destruct (_ =? 0)%Z; [rewrite RC by auto|]; rewrite Y; auto.
      + destruct (_ =? 0)%Z; [|auto]. match goal with |- context [reclaim ?t q] => destruct (reclaim_frame t q) as [-> _] end. auto.
    - destruct (_ && _)%bool; [|auto]. unfold sched_p. destruct (_ || _)%bool; [auto|].
      assert (Y : p_pay (xset (x_px s) q (mkPx true (p_canc (x_px s q)) (p_hnd (x_px s q)) (p_obj (x_px s q)) (p_in (x_px s q)) (p_pay (x_px s q))) p) = Some x).
      { unfold xset. destruct (Nat.eqb_spec p q) as [->|]; cbn; auto. }
      destruct (p_pay (x_px s q)) as [[u v]|]; cbn [pnote set_slots set_px x_px x_cur]; auto.
    - destruct (Nat.ltb _ _); [|auto]. destruct (cancel_p_frame s q) as [-> _]. split; [|auto]. unfold cancel_p. rewrite EC by auto. auto. }
  destruct (pstep s a) as [s1|] eqn:S; [|discriminate]. destruct (X s1 eq_refl) as [X1 X2]. eapply IH; eauto.
Qed.

(** While its handler runs, a payload stays in place as long as the handler does not cancel it and does not drop its
    last handle. *)
Theorem C12_handler_payload_partial : forall (l0 l : list (pact A)) (s s' : pst A) p x, ok_run p_init l0 -> prun p_init l0 = Some s ->
  x_cur s = Some p -> p_pay (x_px s p) = Some x -> ok_run s l -> prun s l = Some s' ->
  Forall (fun a => match a with PPrepare _ | PCopy _ | PSched _ _ => True | PDrop q | PCancel q => q <> p | _ => False end) l ->
  p_pay (x_px s' p) = Some x /\ x_cur s' = Some p.
Proof. intros l0 l s s' p x K0 R0. apply handler_payload. eapply reach_good; eauto. Qed.
End P.

(** One payload delivered, one cancelled, one pending; storage reused. *)
Definition ex12 : list (pact nat) :=
  [PPrepare 10; PSched 0 1; PDrop 0; PPrepare 20; PSched 1 1; PDrop 1; PPrepare 30; PSched 2 5; PTime 1; PFire 0; PPrepare 40; PSched 3 2; PRet;
   PCancelIf (Nat.eqb 20); PEndGroup; PPrepare 50; PCancelAt 2; PDrop 3; PDrop 1].
Example C12_exactly_once_ex : ok_run p_init ex12 /\ exists s, prun p_init ex12 = Some s /\
  n_fire 0 (x_log s) = 1 /\ n_can 1 (x_log s) = 1 /\ n_fire 1 (x_log s) = 0 /\ x_pend s = [(2, 5%N)] /\ n_can 3 (x_log s) = 1 /\ In (OFire 0 10) (x_log s).
Proof. split; [vm_compute; repeat split; left; discriminate|]. eexists. split; [vm_compute; reflexivity|]. vm_compute. auto 20. Qed.
Print Assumptions C12_exactly_once_partial.
Example C12_no_failure_ex : ok_act (@p_init nat) (PPrepare 3) /\ exists s, pstep p_init (PPrepare 3) = Some s.
Proof. split; [exact Logic.I|]. eexists. reflexivity. Qed.
Print Assumptions C12_no_failure_partial.
Example C12_storage_ex : exists s, prun p_init (ex12 ++ [PTime 5; PFire 2; PDrop 2; PRet]) = Some s /\ x_pend s = [] /\ x_cur s = None /\ x_infl s = [] /\ length (x_free s) = 4.
Proof. eexists. split; [vm_compute; reflexivity|]. vm_compute. auto. Qed.
Print Assumptions C12_storage_partial.
Example C12_cancel_ex : exists s, prun p_init (firstn 6 ex12) = Some s /\ x_pend s = [(0, 1%N); (1, 1%N)] /\ x_pend (cancel_if (Nat.eqb 20) s) = [(0, 1%N)] /\ confirm_if (Nat.eqb 20) s = true.
Proof. eexists. split; [vm_compute; reflexivity|]. vm_compute. auto. Qed.
Print Assumptions C12_cancel_partial.
Example C12_cancelled_ex : exists s, prun p_init (firstn 14 ex12) = Some s /\ n_sch 1 (x_log s) = 1 /\ forall e, In e (x_pend s) -> has_uid s 1 (fst e) = false.
Proof. eexists. split; [vm_compute; reflexivity|]. split; [vm_compute; reflexivity|]. vm_compute. intros e [<-|[<-|[]]]; reflexivity. Qed.
Print Assumptions C12_cancelled_partial.
(** The handle is kept over the cancellation; scheduling through it has no effect. *)
Example C12_cancel_final_ex : exists s s', prun p_init [PPrepare 10; PSched 0 1; PCancelAll] = Some s /\ In (OCan 0) (x_log s) /\ p_obj (x_px s 0) = 1 /\
  prun s [PSched 0 2; PTime 2; PFire 0] = Some s' /\ x_pend s' = [] /\ n_fire 0 (x_log s') = 0 /\ @n_sch nat 0 (x_log s') = 1.
Proof. eexists _, _. split; [vm_compute; reflexivity|]. split; [vm_compute; auto|]. split; [vm_compute; reflexivity|]. split; [vm_compute; reflexivity|]. vm_compute. auto. Qed.
Print Assumptions C12_cancel_final.
Example C12_is_scheduled_at_ex : exists s, prun p_init (firstn 6 ex12) = Some s /\ x_stale s = [] /\ is_sched_at s 1 = true /\ is_sched_at s 2 = false.
Proof. eexists. split; [vm_compute; reflexivity|]. vm_compute. auto. Qed.
Print Assumptions C12_is_scheduled_at_partial.
(** Two pending payloads. *)
Example C12_is_scheduled_ex : exists s : pst nat, prun p_init (firstn 6 ex12) = Some s /\ x_pend s <> [] /\ is_sched s = true.
Proof. vm_compute. eexists. split; [reflexivity|]. split; [discriminate|reflexivity]. Qed.
Print Assumptions C12_is_scheduled_partial.
Example C12_handler_payload_ex : exists s, prun p_init (firstn 10 ex12) = Some s /\ x_cur s = Some 0 /\ p_pay (x_px s 0) = Some (0, 10).
Proof. eexists. split; [vm_compute; reflexivity|]. vm_compute. auto. Qed.
Print Assumptions C12_handler_payload_partial.

(** A handler that cancels the event (or drops the last handle of the payload it was called with) destroys the payload
    it is reading; the next preparation overwrites the storage with another payload. *)
Theorem C12_handler_payload_refuted : exists (l : list (pact nat)) s s', ok_run p_init l /\ prun p_init l = Some s /\ x_cur s = Some 0
  /\ p_pay (x_px s 0) = None /\ pstep s (PPrepare 77) = Some s' /\ p_pay (x_px s' 0) = Some (1, 77) /\ x_cur s' = Some 0.
Proof.
  exists [PPrepare 10; PSched 0 1; PDrop 0; PTime 1; PFire 0; PCancelAll]. eexists. eexists.
  split; [vm_compute; repeat split|]. split; [vm_compute; reflexivity|]. split; [vm_compute; reflexivity|]. split; [vm_compute; reflexivity|]. split; [vm_compute; reflexivity|]. split; vm_compute; reflexivity.
Qed.
Example C12_handler_payload_refuted_ex : exists s, prun p_init [PPrepare 10; PSched 0 1; PTime 1; PFire 0; PDrop 0] = Some s /\ x_cur s = Some 0 /\ p_pay (x_px s 0) = @None (nat * nat).
Proof. eexists. split; [vm_compute; reflexivity|]. split; vm_compute; reflexivity. Qed.
Print Assumptions C12_handler_payload_refuted.

(** cancel(0) called in the tick and group in which a payload has just fired hits the proxy's old slot: the proxy, used
    again for a payload of a later tick, is given back although its slot is pending; the delivery fails, or if the proxy has been
    taken again, delivers the payload of tick 9 at tick 3. *)
Theorem C12_cancel_at_refuted : exists (l : list (pact nat)) s, prun p_init l = Some s /\ x_pend s = [(0, 3%N)] /\ x_infl s = [] /\
  prun s [PEndGroup; PTime 3; PFire 0] = None /\
  exists s', prun s [PEndGroup; PPrepare 99; PSched 0 9; PDrop 0; PTime 3; PFire 0] = Some s' /\ In (OFire 2 99) (x_log s') /\ In (0, 9%N) (x_pend s').
Proof.
  exists [PPrepare 10; PSched 0 1; PDrop 0; PTime 1; PFire 0; PRet; PPrepare 30; PSched 0 3; PDrop 0; PCancelAt 1]. eexists.
  split; [vm_compute; reflexivity|]. split; [vm_compute; reflexivity|]. split; [vm_compute; reflexivity|]. split; [vm_compute; reflexivity|]. eexists. split; [vm_compute; reflexivity|]. vm_compute. auto 20.
Qed.
Example C12_cancel_at_refuted_ex : exists s : pst nat, prun p_init [PPrepare 10; PSched 0 1; PDrop 0; PTime 1; PFire 0; PRet; PPrepare 30; PSched 0 3; PDrop 0] = Some s
  /\ x_pend s = [(0, 3%N)] /\ x_infl s = [0] /\ x_stale s = [0].
Proof. eexists. split; [vm_compute; reflexivity|]. vm_compute. auto. Qed.
Print Assumptions C12_cancel_at_refuted.

(** A moved handle is counted once but given back twice: the payload is destroyed and its storage handed out again
    while the new handle still refers to it. *)
Theorem C12_move_refuted : exists (l : list (pact nat)) s, l = [PPrepare 10; PMove 0; PDrop 0; PPrepare 20; PSched 0 4; PDrop 0] /\ prun p_init l = Some s
  /\ x_pend s = [(0, 4%N)] /\ p_pay (x_px s 0) = Some (1, 20) /\ p_obj (x_px s 0) = 1 /\ n_sch 0 (x_log s) = 0.
Proof. do 2 eexists. split; [vm_compute; reflexivity|]. split; [vm_compute; reflexivity|]. vm_compute. auto. Qed.
Example C12_move_ex : exists s, prun p_init [PPrepare 10; PMove 0; PDrop 0] = Some s /\ p_obj (x_px s 0) = 1 /\ p_pay (x_px s 0) = @None (nat * nat).
Proof. eexists. split; [vm_compute; reflexivity|]. split; vm_compute; reflexivity. Qed.
Print Assumptions C12_move_refuted.

(** Assigning the only handle of a payload to itself gives the payload back. *)
Theorem C12_self_assign_refuted : exists s : pst nat, prun p_init [PPrepare 10; PSelf 0] = Some s /\ p_obj (x_px s 0) = 1 /\ p_pay (x_px s 0) = None /\ x_free s = [0].
Proof. eexists. split; [vm_compute; reflexivity|]. vm_compute. auto. Qed.
Example C12_self_assign_ex : exists s : pst nat, prun p_init [PPrepare 10; PCopy 0; PSelf 0] = Some s /\ p_pay (x_px s 0) = Some (0, 10) /\ p_obj (x_px s 0) = 2.
Proof. eexists. split; [vm_compute; reflexivity|]. vm_compute. auto. Qed.
Print Assumptions C12_self_assign_refuted.

(** The documented results "number of cancelled events" of cancel(rel_cycle) and "driven at all" of isScheduled() are
    the number of outstanding payloads instead: here nothing is scheduled, and nothing is cancelled. *)
Theorem C12_counts_refuted : exists s : pst nat, prun p_init [PPrepare 10; PPrepare 20] = Some s /\ x_pend s = [] /\ is_sched s = true /\ cancel_at_count s = 2
  /\ x_infl (cancel_all_at 7 s) = x_infl s.
Proof. eexists. split; [vm_compute; reflexivity|]. vm_compute. auto. Qed.
Example C12_counts_ex : is_sched (@p_init nat) = false.
Proof. reflexivity. Qed.
Print Assumptions C12_counts_refuted.
