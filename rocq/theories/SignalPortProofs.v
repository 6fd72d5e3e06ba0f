(** Lemmas for SignalPortProps: what the ports hold and what the history says
    (ports/SignalPort.hpp below /repo/sparta/sparta). *)
From Coq Require Import List NArith Bool Arith Lia.
From Verif Require Import DataPortModel SignalPortModel SignalPortSpec.
Import ListNotations.
Open Scope N_scope.

Lemma same_eq : forall a b, same a b = true <-> a = b.
Proof.
  intros [a1 a2] [b1 b2]. unfold same. cbn [fst snd]. rewrite andb_true_iff, N.eqb_eq, Nat.eqb_eq.
  split. - intros [-> ->]. auto. - intros X. injection X as -> ->. auto.
Qed.

Lemma same_ne : forall a b, same a b = false <-> a <> b.
Proof. intros. rewrite <- same_eq. destruct (same a b); split; congruence. Qed.

Lemma exists_same : forall a l, existsb (same a) l = true <-> In a l.
Proof.
  intros. rewrite existsb_exists. split.
  - intros (b & J & E). apply same_eq in E. subst. auto.
  - intros J. exists a. split; auto. apply same_eq. auto.
Qed.

Lemma times_in : forall l p t, (0 < times l p t)%nat <-> In (t, p) l.
Proof.
  intros. unfold times. rewrite <- exists_same.
  induction l; cbn [filter existsb length]. - split; [lia|discriminate].
  - destruct (same (t, p) a); cbn [length orb]; auto. split; auto. lia.
Qed.

Lemma times_cons : forall l p t a,
  times (a :: l) p t = ((if same (t, p) a then 1 else 0) + times l p t)%nat.
Proof. intros. unfold times. cbn [filter]. destruct (same (t, p) a); auto. Qed.

Lemma times_nodup : forall l p t, NoDup l -> (times l p t <= 1)%nat.
Proof.
  induction l; intros p t N. - cbn. lia.
  - inversion N; subst. rewrite times_cons. destruct (same (t, p) a) eqn:E.
    + apply same_eq in E. subst. destruct (times l p t) eqn:X; [lia|].
      exfalso. apply H1. apply times_in. lia.
    + specialize (IHl p t H2). lia.
Qed.

Lemma without_in : forall a b l, In b (without a l) <-> In b l /\ b <> a.
Proof.
  intros. unfold without. rewrite filter_In, negb_true_iff, same_ne. split; intros [? ?]; split; auto.
Qed.

Lemma times_without : forall l p t a,
  times (without a l) p t = if same (t, p) a then 0%nat else times l p t.
Proof.
  induction l; intros p t b; cbn [without filter].
  - destruct (same (t, p) b); auto.
  - fold (without b l). destruct (same b a) eqn:E; cbn [negb].
    + rewrite IHl. destruct (same (t, p) b) eqn:F; auto. rewrite times_cons.
      apply same_eq in E. subst. rewrite F. auto.
    + rewrite times_cons, IHl. destruct (same (t, p) b) eqn:F.
      * apply same_eq in F. subst. rewrite E. auto.
      * rewrite times_cons. auto.
Qed.

(** What holds of a state, given how many signals came on the spot ([D]) and how
    many were queued ([Q]). *)
Record ok (c : dcfg) (s : sst) (D Q : nat -> N -> nat) : Prop := {
  ok_nodup : NoDup (s_pend s);
  ok_pend : forall d p, In (d, p) (s_pend s) ->
    s_now s <= d /\ (exists n, nth_error (d_in c) p = Some n) /\
    (d = s_now s -> (s_phase s <= port_phase c p)%nat);
  ok_last : forall p d, s_last s p = Some d ->
    d <= s_now s /\ (d = s_now s -> (port_phase c p <= s_phase s)%nat);
  ok_log : forall d p, In (d, p) (s_log s) ->
    d <= s_now s /\ (d = s_now s -> (port_phase c p <= s_phase s)%nat);
  ok_count : forall p t, (times (s_log s) p t + times (s_pend s) p t = D p t + Nat.min 1 (Q p t))%nat;
  ok_direct : forall p t, (0 < D p t)%nat -> t < s_now s \/ t = s_now s /\ (port_phase c p <= s_phase s)%nat;
  ok_old : forall p u, s_stamp s p = Some u -> u <= s_now s;
  ok_stamp : forall p, signalled_now s p = Nat.ltb 0 (times (s_log s) p (s_now s)) }.

Lemma ok_ext : forall c s D Q D' Q', ok c s D Q -> (forall p t, D p t = D' p t) ->
  (forall p t, Q p t = Q' p t) -> ok c s D' Q'.
Proof.
  intros c s D Q D' Q' [A1 A2 A3 A4 A5 A6 A7 A8] E F. constructor; auto.
  - intros. rewrite <- E, <- F. auto.
  - intros p t. rewrite <- E. auto.
Qed.

Lemma phase_some : forall c p n, nth_error (d_in c) p = Some n -> port_phase c p = n_phase n.
Proof. intros. unfold port_phase. rewrite H. auto. Qed.

(** One signal received, by the event or on the spot. *)
Lemma stamp_receive : forall s p, (forall q, signalled_now s q = Nat.ltb 0 (times (s_log s) q (s_now s))) ->
  forall q, signalled_now (receive_signal s p) q =
            Nat.ltb 0 (times (s_log (receive_signal s p)) q (s_now s)).
Proof.
  intros s p K q. unfold receive_signal, signalled_now. cbn [s_stamp s_now s_log].
  rewrite times_cons. unfold fset, same. cbn [fst snd]. rewrite N.eqb_refl. cbn [andb].
  destruct (Nat.eqb q p) eqn:E.
  - rewrite N.eqb_refl. reflexivity.
  - apply K.
Qed.

Lemma signal_in_ok : forall c s rel p D Q s', clocked c ->
  (forall n, nth_error (d_in c) p = Some n -> rel + n_delay n < 2 ^ 32) ->
  ok c s D Q -> signal_in c s rel p = Some s' ->
  s_now s' = s_now s /\ s_phase s' = s_phase s /\
  ok c s' (fun q t => (D q t + direct1 c (s_now s) (s_phase s) rel [p] q t)%nat)
          (fun q t => (Q q t + queued1 c (s_now s) (s_phase s) rel [p] q t)%nat).
Proof.
  intros c s rel p D Q s' CK SM K E. unfold signal_in in E.
  destruct (nth_error (d_in c) p) as [n|] eqn:EN; [|discriminate]. specialize (SM n eq_refl).
  rewrite N.mod_small in E by exact SM. cbv zeta in E.
  pose proof (phase_some _ _ _ EN) as PP.
  destruct ((rel + n_delay n =? 0) && Nat.ltb (n_phase n) (s_phase s)) eqn:B1; [discriminate|].
  assert (forall q t, direct1 c (s_now s) (s_phase s) rel [p] q t =
    if at_once (s_phase s) n rel && same (t, q) (s_now s, p) then 1%nat else 0%nat) as DE.
  { intros q t. unfold direct1. cbn [count_occ]. unfold same. cbn [fst snd].
    destruct (Nat.eq_dec p q) as [->|N].
    - rewrite EN, Nat.eqb_refl, andb_true_r, (N.eqb_sym t). auto.
    - assert (Nat.eqb q p = false) as -> by (apply Nat.eqb_neq; auto).
      rewrite !andb_false_r. destruct (nth_error (d_in c) q); [|reflexivity].
      match goal with |- (if ?b then _ else _) = _ => destruct b; reflexivity end. }
  assert (forall q t, queued1 c (s_now s) (s_phase s) rel [p] q t =
    if negb (at_once (s_phase s) n rel) && same (t, q) (s_now s + (rel + n_delay n) * n_period n, p)
    then 1%nat else 0%nat) as QE.
  { intros q t. unfold queued1. cbn [count_occ]. unfold same. cbn [fst snd].
    destruct (Nat.eq_dec p q) as [->|N].
    - rewrite EN, Nat.eqb_refl, andb_true_r, (N.eqb_sym t). auto.
    - assert (Nat.eqb q p = false) as -> by (apply Nat.eqb_neq; auto).
      rewrite !andb_false_r. destruct (nth_error (d_in c) q); [|reflexivity].
      match goal with |- (if ?b then _ else _) = _ => destruct b; reflexivity end. }
  destruct ((rel + n_delay n =? 0) && Nat.eqb (n_phase n) (s_phase s)) eqn:B2.
  - injection E as <-. split; [auto|]. split; [auto|].
    assert (at_once (s_phase s) n rel = true) as AO by exact B2.
    apply andb_prop in B2. destruct B2 as [B2 B3]. apply Nat.eqb_eq in B3.
    constructor; cbn [receive_signal s_now s_phase s_pend s_last s_log s_stamp]; try apply K.
    + intros d q [X|X]; [|apply (ok_log _ _ _ _ K); auto]. injection X as <- <-. split; [lia|]. intros _. lia.
    + intros q t. rewrite times_cons, DE, QE, AO. cbn [andb negb].
      pose proof (ok_count _ _ _ _ K q t). destruct (same (t, q) (s_now s, p)); lia.
    + intros q t. rewrite DE, AO. cbn [andb]. destruct (same (t, q) (s_now s, p)) eqn:X.
      * intros _. apply same_eq in X. injection X as -> ->. right. split; auto. lia.
      * intros Y. apply (ok_direct _ _ _ _ K). lia.
    + intros q u. unfold fset. destruct (Nat.eqb q p); [|apply (ok_old _ _ _ _ K)]. intros X. injection X as <-. lia.
    + apply (stamp_receive s p (ok_stamp _ _ _ _ K)).
  - assert (at_once (s_phase s) n rel = false) as AO by exact B2.
    set (due := s_now s + (rel + n_delay n) * n_period n) in *.
    assert (DU : s_now s < due \/ due = s_now s /\ (s_phase s < n_phase n)%nat).
    { destruct (N.eqb_spec (rel + n_delay n) 0) as [Z|Z].
      - right. unfold due. rewrite Z. split; [lia|]. cbn [andb] in B1, B2.
        apply Nat.ltb_ge in B1. apply Nat.eqb_neq in B2. lia.
      - left. unfold due. pose proof (CK p n EN). clear - H Z. nia. }
    unfold schedule in E.
    destruct (match s_last s p with Some t => t =? due | None => false end); [discriminate|].
    assert (times (s_log s) p due = 0%nat) as LZ.
    { destruct (times (s_log s) p due) eqn:X; auto. exfalso.
      destruct (ok_log _ _ _ _ K due p) as [Y Z]. { apply times_in. lia. }
      destruct DU as [U|[U V]]; [lia|]. specialize (Z U). lia. }
    assert (D p due = 0%nat) as DZ.
    { destruct (D p due) eqn:X; auto. exfalso.
      destruct (ok_direct _ _ _ _ K p due) as [Y|[Y Z]]; [lia| |]; destruct DU as [U|[U V]]; lia. }
    destruct (existsb (same (due, p)) (s_pend s)) eqn:B3; injection E as <-.
    + split; [auto|]. split; [auto|]. apply exists_same in B3.
      constructor; try apply K.
      * intros q t. rewrite DE, QE, AO. cbn [andb negb]. pose proof (ok_count _ _ _ _ K q t) as C.
        destruct (same (t, q) (due, p)) eqn:X; [|lia]. apply same_eq in X. injection X as -> ->.
        apply times_in in B3. lia.
      * intros q t. rewrite DE, AO. cbn [andb]. rewrite Nat.add_0_r. apply (ok_direct _ _ _ _ K).
    + split; [auto|]. split; [auto|]. assert (~ In (due, p) (s_pend s)) as NI.
      { intros X. apply exists_same in X. congruence. }
      constructor; cbn [s_now s_phase s_pend s_last s_log s_stamp]; try apply K.
      * constructor; auto. apply K.
      * intros d q [X|X]; [|apply (ok_pend _ _ _ _ K); auto]. injection X as <- <-.
        split; [lia|]. split; [eauto|]. lia.
      * intros q t. rewrite times_cons, DE, QE, AO. cbn [andb negb].
        pose proof (ok_count _ _ _ _ K q t) as C.
        destruct (same (t, q) (due, p)) eqn:X; [|lia]. apply same_eq in X. injection X as -> ->.
        assert (times (s_pend s) p due = 0%nat).
        { destruct (times (s_pend s) p due) eqn:Y; auto. exfalso. apply NI. apply times_in. lia. }
        lia.
      * intros q t. rewrite DE, AO. cbn [andb]. rewrite Nat.add_0_r. apply (ok_direct _ _ _ _ K).
Qed.

Lemma occ_cons : forall p l q, count_occ Nat.eq_dec (p :: l) q =
  (count_occ Nat.eq_dec [p] q + count_occ Nat.eq_dec l q)%nat.
Proof. intros. cbn. destruct (Nat.eq_dec p q); auto. Qed.

Lemma signal_all_ok : forall c rel l s D Q s', clocked c ->
  (forall p n, In p l -> nth_error (d_in c) p = Some n -> rel + n_delay n < 2 ^ 32) ->
  ok c s D Q -> signal_all c s rel l = Some s' ->
  s_now s' = s_now s /\ s_phase s' = s_phase s /\
  ok c s' (fun q t => (D q t + direct1 c (s_now s) (s_phase s) rel l q t)%nat)
          (fun q t => (Q q t + queued1 c (s_now s) (s_phase s) rel l q t)%nat).
Proof.
  intros c rel. induction l as [|p l IH]; intros s D Q s' CK SM K E; cbn [signal_all] in E.
  - injection E as <-. split; [auto|]. split; [auto|].
    apply (ok_ext _ _ _ _ _ _ K); intros; unfold direct1, queued1; cbn [count_occ];
      destruct (nth_error (d_in c) p); try destruct (_ && _); lia.
  - destruct (signal_in c s rel p) as [s1|] eqn:E1; [|discriminate].
    destruct (signal_in_ok c s rel p D Q s1 CK) as (N1 & P1 & K1); auto.
    { intros n. apply SM. left; auto. }
    destruct (IH s1 _ _ s' CK (fun q n X => SM q n (or_intror X)) K1 E) as (N2 & P2 & K2).
    split; [congruence|]. split; [congruence|]. rewrite N1, P1 in K2.
    apply (ok_ext _ _ _ _ _ _ K2); intros q t; unfold direct1, queued1;
      destruct (nth_error (d_in c) q); try lia;
      rewrite (occ_cons p l q); destruct (_ && _); lia.
Qed.

(** When a send is accepted. *)
Lemma signal_in_some : forall c s rel p D Q, clocked c ->
  (forall n, nth_error (d_in c) p = Some n -> rel + n_delay n < 2 ^ 32) -> ok c s D Q ->
  (exists s', signal_in c s rel p = Some s') <->
  exists n, nth_error (d_in c) p = Some n /\ (rel + n_delay n = 0 -> (s_phase s <= n_phase n)%nat).
Proof.
  intros c s rel p D Q CK SM K. unfold signal_in.
  destruct (nth_error (d_in c) p) as [n|] eqn:EN.
  2: { split; [intros [x X]; discriminate|intros (n & X & _); discriminate]. }
  specialize (SM n eq_refl). rewrite N.mod_small by exact SM. cbv zeta.
  destruct (N.eqb_spec (rel + n_delay n) 0) as [Z|Z]; cbn [andb].
  - destruct (Nat.ltb_spec (n_phase n) (s_phase s)).
    + split; [intros [x X]; discriminate|intros (m & X & Y)]. injection X as <-. specialize (Y Z). lia.
    + split. { intros _. exists n. auto. } intros _.
      destruct (Nat.eqb_spec (n_phase n) (s_phase s)); [eauto|].
      unfold schedule. rewrite Z, N.mul_0_l, N.add_0_r.
      destruct (s_last s p) as [t|] eqn:L.
      * destruct (N.eqb_spec t (s_now s)); [|destruct (existsb _ _); eauto].
        destruct (ok_last _ _ _ _ K p t L) as [_ Y]. specialize (Y e).
        rewrite (phase_some _ _ _ EN) in Y. lia.
      * destruct (existsb _ _); eauto.
  - split. { intros _. exists n. split; auto. intros; contradiction. } intros _.
    unfold schedule. pose proof (CK p n EN) as PN.
    destruct (s_last s p) as [t|] eqn:L.
    + destruct (N.eqb_spec t (s_now s + (rel + n_delay n) * n_period n)); [|destruct (existsb _ _); eauto].
      destruct (ok_last _ _ _ _ K p t L) as [Y _]. exfalso. clear - Y e PN Z. nia.
    + destruct (existsb _ _); eauto.
Qed.

Lemma signal_all_some : forall c rel l s D Q, clocked c ->
  (forall p n, In p l -> nth_error (d_in c) p = Some n -> rel + n_delay n < 2 ^ 32) -> ok c s D Q ->
  (exists s', signal_all c s rel l = Some s') <->
  forall p, In p l ->
  exists n, nth_error (d_in c) p = Some n /\ (rel + n_delay n = 0 -> (s_phase s <= n_phase n)%nat).
Proof.
  intros c rel. induction l as [|p l IH]; intros s D Q CK SM K; cbn [signal_all].
  - split; [intros _ q []|eauto].
  - pose proof (signal_in_some c s rel p D Q CK (fun n => SM p n (or_introl eq_refl)) K) as A.
    destruct (signal_in c s rel p) as [s1|] eqn:E1.
    + destruct (signal_in_ok c s rel p D Q s1 CK) as (N1 & P1 & K1); auto.
      { intros n. apply SM. left; auto. }
      rewrite (IH s1 _ _ CK (fun q n X => SM q n (or_intror X)) K1), P1. split.
      * intros X q [<-|Y]; auto. apply A. eauto.
      * intros X q Y. apply X. right; auto.
    + split; [intros [x X]; discriminate|]. intros X.
      destruct (proj2 A (X p (or_introl eq_refl))). discriminate.
Qed.

(** The invariant along a history. *)
Definition inv (c : dcfg) (h : list sop) (s : sst) : Prop :=
  s_now s = tick h /\ s_phase s = phase h /\ ok c s (direct c h) (queued c h).

Lemma srun_inv : forall c h s, clocked c -> Forall (fair c) h -> srun c h = Some s -> inv c h s.
Proof.
  intros c h. induction h as [|o r IH]; intros s CK F E; cbn [srun] in E.
  { injection E as <-. split; [auto|]. split; [auto|]. constructor; cbn; auto; try tauto; try discriminate.
    - constructor. - intros; lia. }
  inversion F; subst. destruct (srun c r) as [s0|]; [|discriminate].
  destruct (IH s0 CK H2 eq_refl) as (IN & IP & K).
  destruct o as [o rel|p|q|t]; cbn [sstep] in E.
  - unfold signal in E. cbn [fair] in H1. unfold inv. cbn [tick phase direct queued].
    destruct (nth_error (d_bound c) o) as [l|] eqn:B; [|discriminate].
    rewrite (nth_error_nth _ _ [] B) in *.
    assert (signal_all c s0 rel l = Some s) as E' by (destruct l; [discriminate|exact E]).
    destruct (signal_all_ok c rel l s0 _ _ s CK H1 K E') as (N1 & P1 & K1).
    rewrite IN, IP in *. auto.
  - destruct (Nat.eqb (port_phase c p) (s_phase s0) && existsb (same (s_now s0, p)) (s_pend s0)) eqn:B;
      [|discriminate]. apply andb_prop in B. destruct B as [B1 B2]. apply Nat.eqb_eq in B1.
    apply exists_same in B2. injection E as <-. split; [auto|]. split; [auto|].
    constructor; cbn [receive_signal s_now s_phase s_pend s_last s_log s_stamp direct queued]; try apply K.
    + apply NoDup_filter. apply K.
    + intros d q X. apply without_in in X. destruct X as [X _]. apply (ok_pend _ _ _ _ K d q X).
    + intros q d. unfold fset. destruct (Nat.eqb_spec q p) as [->|N]; [|apply (ok_last _ _ _ _ K)].
      intros X. injection X as <-. split; [lia|]. intros _. lia.
    + intros d q [X|X]; [|apply (ok_log _ _ _ _ K); auto]. injection X as <- <-. split; [lia|]. intros _. lia.
    + intros q t. rewrite times_cons, times_without. pose proof (ok_count _ _ _ _ K q t) as C.
      destruct (same (t, q) (s_now s0, p)) eqn:X; [|lia]. apply same_eq in X. injection X as -> ->.
      pose proof (times_nodup _ p (s_now s0) (ok_nodup _ _ _ _ K)) as T1.
      apply times_in in B2. lia.
    + intros q u. unfold fset. destruct (Nat.eqb q p); [|apply (ok_old _ _ _ _ K)]. intros X. injection X as <-. lia.
    + intros q0. exact (stamp_receive (mkS (s_now s0) (s_phase s0) (without (s_now s0, p) (s_pend s0))
        (fset (s_last s0) p (Some (s_now s0))) (s_log s0) (s_stamp s0)) p (ok_stamp _ _ _ _ K) q0).
  - destruct (Nat.ltb (s_phase s0) q && forallb (fun a => negb (fst a =? s_now s0) || Nat.leb q (port_phase c (snd a))) (s_pend s0)) eqn:B;
      [|discriminate]. apply andb_prop in B. destruct B as [B1 B2]. apply Nat.ltb_lt in B1.
    rewrite forallb_forall in B2. injection E as <-. split; [auto|]. split; [auto|].
    constructor; cbn [s_now s_phase s_pend s_last s_log s_stamp direct queued]; try apply K.
    + intros d p X. destruct (ok_pend _ _ _ _ K d p X) as (Y1 & Y2 & Y3). split; [auto|]. split; [auto|].
      intros Z. specialize (B2 _ X). cbn [fst snd] in B2. subst d. rewrite N.eqb_refl in B2.
      cbn [negb orb] in B2. apply Nat.leb_le in B2. auto.
    + intros p d X. destruct (ok_last _ _ _ _ K p d X) as [Y1 Y2]. split; auto. intros Z. specialize (Y2 Z). lia.
    + intros d p X. destruct (ok_log _ _ _ _ K d p X) as [Y1 Y2]. split; auto. intros Z. specialize (Y2 Z). lia.
    + intros p t X. destruct (ok_direct _ _ _ _ K p t X) as [Y|[Y1 Y2]]; auto. right. split; auto. lia.
  - destruct ((s_now s0 <? t) && forallb (fun a => t <=? fst a) (s_pend s0)) eqn:B; [|discriminate].
    apply andb_prop in B. destruct B as [B1 B2]. apply N.ltb_lt in B1. rewrite forallb_forall in B2.
    injection E as <-. split; [auto|]. split; [auto|].
    constructor; cbn [s_now s_phase s_pend s_last s_log s_stamp direct queued]; try apply K.
    + intros d p X. destruct (ok_pend _ _ _ _ K d p X) as (Y1 & Y2 & Y3). specialize (B2 _ X).
      cbn [fst] in B2. apply N.leb_le in B2. split; [auto|]. split; [auto|]. intros _. lia.
    + intros p d X. destruct (ok_last _ _ _ _ K p d X) as [Y1 Y2]. split; lia.
    + intros d p X. destruct (ok_log _ _ _ _ K d p X) as [Y1 Y2]. split; lia.
    + intros p d X. destruct (ok_direct _ _ _ _ K p d X) as [Y|[Y1 Y2]]; left; lia.
    + intros p u X. pose proof (ok_old _ _ _ _ K p u X). lia.
    + intros p. assert (times (s_log s0) p t = 0%nat) as Z.
      { destruct (times (s_log s0) p t) eqn:X; auto. exfalso.
        destruct (ok_log _ _ _ _ K t p) as [Y _]. { apply times_in. lia. } lia. }
      rewrite Z. pose proof (ok_stamp _ _ _ _ K p) as S. unfold signalled_now in *.
      cbn [s_stamp s_now]. pose proof (ok_old _ _ _ _ K p) as OLD. destruct (s_stamp s0 p) as [u|]; auto.
      destruct (N.eqb_spec u t); auto. exfalso. specialize (OLD u eq_refl). lia.
Qed.
