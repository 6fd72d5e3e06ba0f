(** C53: data ports deliver what is sent, once, in its cycle and in order. *)
From Coq Require Import List NArith Bool Lia Permutation Arith.
Import ListNotations.
Require Import Verif.DataPortModel.
Open Scope N_scope.

Section DPP.
Context {A : Type}.
Implicit Types (s : dst A) (x : A) (op : dop A).

(** A datum for a port at a tick. *)
Definition item := (nat * A * N)%type.
(** What the sends of an execution ask for, in their order: the datum, for every bound port, send delay plus port delay cycles from now. *)
Definition due_at (c : dcfg) (now : N) (rel : N) (p : nat) : N :=
  match nth_error (d_in c) p with Some n => now + (rel + n_delay n) * n_period n | None => 0 end.
Definition asked1 (c : dcfg) s op : list item :=
  match op with DSend o x rel => map (fun p => (p, x, due_at c (d_now s) rel p)) (nth o (d_bound c) []) | _ => [] end.
Fixpoint asked (c : dcfg) s (ops : list (dop A)) : list item :=
  match ops with [] => [] | op :: r => asked1 c s op ++ match dstep c s op with Some s' => asked c s' r | None => [] end end.
Definition delivered s : list item := map (fun g => (g_port g, g_dat g, g_tick g)) (d_log s).
Definition waiting s : list item := map (fun sl => (sl_port sl, sl_dat sl, sl_due sl)) (d_pend s).
(** No delay reaches 2^32 cycles. *)
Definition small (c : dcfg) op : Prop :=
  match op with DSend o x rel => forall p n, In p (nth o (d_bound c) []) -> nth_error (d_in c) p = Some n -> rel + n_delay n < 2 ^ 32 | _ => True end.

Lemma total_small : forall r d, r + d < 2 ^ 32 -> total_delay r d = r + d.
Proof. intros. unfold total_delay. apply N.mod_small. auto. Qed.
Lemma take_slot_perm : forall now p (l : list (slot A)) sl r, take_slot now p l = Some (sl, r) -> sl_due sl = now /\ sl_port sl = p /\ Permutation l (sl :: r) /\
  exists u v, l = u ++ sl :: v /\ r = u ++ v /\ Forall (fun y => (sl_due y =? now) && Nat.eqb (sl_port y) p = false) u.
Proof.
  induction l as [|a l IH]; intros sl r H; [discriminate|]. simpl in H. destruct ((sl_due a =? now) && Nat.eqb (sl_port a) p) eqn:E.
  - injection H as <- <-. apply andb_prop in E. destruct E as [E1 E2]. apply N.eqb_eq in E1. apply Nat.eqb_eq in E2. split; auto. split; auto. split; auto. exists [], l. auto.
  - destruct (take_slot now p l) as [[sl' r']|]; [|discriminate]. injection H as <- <-. cbn [fst snd]. destruct (IH _ _ eq_refl) as (A1 & A2 & A3 & u & v & B1 & B2 & B3).
    split; auto. split; auto. split.
    + rewrite A3. constructor.
    + exists (a :: u), v. subst. simpl. split; auto.
Qed.
Lemma send_in_ledger : forall c s x rel p s', send_in c s x rel p = Some s' ->
  (forall n, nth_error (d_in c) p = Some n -> rel + n_delay n < 2 ^ 32) ->
  Permutation (delivered s ++ waiting s ++ [(p, x, due_at c (d_now s) rel p)]) (delivered s' ++ waiting s') /\ d_now s' = d_now s /\ d_phase s' = d_phase s.
Proof.
  intros c s x rel p s' H Sm. unfold send_in in H. unfold due_at. destruct (nth_error (d_in c) p) as [n|]; [|discriminate]. specialize (Sm n eq_refl).
  rewrite (total_small _ _ Sm) in H. cbv zeta in H. destruct ((rel + n_delay n =? 0) && Nat.ltb (n_phase n) (d_phase s)); [discriminate|].
  destruct ((rel + n_delay n =? 0) && Nat.eqb (n_phase n) (d_phase s)) eqn:E; injection H as <-.
  - apply andb_prop in E. destruct E as [E _]. apply N.eqb_eq in E. rewrite E, N.mul_0_l, N.add_0_r. split; [|auto]. unfold delivered, waiting, receive. cbn [d_log d_pend].
    rewrite map_app. cbn [map g_port g_dat g_tick]. rewrite <- app_assoc. apply Permutation_app_head. apply Permutation_app_comm.
  - split; [|auto]. unfold delivered, waiting. cbn [d_log d_pend]. rewrite map_app. reflexivity.
Qed.
Lemma send_all_ledger : forall c l s x rel s', send_all c s x rel l = Some s' ->
  (forall p n, In p l -> nth_error (d_in c) p = Some n -> rel + n_delay n < 2 ^ 32) ->
  Permutation (delivered s ++ waiting s ++ map (fun p => (p, x, due_at c (d_now s) rel p)) l) (delivered s' ++ waiting s') /\ d_now s' = d_now s /\ d_phase s' = d_phase s.
Proof.
  induction l as [|p l IH]; intros s x rel s' H Sm; simpl in H.
  - injection H as <-. simpl. rewrite app_nil_r. auto.
  - destruct (send_in c s x rel p) as [s1|] eqn:E; [|discriminate]. destruct (send_in_ledger _ _ _ _ _ _ E) as (P1 & T1 & F1); [intros; eapply Sm; simpl; eauto|].
    destruct (IH _ _ _ _ H) as (P2 & T2 & F2); [intros; eapply Sm; simpl; eauto|]. split; [|split; congruence].
    rewrite T1 in P2. rewrite <- P2. cbn [map]. set (M := map _ l).
    replace ((p, x, due_at c (d_now s) rel p) :: M) with ([(p, x, due_at c (d_now s) rel p)] ++ M) by reflexivity.
    rewrite !app_assoc. apply Permutation_app_tail. rewrite <- !app_assoc. exact P1.
Qed.
Lemma d_send_eq : forall c s o x rel s', d_send c s o x rel = Some s' -> exists l, nth_error (d_bound c) o = Some l /\ nth o (d_bound c) [] = l /\ l <> [] /\ send_all c s x rel l = Some s'.
Proof.
  intros c s o x rel s' H. unfold d_send in H. destruct (nth_error (d_bound c) o) as [[|p l]|] eqn:E; try discriminate. exists (p :: l).
  split; auto. split; [apply nth_error_nth; auto|]. split; [discriminate|auto].
Qed.
Lemma filter_perm : forall B (f : B -> bool) l, Permutation l (filter (fun b => negb (f b)) l ++ filter f l).
Proof.
  induction l as [|a l IH]; simpl; [constructor|]. destruct (f a); simpl; [|constructor; auto]. apply Permutation_cons_app. auto.
Qed.
Lemma step_ledger : forall c s op s', dstep c s op = Some s' -> small c op ->
  exists gone, Permutation (delivered s ++ waiting s ++ asked1 c s op) (delivered s' ++ waiting s' ++ gone) /\
    (gone <> [] -> exists o f, op = DCancel o f /\ forall y, In y gone -> In (fst (fst y)) (nth o (d_bound c) []) /\ f (snd (fst y)) = true).
Proof.
  intros c s op s' H Sm. destruct op as [o x rel|o f|p|q|t|p]; cbn [dstep asked1] in *.
  - destruct (d_send_eq _ _ _ _ _ _ H) as (l & E1 & E2 & _ & E3). rewrite E2. cbn [small] in Sm. rewrite E2 in Sm. destruct (send_all_ledger _ _ _ _ _ _ E3 Sm) as (P & _).
    exists []. rewrite app_nil_r. split; [exact P|congruence].
  - unfold d_cancel in H. destruct (nth_error (d_bound c) o) as [l|] eqn:E; [|discriminate]. cbn [option_map fst] in H. injection H as <-.
    exists (map (fun sl => (sl_port sl, sl_dat sl, sl_due sl)) (filter (hit l f) (d_pend s))). split.
    + unfold delivered, waiting. cbn [d_log d_pend]. rewrite app_nil_r, <- map_app. apply Permutation_app_head, Permutation_map, filter_perm.
    + intros _. exists o, f. split; auto. intros y I. apply in_map_iff in I. destruct I as (sl & <- & I). apply filter_In in I. destruct I as [_ I].
      unfold hit in I. apply andb_prop in I. destruct I as [I1 I2]. cbn [fst snd]. split; auto. rewrite (nth_error_nth _ _ _ E). apply existsb_exists in I1.
      destruct I1 as (q & I1 & Q). apply Nat.eqb_eq in Q. subst. auto.
  - exists []. split; [|congruence]. destruct (nth_error (d_in c) p) as [n|]; [|discriminate]. destruct (Nat.eqb (n_phase n) (d_phase s)); [|discriminate].
    destruct (take_slot (d_now s) p (d_pend s)) as [[sl r]|] eqn:T; [|discriminate]. injection H as <-. destruct (take_slot_perm _ _ _ _ _ T) as (D & Q & P & _).
    unfold delivered, waiting, receive. cbn [d_log d_pend d_now]. rewrite !app_nil_r, map_app, <- app_assoc. apply Permutation_app_head.
    rewrite (Permutation_map _ P). cbn [map app g_port g_dat g_tick]. rewrite D, Q. reflexivity.
  - exists []. split; [|congruence]. destruct (_ && _); [|discriminate]. injection H as <-. reflexivity.
  - exists []. split; [|congruence]. destruct (_ && _); [|discriminate]. injection H as <-. reflexivity.
  - exists []. split; [|congruence]. injection H as <-. reflexivity.
Qed.

(** Every datum asked for is, at any time, delivered once in exactly its tick, or still waiting for it, or was cancelled by a call that matches it; nothing else
    is delivered. Assumes that no delay reaches 2^32 cycles. *)
Theorem C53_exactly_once : forall c ops s, drun c (d_init c) ops = Some s -> Forall (small c) ops ->
  exists gone, Permutation (asked c (d_init c) ops) (delivered s ++ waiting s ++ gone) /\
    forall y, In y gone -> exists o f, In (DCancel o f) ops /\ In (fst (fst y)) (nth o (d_bound c) []) /\ f (snd (fst y)) = true.
Proof.
  intros c ops s.
  assert (G : forall ops s0 s, drun c s0 ops = Some s -> Forall (small c) ops -> exists gone, Permutation (delivered s0 ++ waiting s0 ++ asked c s0 ops) (delivered s ++ waiting s ++ gone) /\
    forall y, In y gone -> exists o f, In (DCancel o f) ops /\ In (fst (fst y)) (nth o (d_bound c) []) /\ f (snd (fst y)) = true).
  { clear. induction ops as [|op ops IH]; intros s0 s H F; simpl in H.
    - injection H as <-. exists []. split; [reflexivity|intros ? []].
    - inversion F as [|? ? F1 F2]; subst. destruct (dstep c s0 op) as [s1|] eqn:E; [|discriminate]. destruct (step_ledger _ _ _ _ E F1) as (g1 & P1 & Q1).
      destruct (IH _ _ H F2) as (g2 & P2 & Q2). exists (g2 ++ g1). cbn [asked]. rewrite E. split.
      + rewrite !app_assoc. rewrite <- (app_assoc (delivered s0)). rewrite P1. rewrite <- !app_assoc. rewrite (Permutation_app_comm g1).
        rewrite !app_assoc. apply Permutation_app_tail. rewrite <- !app_assoc. exact P2.
      + intros y I. apply in_app_or in I. destruct I as [I|I].
        * destruct (Q2 y I) as (o & f & I1 & R). exists o, f. split; [right; auto|auto].
        * destruct (Q1 ltac:(intros ->; destruct I)) as (o & f & -> & R). exists o, f. split; [left; auto|auto]. }
  intros H F. destruct (G _ _ _ H F) as (gone & P & Q). exists gone. split; auto.
Qed.

(** Nothing waits for a tick that has passed, and what waits for the current one waits for a phase still to come. *)
Definition timely (c : dcfg) s : Prop :=
  forall sl, In sl (d_pend s) -> d_now s <= sl_due sl /\ (sl_due sl = d_now s -> (d_phase s <= slot_phase c sl)%nat) /\ exists n, nth_error (d_in c) (sl_port sl) = Some n.
Definition clocked (c : dcfg) : Prop := forall p n, nth_error (d_in c) p = Some n -> 0 < n_period n.
Lemma timely_send : forall c l s x rel s', clocked c -> timely c s -> send_all c s x rel l = Some s' -> timely c s'.
Proof.
  induction l as [|p l IH]; intros s x rel s' Ck T H; simpl in H; [injection H as <-; auto|].
  destruct (send_in c s x rel p) as [s1|] eqn:E; [|discriminate]. apply (IH _ _ _ _ Ck) in H; auto. clear H IH.
  unfold send_in in E. destruct (nth_error (d_in c) p) as [n|] eqn:En; [|discriminate]. cbv zeta in E.
  destruct ((total_delay rel (n_delay n) =? 0) && Nat.ltb (n_phase n) (d_phase s)) eqn:B1; [discriminate|].
  destruct ((total_delay rel (n_delay n) =? 0) && Nat.eqb (n_phase n) (d_phase s)) eqn:B2; injection E as <-.
  - exact T.
  - intros sl I. cbn [d_pend d_now d_phase] in *. apply in_app_or in I. destruct I as [I|[<-|[]]]; [auto|]. cbn [sl_due sl_port]. pose proof (Ck _ _ En).
    split; [lia|]. split; [|eauto]. intro Eq. unfold slot_phase. cbn [sl_port]. rewrite En.
    assert (Z : total_delay rel (n_delay n) = 0). { destruct (N.eq_dec (total_delay rel (n_delay n)) 0); auto. pose proof (N.mul_pos_pos (total_delay rel (n_delay n)) (n_period n)). lia. }
    rewrite Z in B1. simpl in B1. apply Nat.ltb_ge in B1. auto.
Qed.
Lemma timely_step : forall c s op s', clocked c -> timely c s -> dstep c s op = Some s' -> timely c s'.
Proof.
  intros c s op s' Ck T H. destruct op as [o x rel|o f|p|q|t|p]; cbn [dstep] in H.
  - destruct (d_send_eq _ _ _ _ _ _ H) as (l & _ & _ & _ & E). eapply timely_send; eauto.
  - unfold d_cancel in H. destruct (nth_error (d_bound c) o) as [l|]; [|discriminate]. cbn [option_map fst] in H. injection H as <-. intros sl I. cbn [d_pend] in I. apply filter_In in I. apply T. apply I.
  - destruct (nth_error (d_in c) p) as [n|]; [|discriminate]. destruct (Nat.eqb (n_phase n) (d_phase s)); [|discriminate].
    destruct (take_slot (d_now s) p (d_pend s)) as [[sl r]|] eqn:E; [|discriminate]. injection H as <-. destruct (take_slot_perm _ _ _ _ _ E) as (_ & _ & P & _).
    intros y I. cbn [receive d_pend] in I. apply T. apply (Permutation_in _ (Permutation_sym P)). right. auto.
  - destruct (Nat.ltb (d_phase s) q && _) eqn:B; [|discriminate]. injection H as <-. apply andb_prop in B. destruct B as [B1 B2]. rewrite forallb_forall in B2.
    intros sl I. cbn [d_pend d_now d_phase] in *. destruct (T sl I) as (T1 & T2 & T3). split; auto. split; auto. intro E. specialize (B2 sl I). rewrite E, N.eqb_refl in B2. simpl in B2. apply Nat.leb_le in B2. auto.
  - destruct ((d_now s <? t) && _) eqn:B; [|discriminate]. injection H as <-. apply andb_prop in B. destruct B as [B1 B2]. rewrite forallb_forall in B2.
    intros sl I. cbn [d_pend d_now d_phase] in *. destruct (T sl I) as (T1 & T2 & T3). specialize (B2 sl I). apply N.leb_le in B2. split; auto. split; auto. intros; lia.
  - injection H as <-. exact T.
Qed.
Lemma timely_run : forall c ops s s', clocked c -> timely c s -> drun c s ops = Some s' -> timely c s'.
Proof.
  induction ops as [|op ops IH]; intros s s' Ck T H; simpl in H; [injection H as <-; auto|]. destruct (dstep c s op) as [s1|] eqn:E; [|discriminate].
  apply (IH s1); auto. eapply timely_step; eauto.
Qed.
Lemma timely_init : forall c, timely c (d_init c).
Proof. intros c sl []. Qed.

(** Without cancels, what was sent for a tick that has passed has been delivered in it. *)
Theorem C53_on_time : forall c ops s p x t, clocked c -> drun c (d_init c) ops = Some s -> Forall (small c) ops -> (forall o f, ~ In (DCancel o f) ops) ->
  In (p, x, t) (asked c (d_init c) ops) -> t < d_now s -> In (mkGot t p x) (d_log s).
Proof.
  intros c ops s p x t Ck H F NC I L. destruct (C53_exactly_once _ _ _ H F) as (gone & P & Q). apply (Permutation_in _ P) in I.
  apply in_app_or in I. destruct I as [I|I]; [|apply in_app_or in I; destruct I as [I|I]].
  - unfold delivered in I. apply in_map_iff in I. destruct I as ([t' p' x'] & E & I). cbn in E. injection E as <- <- <-. auto.
  - exfalso. unfold waiting in I. apply in_map_iff in I. destruct I as (sl & E & I). injection E as <- <- <-. destruct (timely_run _ _ _ _ Ck (timely_init c) H sl I). lia.
  - exfalso. destruct (Q _ I) as (o & f & J & _). eapply NC; eauto.
Qed.
(** The scheduler is never stuck with something due: it can fire a payload, or move on to the phase of one. *)
Theorem C53_progress : forall c ops s sl, clocked c -> drun c (d_init c) ops = Some s -> In sl (d_pend s) -> sl_due sl = d_now s ->
  exists s', (exists p, dstep c s (DFire p) = Some s') \/ (exists q, dstep c s (DPhase q) = Some s').
Proof.
  intros c ops s sl Ck H I D. pose proof (timely_run _ _ _ _ Ck (timely_init c) H) as T.
  assert (M : exists m, In m (d_pend s) /\ sl_due m = d_now s /\ forall y, In y (d_pend s) -> sl_due y = d_now s -> (slot_phase c m <= slot_phase c y)%nat).
  { clear - I D. induction (d_pend s) as [|a l IH]; [destruct I|].
    assert (Z : (exists y, In y l /\ sl_due y = d_now s) \/ (forall y, In y l -> sl_due y <> d_now s)).
    { clear. induction l as [|b l IH]; [right; intros ? []|]. destruct (N.eq_dec (sl_due b) (d_now s)); [left; exists b; simpl; auto|].
      destruct IH as [(y & I & E)|N]; [left; exists y; simpl; auto|]. right. intros y [<-|I]; auto. }
    destruct Z as [(y & Iy & Ey)|Nn].
    - assert (R : exists m, In m l /\ sl_due m = d_now s /\ forall y, In y l -> sl_due y = d_now s -> (slot_phase c m <= slot_phase c y)%nat).
      { clear - Iy Ey. revert y Iy Ey. induction l as [|b l IH]; intros y Iy Ey; [destruct Iy|].
        assert (Z : (exists y, In y l /\ sl_due y = d_now s) \/ (forall y, In y l -> sl_due y <> d_now s)).
        { clear. induction l as [|b l IH]; [right; intros ? []|]. destruct (N.eq_dec (sl_due b) (d_now s)); [left; exists b; simpl; auto|].
          destruct IH as [(y & I & E)|N]; [left; exists y; simpl; auto|]. right. intros y [<-|I]; auto. }
        destruct Z as [(z & Iz & Ez)|Nn].
        - destruct (IH z Iz Ez) as (m & Im & Em & Lm). destruct (N.eq_dec (sl_due b) (d_now s)) as [Eb|Nb].
          + destruct (le_lt_dec (slot_phase c b) (slot_phase c m)).
            * exists b. split; [left; auto|]. split; auto. intros w [<-|Iw] Ew; auto. specialize (Lm w Iw Ew). lia.
            * exists m. split; [right; auto|]. split; auto. intros w [<-|Iw] Ew; auto. lia.
          + exists m. split; [right; auto|]. split; auto. intros w [<-|Iw] Ew; auto. congruence.
        - destruct Iy as [<-|Iy]; [|exfalso; eapply Nn; eauto]. exists b. split; [left; auto|]. split; auto. intros w [<-|Iw] Ew; auto. exfalso. eapply Nn; eauto. }
      destruct R as (m & Im & Em & Lm). destruct (N.eq_dec (sl_due a) (d_now s)) as [Ea|Na].
      + destruct (le_lt_dec (slot_phase c a) (slot_phase c m)).
        * exists a. split; [left; auto|]. split; auto. intros w [<-|Iw] Ew; auto. specialize (Lm w Iw Ew). lia.
        * exists m. split; [right; auto|]. split; auto. intros w [<-|Iw] Ew; auto. lia.
      + exists m. split; [right; auto|]. split; auto. intros w [<-|Iw] Ew; auto. congruence.
    - destruct I as [<-|I]; [|exfalso; eapply Nn; eauto]. exists a. split; [left; auto|]. split; auto. intros w [<-|Iw] Ew; auto. exfalso. eapply Nn; eauto. }
  destruct M as (m & Im & Em & Lm). destruct (T m Im) as (_ & Ph & n & En). specialize (Ph Em).
  assert (Pm : slot_phase c m = n_phase n) by (unfold slot_phase; rewrite En; auto). destruct (Nat.eq_dec (n_phase n) (d_phase s)) as [E|Ne].
  - assert (X : exists r, take_slot (d_now s) (sl_port m) (d_pend s) = Some r).
    { clear - Im Em. induction (d_pend s) as [|a l IH]; [destruct Im|]. simpl. destruct ((sl_due a =? d_now s) && Nat.eqb (sl_port a) (sl_port m)) eqn:B; [eauto|].
      destruct Im as [->|Im]; [rewrite Em, N.eqb_refl, Nat.eqb_refl in B; discriminate|]. destruct (IH Im) as (r & ->). simpl. eauto. }
    destruct X as ([y r] & X). eexists. left. exists (sl_port m). cbn [dstep]. rewrite En, E, Nat.eqb_refl, X. reflexivity.
  - eexists. right. exists (n_phase n). cbn [dstep]. assert (B : Nat.ltb (d_phase s) (n_phase n) = true) by (apply Nat.ltb_lt; lia). rewrite B. simpl.
    assert (C : forallb (fun sl0 => negb (sl_due sl0 =? d_now s) || Nat.leb (n_phase n) (slot_phase c sl0)) (d_pend s) = true).
    { apply forallb_forall. intros y Iy. destruct (N.eqb_spec (sl_due y) (d_now s)) as [Ey|]; auto. simpl. apply Nat.leb_le. rewrite <- Pm. auto. }
    rewrite C. reflexivity.
Qed.

(** No send to port [p] is delivered on the spot and nothing of it is cancelled. *)
Definition queued (c : dcfg) (p : nat) s op : Prop :=
  match op with
  | DSend o x rel => In p (nth o (d_bound c) []) -> forall n, nth_error (d_in c) p = Some n -> rel + n_delay n = 0 -> n_phase n <> d_phase s
  | DCancel o f => ~ In p (nth o (d_bound c) [])
  | _ => True
  end.
Fixpoint queued_run (c : dcfg) (p : nat) s (ops : list (dop A)) : Prop :=
  match ops with [] => True | op :: r => queued c p s op /\ match dstep c s op with Some s' => queued_run c p s' r | None => True end end.
(** The items for port [p] at tick [t]. *)
Definition at_port (p : nat) (t : N) (l : list item) : list item := filter (fun y => Nat.eqb (fst (fst y)) p && (snd y =? t)) l.
Lemma at_app : forall p t l m, at_port p t (l ++ m) = at_port p t l ++ at_port p t m.
Proof. intros. apply filter_app. Qed.
Lemma order_send : forall c p t l s x rel s', send_all c s x rel l = Some s' ->
  (forall q n, In q l -> nth_error (d_in c) q = Some n -> rel + n_delay n < 2 ^ 32) ->
  (In p l -> forall n, nth_error (d_in c) p = Some n -> rel + n_delay n = 0 -> n_phase n <> d_phase s) ->
  at_port p t (delivered s') ++ at_port p t (waiting s') = (at_port p t (delivered s) ++ at_port p t (waiting s)) ++ at_port p t (map (fun q => (q, x, due_at c (d_now s) rel q)) l).
Proof.
  intros c p t. induction l as [|q l IH]; intros s x rel s' H Sm Qu; simpl in H.
  - injection H as <-. simpl. rewrite app_nil_r. auto.
  - destruct (send_in c s x rel q) as [s1|] eqn:E; [|discriminate]. cbn [map].
    destruct (send_in_ledger _ _ _ _ _ _ E) as (_ & T1 & F1); [intros; eapply Sm; simpl; eauto|].
    rewrite (IH _ _ _ _ H); [|intros; eapply Sm; simpl; eauto|intros I n En Z; rewrite F1; apply Qu; simpl; auto].
    rewrite T1. change ((q, x, due_at c (d_now s) rel q) :: ?m) with ([(q, x, due_at c (d_now s) rel q)] ++ m).
    rewrite (at_app p t [(q, x, due_at c (d_now s) rel q)]). rewrite (app_assoc _ (at_port p t [_])). f_equal. clear H IH.
    unfold send_in in E. unfold due_at. destruct (nth_error (d_in c) q) as [n|] eqn:En; [|discriminate].
    rewrite (total_small rel (n_delay n)) in E by (apply (Sm q n); simpl; auto). cbv zeta in E. destruct ((rel + n_delay n =? 0) && Nat.ltb (n_phase n) (d_phase s)); [discriminate|].
    destruct ((rel + n_delay n =? 0) && Nat.eqb (n_phase n) (d_phase s)) eqn:B; injection E as <-.
    + apply andb_prop in B. destruct B as [B1 B2]. apply N.eqb_eq in B1. apply Nat.eqb_eq in B2.
      assert (q <> p) by (intros ->; apply (Qu (or_introl eq_refl) n En B1 B2)). unfold delivered, waiting, receive. cbn [d_log d_pend]. rewrite map_app, at_app.
      cbn [map g_port g_dat g_tick]. unfold at_port at 2 5. simpl. assert (Nat.eqb q p = false) as -> by (apply Nat.eqb_neq; auto). simpl. rewrite !app_nil_r. auto.
    + unfold delivered, waiting. cbn [d_log d_pend]. rewrite map_app, at_app. cbn [map sl_port sl_dat sl_due]. rewrite app_assoc. reflexivity.
Qed.
Lemma order_step : forall c p t s op s', dstep c s op = Some s' -> small c op -> queued c p s op ->
  at_port p t (delivered s') ++ at_port p t (waiting s') = (at_port p t (delivered s) ++ at_port p t (waiting s)) ++ at_port p t (asked1 c s op).
Proof.
  intros c p t s op s' H Sm Qu. destruct op as [o x rel|o f|q|q|u|q]; cbn [dstep asked1 queued small] in *.
  - destruct (d_send_eq _ _ _ _ _ _ H) as (l & _ & E2 & _ & E). rewrite E2 in *. apply order_send with (1 := E); auto.
  - rewrite app_nil_r. unfold d_cancel in H. destruct (nth_error (d_bound c) o) as [l|] eqn:E; [|discriminate]. cbn [option_map fst] in H. injection H as <-. rewrite (nth_error_nth _ _ _ E) in Qu.
    unfold delivered, waiting. cbn [d_log d_pend]. f_equal. induction (d_pend s) as [|sl r IH]; auto. cbn [filter map]. destruct (negb (hit l f sl)) eqn:B.
    + cbn [map]. unfold at_port in *. cbn [filter]. rewrite IH. reflexivity.
    + unfold at_port in *. cbn [filter fst snd]. rewrite IH. destruct (Nat.eqb_spec (sl_port sl) p) as [Ep|]; [|reflexivity]. exfalso. apply Qu. apply negb_false_iff in B.
      unfold hit in B. apply andb_prop in B. destruct B as [B _]. apply existsb_exists in B. destruct B as (y & I & Ey). apply Nat.eqb_eq in Ey. congruence.
  - rewrite app_nil_r. destruct (nth_error (d_in c) q) as [n|]; [|discriminate]. destruct (Nat.eqb (n_phase n) (d_phase s)); [|discriminate].
    destruct (take_slot (d_now s) q (d_pend s)) as [[sl r]|] eqn:T; [|discriminate]. injection H as <-. destruct (take_slot_perm _ _ _ _ _ T) as (D & Q & _ & u & v & E1 & E2 & Fu).
    unfold delivered, waiting, receive. cbn [d_log d_pend d_now]. rewrite map_app, at_app, <- app_assoc. f_equal. rewrite E1, E2, !map_app, !at_app. cbn [map g_port g_dat g_tick].
    change ((sl_port sl, sl_dat sl, sl_due sl) :: map (fun sl0 => (sl_port sl0, sl_dat sl0, sl_due sl0)) v) with ([(sl_port sl, sl_dat sl, sl_due sl)] ++ map (fun sl0 => (sl_port sl0, sl_dat sl0, sl_due sl0)) v).
    rewrite at_app, D, Q. set (a := at_port p t [(q, sl_dat sl, d_now s)]). destruct (Nat.eqb q p && (d_now s =? t)) eqn:B.
    + assert (Z : at_port p t (map (fun sl0 => (sl_port sl0, sl_dat sl0, sl_due sl0)) u) = []).
      { apply andb_prop in B. destruct B as [B1 B2]. apply Nat.eqb_eq in B1. apply N.eqb_eq in B2. rewrite B1, B2 in Fu. clear - Fu. induction u as [|y u IH]; auto.
        inversion Fu as [|? ? F1 F2]; subst. unfold at_port in *. cbn [map filter fst snd]. rewrite andb_comm, F1. auto. }
      rewrite Z. reflexivity.
    + assert (Z : a = []) by (unfold a, at_port; cbn [filter fst snd]; rewrite B; reflexivity). rewrite Z. reflexivity.
  - rewrite app_nil_r. destruct (_ && _); [|discriminate]. injection H as <-. reflexivity.
  - rewrite app_nil_r. destruct (_ && _); [|discriminate]. injection H as <-. reflexivity.
  - rewrite app_nil_r. injection H as <-. reflexivity.
Qed.
(** What is sent to a port for one tick is delivered in the order of the sends: what has been delivered followed by what waits is what was asked for. Assumes that
    nothing is delivered on the spot, as a send with no delay in the phase of the port is; see the refutation below. *)
Theorem C53_order : forall c ops s p t, drun c (d_init c) ops = Some s -> Forall (small c) ops -> queued_run c p (d_init c) ops ->
  at_port p t (delivered s) ++ at_port p t (waiting s) = at_port p t (asked c (d_init c) ops).
Proof.
  intros c ops s p t.
  assert (G : forall ops s0 s, drun c s0 ops = Some s -> Forall (small c) ops -> queued_run c p s0 ops ->
    at_port p t (delivered s) ++ at_port p t (waiting s) = (at_port p t (delivered s0) ++ at_port p t (waiting s0)) ++ at_port p t (asked c s0 ops)).
  { clear. induction ops as [|op ops IH]; intros s0 s H F Q; simpl in H.
    - injection H as <-. simpl. rewrite app_nil_r. auto.
    - inversion F as [|? ? F1 F2]; subst. destruct Q as [Q1 Q2]. destruct (dstep c s0 op) as [s1|] eqn:E; [|discriminate].
      rewrite (IH _ _ H F2 Q2). rewrite (order_step _ _ _ _ _ _ E F1 Q1). cbn [asked]. rewrite E, at_app. symmetry. apply app_assoc. }
  intros H F Q. apply (G _ _ _ H F Q).
Qed.
(** A port with a delay of its own never delivers on the spot. *)
Lemma delayed_queued : forall c p n ops s, nth_error (d_in c) p = Some n -> n_delay n <> 0 -> (forall o f, ~ In (DCancel o f) ops) -> queued_run c p s ops.
Proof.
  induction ops as [|op ops IH]; intros s E D NC; simpl; auto. split.
  - destruct op; simpl; auto. { intros _ m Em Z. rewrite E in Em. injection Em as <-. lia. } exfalso. eapply NC. left. reflexivity.
  - destruct (dstep c s op); auto. apply IH; auto. intros o f I. eapply NC. right. eauto.
Qed.
(** In particular for every port with a delay of its own, if nothing is cancelled. *)
Theorem C53_order_delayed : forall c ops s p n t, nth_error (d_in c) p = Some n -> n_delay n <> 0 -> drun c (d_init c) ops = Some s -> Forall (small c) ops ->
  (forall o f, ~ In (DCancel o f) ops) -> at_port p t (delivered s) ++ at_port p t (waiting s) = at_port p t (asked c (d_init c) ops).
Proof. intros. apply C53_order; auto. eapply delayed_queued; eauto. Qed.

(** The port shows the last datum delivered, until it is pulled or cleared: peekData is the last call of the handler, and dataReceivedThisCycle says that it came in
    the current tick. *)
Theorem C53_container : forall c ops s p x, drun c (d_init c) ops = Some s -> peek s p = Some x ->
  exists l1 l2 t, d_log s = l1 ++ mkGot t p x :: l2 /\ (forall g, In g l2 -> g_port g <> p) /\ received s p = true /\ received_now s p = (t =? d_now s).
Proof.
  intros c ops s p x.
  assert (G : forall ops s0 s, drun c s0 ops = Some s ->
    (forall p x t, nth_error (d_data s0) p = Some (Some (x, t)) -> exists l1 l2, d_log s0 = l1 ++ mkGot t p x :: l2 /\ (forall g, In g l2 -> g_port g <> p)) ->
    (forall p x t, nth_error (d_data s) p = Some (Some (x, t)) -> exists l1 l2, d_log s = l1 ++ mkGot t p x :: l2 /\ (forall g, In g l2 -> g_port g <> p))).
  { clear. assert (PN : forall B (l : list B) i (b : B) j, nth_error (put l i b) j = if Nat.eqb i j then option_map (fun _ => b) (nth_error l j) else nth_error l j).
    { induction l as [|a l IH]; intros i b j; destruct i, j; simpl; auto. destruct (Nat.eqb i j); auto. }
    set (P := fun s0 : dst A => forall p x t, nth_error (d_data s0) p = Some (Some (x, t)) -> exists l1 l2, d_log s0 = l1 ++ mkGot t p x :: l2 /\ (forall g, In g l2 -> g_port g <> p)).
    assert (RC : forall s p x, P s -> P (receive s p x)).
    { intros s p x Ps q y t E. unfold receive in *. cbn [d_data d_log d_now] in *. rewrite PN in E. destruct (Nat.eqb_spec p q) as [->|Ne].
      - destruct (nth_error (d_data s) q); [|discriminate]. cbn [option_map] in E. injection E as <- <-. exists (d_log s), []. split; [reflexivity|intros ? []].
      - destruct (Ps q y t E) as (l1 & l2 & L & Nn). exists l1, (l2 ++ [mkGot (d_now s) p x]). rewrite L, <- app_assoc. split; auto. intros g I. apply in_app_or in I.
        destruct I as [I|[<-|[]]]; auto. }
    assert (SA : forall l s x rel s', send_all c s x rel l = Some s' -> P s -> P s').
    { induction l as [|q l IH]; intros s x rel s' H Ps; simpl in H; [injection H as <-; auto|]. destruct (send_in c s x rel q) as [s1|] eqn:E; [|discriminate].
      apply (IH _ _ _ _ H). unfold send_in in E. destruct (nth_error (d_in c) q) as [n|]; [|discriminate]. cbv zeta in E. destruct (_ && Nat.ltb _ _); [discriminate|].
      destruct (_ && Nat.eqb _ _); injection E as <-; [apply RC; auto|exact Ps]. }
    induction ops as [|op ops IH]; intros s0 s H Ps; simpl in H; [injection H as <-; auto|]. destruct (dstep c s0 op) as [s1|] eqn:E; [|discriminate].
    apply (IH _ _ H). fold (P s0) in Ps. fold (P s1). clear IH H. destruct op as [o x rel|o f|q|q|u|q]; cbn [dstep] in E.
    - destruct (d_send_eq _ _ _ _ _ _ E) as (l & _ & _ & _ & E3). eapply SA; eauto.
    - unfold d_cancel in E. destruct (nth_error (d_bound c) o); [|discriminate]. cbn [option_map fst] in E. injection E as <-. exact Ps.
    - destruct (nth_error (d_in c) q); [|discriminate]. destruct (Nat.eqb _ _); [|discriminate]. destruct (take_slot _ _ _) as [[sl r]|]; [|discriminate]. injection E as <-. apply RC. exact Ps.
    - destruct (_ && _); [|discriminate]. injection E as <-. exact Ps.
    - destruct (_ && _); [|discriminate]. injection E as <-. exact Ps.
    - injection E as <-. intros r y t Er. cbn [d_data d_log] in *. rewrite PN in Er. destruct (Nat.eqb q r); [destruct (nth_error (d_data s0) r); discriminate|]. auto. }
  intros H Pk. unfold peek in Pk. destruct (nth_error (d_data s) p) as [[[y t]|]|] eqn:E; try discriminate. injection Pk as ->.
  destruct (G _ _ _ H) with (p := p) (x := x) (t := t) as (l1 & l2 & L & Nn); auto.
  - intros q y u Q. cbn [d_init d_data] in Q. apply nth_error_In in Q. apply in_map_iff in Q. destruct Q as (? & Q & _). discriminate.
  - exists l1, l2, t. split; auto. split; auto. unfold received, received_now. rewrite E. auto.
Qed.
(** A port from which nothing can be pulled has received nothing, this cycle or before. *)
Theorem C53_container_empty : forall (s : dst A) p, peek s p = None -> received s p = false /\ received_now s p = false.
Proof. intros s p. unfold peek, received, received_now. destruct (nth_error (d_data s) p) as [[[x t]|]|]; auto. discriminate. Qed.
(** isDriven: some datum is on its way to a port that this one is bound to. *)
Theorem C53_driven : forall c (s : dst A) o, d_driven c s o = true <->
  exists l p x t, nth_error (d_bound c) o = Some l /\ In p l /\ In (p, x, t) (waiting s).
Proof.
  intros c s o. unfold d_driven, waiting. destruct (nth_error (d_bound c) o) as [l|]; [|split; [discriminate|intros (l & p & x & t & H & _); discriminate]].
  rewrite existsb_exists. split.
  - intros (p & I & H). apply existsb_exists in H. destruct H as (sl & S1 & S2). apply Nat.eqb_eq in S2. subst p.
    exists l, (sl_port sl), (sl_dat sl), (sl_due sl). split; auto. split; auto. apply in_map_iff. exists sl. auto.
  - intros (l0 & p & x & t & H & I & W). injection H as <-. exists p. split; auto. apply in_map_iff in W. destruct W as (sl & E & W). apply existsb_exists. exists sl.
    split; auto. apply Nat.eqb_eq. congruence.
Qed.
(** cancelIf removes from the data on their way exactly those to the bound ports that satisfy the function, changes nothing
    else, and returns how many. *)
Theorem C53_cancel_exact : forall c (s : dst A) o f s' n, d_cancel c s o f = Some (s', n) -> exists l, nth_error (d_bound c) o = Some l /\
  waiting s' = filter (fun w => let '(p, x, t) := w in negb (if in_dec Nat.eq_dec p l then f x else false)) (waiting s) /\
  (n + length (waiting s') = length (waiting s))%nat /\ delivered s' = delivered s /\ forall p, peek s' p = peek s p.
Proof.
  intros c s o f s' n. unfold d_cancel. destruct (nth_error (d_bound c) o) as [l|]; [|discriminate]. intros H. injection H as <- <-. exists l. split; auto.
  unfold waiting, delivered, peek. cbn [d_pend d_log d_data]. split; [|split; auto].
  - induction (d_pend s) as [|sl r IH]; auto. cbn [filter map]. destruct (in_dec Nat.eq_dec (sl_port sl) l) as [I|I].
    + assert (E : hit l f sl = f (sl_dat sl)) by (unfold hit; replace (existsb (Nat.eqb (sl_port sl)) l) with true; auto; symmetry; apply existsb_exists; exists (sl_port sl); split; auto; apply Nat.eqb_refl).
      rewrite E. destruct (f (sl_dat sl)); cbn [negb map]; rewrite IH; auto.
    + assert (E : hit l f sl = false).
      { unfold hit. destruct (existsb (Nat.eqb (sl_port sl)) l) eqn:X; auto. apply existsb_exists in X. destruct X as (p & X1 & X2). apply Nat.eqb_eq in X2. congruence. }
      rewrite E. cbn [negb map]. rewrite IH; auto.
  - rewrite !map_length. induction (d_pend s) as [|sl r IH]; auto. cbn [filter]. destruct (hit l f sl); cbn [negb length]; lia.
Qed.
End DPP.
Print Assumptions C53_driven.
Print Assumptions C53_cancel_exact.
Print Assumptions C53_exactly_once.
Print Assumptions C53_on_time.
Print Assumptions C53_progress.
Print Assumptions C53_order.
Print Assumptions C53_order_delayed.
Print Assumptions C53_container.
Print Assumptions C53_container_empty.

(** Two senders, three receivers: port 0 with one cycle of delay in PortUpdate (2), port 1 with no delay in Tick (5), port 2 with two cycles; clock period 10. The
    first sender is bound to the ports 0 and 1, the second to 1 and 2. *)
Definition ex_c : dcfg := mkDC [mkIn 1 2 10; mkIn 0 5 10; mkIn 2 2 10] [[0; 1]; [1; 2]]%nat.
Definition ex_ops : list (dop N) :=
  [DPhase 5; DSend 0 100 1; DSend 0 101 1; DSend 1 102 0; DTime 10; DPhase 5; DFire 1; DFire 1; DTime 20; DPhase 2; DFire 0; DFire 2; DFire 0; DTime 30].
Lemma ex_clocked : clocked ex_c.
Proof. intros p n H. do 3 (destruct p as [|p]; [injection H as <-; reflexivity|]). destruct p; discriminate. Qed.
Example C53_ex :
  match drun ex_c (d_init ex_c) ex_ops with
  | Some s => delivered s = [(1%nat, 102, 0); (1%nat, 100, 10); (1%nat, 101, 10); (0%nat, 100, 20); (2%nat, 102, 20); (0%nat, 101, 20)] /\ waiting s = [] /\ peek s 0 = Some 101 /\
      asked ex_c (d_init ex_c) ex_ops = [(0%nat, 100, 20); (1%nat, 100, 10); (0%nat, 101, 20); (1%nat, 101, 10); (1%nat, 102, 0); (2%nat, 102, 20)]
  | None => False end /\ clocked ex_c /\ Forall (small ex_c) ex_ops /\ queued_run ex_c 0 (d_init ex_c) ex_ops /\ (forall o f, ~ In (DCancel o f) ex_ops).
Proof.
  split; [vm_compute; auto|]. split; [|split; [|split]].
  - exact ex_clocked.
  - repeat constructor; cbn; intros p n I E; repeat (destruct I as [<-|I]; [injection E as <-; reflexivity|]); destruct I.
  - apply delayed_queued with (n := mkIn 1 2 10); [reflexivity|discriminate|]. intros o f I. simpl in I. repeat (destruct I as [I|I]; [discriminate|]). destruct I.
  - intros o f I. simpl in I. repeat (destruct I as [I|I]; [discriminate|]). destruct I.
Qed.

Example C53_driven_ex : match drun ex_c (d_init ex_c) (firstn 4 ex_ops) with
  | Some s => d_driven ex_c s 0 = true /\ match d_cancel ex_c s 0 (N.eqb 100) with Some (s', n) => n = 2%nat /\ waiting s' = [(0%nat, 101, 20); (1%nat, 101, 10); (2%nat, 102, 20)] | None => False end
  | None => False end.
Proof. vm_compute. auto. Qed.
(** Before anything arrives, and after pulling. *)
Example C53_container_empty_ex : match drun ex_c (d_init ex_c) (firstn 5 ex_ops) with Some s => peek s 0 = None /\ received_now s 0 = false | None => False end /\
  match drun ex_c (d_init ex_c) (ex_ops ++ [DPull 0]) with Some s => peek s 0 = None /\ received s 0 = false | None => False end.
Proof. split; vm_compute; auto. Qed.
(** A send with no delay to a port of the sender's phase is delivered on the spot and overtakes what was sent earlier for the same tick. *)
Theorem C53_overtake_refuted : ~ (forall c (ops : list (dop N)) s p t, drun c (d_init c) ops = Some s -> Forall (small c) ops -> (forall o f, ~ In (DCancel o f) ops) ->
  at_port p t (delivered s) ++ at_port p t (waiting s) = at_port p t (asked c (d_init c) ops)).
Proof.
  intro H. set (ops := [DPhase 5; DSend 0 100 1; DTime 10; DPhase 5; DSend 0 101 0; DFire 1] : list (dop N)) in *.
  assert (F : Forall (small ex_c) ops) by (repeat constructor; cbn; intros p n I E; repeat (destruct I as [<-|I]; [injection E as <-; reflexivity|]); destruct I).
  assert (NC : forall o f, ~ In (DCancel o f) ops) by (intros o f I; simpl in I; repeat (destruct I as [I|I]; [discriminate|]); destruct I).
  assert (R : exists s, drun ex_c (d_init ex_c) ops = Some s) by (vm_compute; eauto). destruct R as (s & R). specialize (H ex_c ops s 1%nat 10 R F NC).
  vm_compute in R. injection R as <-. vm_compute in H. discriminate.
Qed.
Print Assumptions C53_overtake_refuted.
(** The sum of the delays is cut to 32 bits: data sent 2^32 cycles ahead is delivered at once. *)
Theorem C53_far_refuted : ~ (forall c (ops : list (dop N)) s p x t, clocked c -> drun c (d_init c) ops = Some s -> In (mkGot t p x) (d_log s) -> In (p, x, t) (asked c (d_init c) ops)).
Proof.
  intro H. set (ops := [DPhase 5; DSend 0 100 (2 ^ 32)] : list (dop N)) in *.
  assert (R : match drun ex_c (d_init ex_c) ops with Some s => d_log s = [mkGot 0 1%nat 100] | None => False end) by (vm_compute; auto).
  assert (Q : asked ex_c (d_init ex_c) ops = [(0%nat, 100, 42949672970); (1%nat, 100, 42949672960)]) by (vm_compute; auto).
  specialize (H ex_c ops). rewrite Q in H. clear Q. destruct (drun ex_c (d_init ex_c) ops) as [s|]; [|destruct R].
  specialize (H s 1%nat 100 0 ex_clocked eq_refl). rewrite R in H. destruct (H (or_introl eq_refl)) as [E|[E|[]]]; discriminate.
Qed.
Print Assumptions C53_far_refuted.
(** cancel of a DataOutPort also cancels what other DataOutPorts sent to the DataInPorts it is bound to; and isDriven says true of one that has sent nothing. *)
Theorem C53_cancel_refuted : exists c (s s' : dst N) n, drun c (d_init c) [DPhase 5; DSend 0 100 1] = Some s /\ d_driven c s 1 = true /\
  d_cancel c s 1 (fun _ => true) = Some (s', n) /\ n = 1%nat /\ waiting s = [(0%nat, 100, 20); (1%nat, 100, 10)] /\ waiting s' = [(0%nat, 100, 20)].
Proof. exists ex_c. eexists. eexists. eexists. vm_compute. repeat split. Qed.
Print Assumptions C53_cancel_refuted.
