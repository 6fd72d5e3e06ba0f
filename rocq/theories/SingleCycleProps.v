(** C11: SingleCycleUniqueEvent. *)
From Coq Require Import List NArith Arith Bool Lia Sorted.
From Verif Require Import SchedModel SchedProofs SchedRunProofs SchedUniqProofs SchedProps SingleCycleModel.
Import ListNotations.
Open Scope N_scope.

(** Actions that leave event [n] alone: no scheduling or cancelling it behind its back, no clearEvents or restartAt. *)
Definition other (n : nat) (a : action) : Prop :=
  match a with
  | ACmd (CSchedule m _ _) | ACmd (CCancel m) | ACmd (CCancelAt m _) | ACmd (CAsync m _ _) | ACmd (CCancelAsync m) => m <> n
  | AClear | ARestart _ => False
  | _ => True
  end.

(** Ticks for which occurrences of [n] were accepted, newest first. *)
Definition sched_of (n : nat) (o : obs) : list N :=
  match o with OSched _ (User m) t _ => if Nat.eqb m n then [t] else [] | _ => [] end.
Definition scheds (n : nat) (l : list obs) : list N := flat_map (sched_of n) l.
(** Observations that cancel [n] or restart. *)
Definition harm (n : nat) (o : obs) : Prop :=
  match o with OCancel e => e = User n | OCancelAt e _ => e = User n | OClear => True | ORestart _ => True | _ => False end.

Lemma scheds_app : forall n a b, scheds n (a ++ b) = scheds n a ++ scheds n b.
Proof. intros. unfold scheds. apply flat_map_app. Qed.
Lemma scheds_in : forall n l t, In t (scheds n l) <-> exists id g, In (OSched id (User n) t g) l.
Proof.
  intros n l t. unfold scheds. rewrite in_flat_map. split.
  - intros [o [H1 H2]]. destruct o; cbn in H2; try tauto. destruct e; cbn in H2; [tauto|].
    destruct (Nat.eqb_spec n0 n); cbn in H2; [|tauto]. destruct H2 as [->|[]]. subst. eauto.
  - intros [id [g H]]. eexists. split; [exact H|]. cbn. rewrite Nat.eqb_refl. cbn. auto.
Qed.
Lemma scheds_nil : forall n l, (forall o, In o l -> sched_of n o = []) -> scheds n l = [].
Proof. induction l; cbn; auto. intros. rewrite (H a (or_introl eq_refl)). cbn. apply IHl. intros. apply H. auto. Qed.
Lemma scheds_uniq : forall n l i1 g1 i2 g2 t, NoDup (scheds n l) ->
  In (OSched i1 (User n) t g1) l -> In (OSched i2 (User n) t g2) l -> i1 = i2 /\ g1 = g2.
Proof.
  induction l as [|o l IH]; intros i1 g1 i2 g2 t ND H1 H2; [inversion H1|].
  change (scheds n (o :: l)) with (sched_of n o ++ scheds n l) in ND.
  destruct H1 as [->|H1], H2 as [H2|H2].
  - injection H2 as <- <-. auto.
  - exfalso. cbn [sched_of] in ND. rewrite Nat.eqb_refl in ND. inversion ND as [|? ? NI ND']; subst. apply NI. apply scheds_in. eauto.
  - exfalso. subst o. cbn [sched_of] in ND. rewrite Nat.eqb_refl in ND. inversion ND as [|? ? NI ND']; subst. apply NI. apply scheds_in. eauto.
  - apply (IH i1 g1 i2 g2 t); auto. destruct (sched_of n o) as [|a [|b r]] eqn:E; auto.
    + inversion ND; auto.
    + exfalso. destruct o; cbn in E; try discriminate. destruct e; try discriminate. destruct (Nat.eqb n0 n); discriminate.
Qed.

(** What a step that leaves [n] alone adds to the log. *)
Definition tame (n : nat) (s s' : sched) : Prop :=
  s_tick s <= s_tick s' /\
  exists new, s_log s' = new ++ s_log s /\ forall o, In o new -> sched_of n o = [] /\ ~ harm n o.
Lemma tame_refl : forall n s, tame n s s.
Proof. intros. split; [lia|]. exists []. split; [auto|]. intros o []. Qed.
Lemma tame_same : forall n s s', s_tick s <= s_tick s' -> s_log s' = s_log s -> tame n s s'.
Proof. intros. split; auto. exists []. split; auto. intros o []. Qed.
Lemma tame_one : forall n s s' o, s_tick s <= s_tick s' -> s_log s' = o :: s_log s -> sched_of n o = [] -> ~ harm n o -> tame n s s'.
Proof. intros. split; auto. exists [o]. split; auto. intros o' [<-|[]]. auto. Qed.
Lemma tame_trans : forall n s1 s2 s3, tame n s1 s2 -> tame n s2 s3 -> tame n s1 s3.
Proof.
  intros n s1 s2 s3 [T1 [n1 [E1 H1]]] [T2 [n2 [E2 H2]]]. split; [lia|]. exists (n2 ++ n1). rewrite E2, E1, app_assoc.
  split; auto. intros o Ho. apply in_app_or in Ho. destruct Ho; auto.
Qed.
Lemma tame_sched : forall c n s e rel cont uniq s' ok, e <> User n ->
  schedule_event c s e rel (ev_gid c e) cont uniq = (s', ok) -> tame n s s'.
Proof.
  intros c n s e rel cont uniq s' ok NE H.
  destruct (schedule_event_frame _ _ _ _ _ _ _ _ H) as (_ & F2 & _).
  destruct (schedule_event_log _ _ _ _ _ _ _ _ H) as (o & Ho & _ & Hk).
  apply (tame_one n s s' o); auto; [lia| |].
  - destruct Hk as [->|[->| ->]]; auto. cbn. destruct e; auto. destruct (Nat.eqb_spec n0 n); auto. congruence.
  - destruct Hk as [->|[->| ->]]; cbn; tauto.
Qed.

Lemma drain_tame : forall c n l s s', (forall x, In x l -> fst (fst x) <> n) -> drain c s l = Some s' -> tame n s s'.
Proof.
  induction l as [|[[m rel] cont] r IH]; cbn [drain]; intros s s' HN H.
  - injection H as <-. apply tame_same; simpl; auto. lia.
  - destruct (schedule_event c s (User m) rel (c_gid c m) cont false) as [s1 ok] eqn:ES. destruct ok; [|discriminate].
    apply (tame_trans n s s1 s').
    + eapply (tame_sched c n s (User m)); [|exact ES]. intros E. injection E as ->. apply (HN (n, rel, cont)); simpl; auto.
    + apply IH; auto. intros x Hx. apply HN. right. auto.
Qed.

Lemma step_tame : forall c n s a, Inv c s -> other n a -> (forall x, In x (s_async s) -> fst (fst x) <> n) ->
  tame n s (step c s a).
Proof.
  intros c n s a I HO HA. unfold step. 
  assert (CM : forall k, other n (ACmd k) -> tame n s (exec_cmd c s k)).
  { intros k Hk. destruct k; cbn [exec_cmd].
    - unfold schedule_user. destruct (_ && _)%bool.
      + apply (tame_one n s _ (ORefuse (User n0) (s_tick s + rel))); cbn; auto. lia.
      + destruct (schedule_event c s (User n0) rel (c_gid c n0) cont (c_uniq c n0)) as [s1 ok] eqn:E.
        eapply (tame_sched c n s (User n0)); [|exact E]. cbn in Hk. congruence.
    - apply (tame_one n s _ (OCancel (User n0))); cbn; auto; [lia|]. cbn in Hk. congruence.
    - apply (tame_one n s _ (OCancelAt (User n0) (s_tick s + rel))); cbn; auto; [lia|]. cbn in Hk. congruence.
    - apply tame_same; cbn; auto. lia.
    - apply tame_same; cbn; auto. lia.
    - apply (tame_one n s _ (OCancel (User n0))); cbn; auto; [lia|]. cbn in Hk. congruence. }
  destruct a as [k|num exact| |t|]; destruct (s_ctl s) eqn:HC; auto using tame_refl; try (cbn in HO; tauto).
  - unfold run_begin. destruct num as [[|n']|]; auto using tame_refl.
    + remember (N.pos n') as m.
      set (s0 := set_running (set_first s false) (match s_queue (set_first s false) with [] => false | _ :: _ => true end)).
      destruct (match s_queue s0 with [] => true | q :: _ => s_tick s0 + m <? q_tick q end).
      * destruct exact; apply tame_same; cbn; auto; lia.
      * destruct (schedule_event c s0 Stop (m - 1) 0 exact false) as [s1 ok] eqn:ES. cbn [fst].
        assert (T : tame n s0 s1) by (eapply (tame_sched c n s0 Stop); [discriminate|exact ES]).
        apply (tame_trans n s s0); [apply tame_same; cbn; auto; lia|].
        eapply tame_trans; [exact T|]. apply tame_same; cbn; auto. lia.
    + apply tame_same; cbn; auto. lia.
  - unfold tick_begin. destruct (s_running s); [|apply tame_same; cbn; auto; lia].
    pose proof (I_ge c s I) as GE. destruct (s_queue s) as [|q rest] eqn:EQ; [apply tame_same; cbn; auto; lia|].
    inversion GE; subst. destruct (drain c _ _) eqn:ED.
    + apply drain_tame with (n := n) in ED; [|auto]. eapply tame_trans; [|exact ED]. apply tame_same; cbn; auto.
    + apply tame_same; cbn; auto.
  - unfold scan. destruct (s_queue s) as [|q rest] eqn:EQ; [apply tame_same; cbn; auto; lia|].
    destruct (Nat.ltb _ _).
    + destruct (nth_error _ _) as [sl|]; [|apply tame_same; cbn; auto; lia].
      destruct (sl_ev sl) as [[|m]|]; [| |apply tame_same; cbn; auto; lia].
      * apply (tame_one n s _ (OFire (sl_id sl) Stop (s_tick s) (s_grp s))); cbn; auto; lia.
      * apply (tame_one n s _ (OFire (sl_id sl) (User m) (s_tick s) (s_grp s))); cbn; auto; lia.
    + unfold tick_end. rewrite EQ. destruct rest; [apply tame_same; cbn; auto; lia|].
      destruct (_ <? _); apply tame_same; cbn; auto; lia.
  - apply tame_same; cbn; auto. lia.
Qed.

(** The conditions on an execution: everything else leaves the event alone, requests are made on edges of its
    clock, and in tick 0 a first schedule(1) is not followed by schedule(0). *)
Definition fair_here (n : nat) (P : N) (st : sched * scu) (a : sact) : Prop :=
  match a with
  | SBase a => other n a
  | SReq one => N.divide P (s_tick (fst st)) /\
                (s_tick (fst st) = 0 -> one = false -> In P (u_req (snd st)) -> In 0 (u_req (snd st)))
  end.
Fixpoint fair (c : cfg) (n : nat) (P : N) (cont : bool) (st : sched * scu) (l : list sact) : Prop :=
  match l with [] => True | a :: r => fair_here n P st a /\ fair c n P cont (sstep c n P cont st a) r end.

Record SI (c : cfg) (n : nat) (P : N) (st : sched * scu) : Prop := {
  S_inv : Inv c (fst st);
  S_async : forall x, In x (s_async (fst st)) -> fst (fst x) <> n;
  S_harm : forall o, In o (s_log (fst st)) -> ~ harm n o;
  S_req : forall t, In t (u_req (snd st)) <-> In t (scheds n (s_log (fst st)));
  S_nodup : NoDup (scheds n (s_log (fst st)));
  S_init : u_init (snd st) = true -> u_req (snd st) = [] /\ u_next (snd st) = 0;
  S_last : u_init (snd st) = false -> exists L, N.divide P L /\ L <= s_tick (fst st) /\ In (u_next (snd st)) (u_req (snd st))
     /\ (forall t, In t (u_req (snd st)) -> t <= u_next (snd st))
     /\ (u_next (snd st) = L \/ (u_next (snd st) = L + P /\ (0 < L -> (In L (u_req (snd st)) <-> u_prev (snd st) = L))
                                  /\ (L = 0 -> u_prev (snd st) = 0)))
}.

Lemma SI_base : forall c n P s u a, SI c n P (s, u) -> other n a -> SI c n P (step c s a, u).
Proof.
  intros c n P s u a H HO. destruct H as [I A Hm R ND IN LA]. cbn [fst snd] in *.
  pose proof (step_tame c n s a I HO A) as [T [new [E K]]].
  assert (SC : scheds n (s_log (step c s a)) = scheds n (s_log s)).
  { rewrite E, scheds_app, scheds_nil; auto. intros o Ho. apply K; auto. }
  constructor; cbn [fst snd]; auto.
  - apply step_inv; auto.
  - apply step_async; auto. destruct a; cbn in *; auto. destruct k; cbn in *; auto.
  - intros o Ho. rewrite E in Ho. apply in_app_or in Ho. destruct Ho as [Ho|Ho]; [apply K; auto|auto].
  - intros t. rewrite SC. auto.
  - rewrite SC. auto.
  - intros HI. destruct (LA HI) as [L [H1 [H2 H3]]]. exists L. split; [auto|]. split; [lia|auto].
Qed.

Lemma schedule_user_cases : forall c s n rel cont s' ok, Inv c s -> c_uniq c n = false -> (s_ctl s = Idle \/ s_ctl s = Handler) ->
  schedule_user c s n rel cont = (s', ok) ->
  Inv c s' /\ s_tick s' = s_tick s /\ s_async s' = s_async s /\
  ((ok = true /\ exists id g, s_log s' = OSched id (User n) (s_tick s + rel) g :: s_log s) \/
   (ok = false /\ s_log s' = ORefuse (User n) (s_tick s + rel) :: s_log s)).
Proof.
  intros c s n rel cont s' ok I HU HC H. unfold schedule_user in H. rewrite HU in H. cbn [andb] in H.
  change (c_gid c n) with (ev_gid c (User n)) in H.
  assert (C1 : s_ctl s <> LoopHead) by (destruct HC; congruence).
  assert (C2 : s_ctl s <> Crashed) by (destruct HC; congruence).
  pose proof (schedule_event_inv c s (User n) rel cont false s' ok I C1 C2 H) as I'.
  pose proof (schedule_event_frame _ _ _ _ _ _ _ _ H) as (F1 & F2 & F3 & F4 & F5 & F6 & F7 & _).
  split; [auto|]. split; [auto|]. split; [auto|].
  apply schedule_event_cases in H.
  destruct H as [(-> & -> & _)|(-> & Hr & Hg & s1 & Hs & [(D & _)|(_ & qs & p & Hi & ->)])]; [right; auto|discriminate|].
  left. split; auto. destruct Hs as [->|(f & l & ->)]; eexists _, _; reflexivity.
Qed.

Lemma mult_gap : forall P a b, 0 < P -> N.divide P a -> N.divide P b -> a < b -> a + P <= b.
Proof.
  intros P a b HP [x ->] [y ->] H. assert (x < y) by (apply N.mul_lt_mono_pos_r in H; auto). nia.
Qed.

Lemma SI_req : forall c n P cont s u one, c_uniq c n = false -> 0 < P -> SI c n P (s, u) ->
  (s_ctl s = Idle \/ s_ctl s = Handler) -> fair_here n P (s, u) (SReq one) ->
  SI c n P (single_schedule c n P cont (s, u) one).
Proof.
  intros c n P cont s u one HU HP H HC HF. pose proof H as [I A Hm R ND IN LA]. cbn [fst snd] in *.
  cbn [fair_here fst snd] in HF. destruct HF as [HD H0].
  unfold single_schedule. set (rel := if one then P else 0). set (abs := s_tick s + rel).
  (* a scheduler call with result [ok] *)
  assert (CALL : forall u', (u_init u' = false) -> u_req u' = abs :: u_req u -> ~ In abs (u_req u) ->
     (exists L, N.divide P L /\ L <= s_tick s /\ In (u_next u') (u_req u') /\ (forall t, In t (u_req u') -> t <= u_next u')
        /\ (u_next u' = L \/ (u_next u' = L + P /\ (0 < L -> (In L (u_req u') <-> u_prev u' = L)) /\ (L = 0 -> u_prev u' = 0)))) ->
     SI c n P (let (s', ok) := schedule_user c s n rel cont in (s', if ok then u' else u))).
  { intros u' E1 E2 E3 E4. destruct (schedule_user c s n rel cont) as [s' ok] eqn:ES.
    destruct (schedule_user_cases _ _ _ _ _ _ _ I HU HC ES) as (I' & T & AS & [(-> & id & g & EL)|(-> & EL)]).
    - fold abs in EL. constructor; cbn [fst snd]; auto.
      + rewrite AS. auto.
      + intros o Ho. rewrite EL in Ho. destruct Ho as [<-|Ho]; auto.
      + intros t. rewrite EL, E2. unfold scheds. cbn [flat_map sched_of]. rewrite Nat.eqb_refl. cbn [app In].
        fold (scheds n (s_log s)). rewrite R. tauto.
      + rewrite EL. unfold scheds. cbn [flat_map sched_of]. rewrite Nat.eqb_refl. cbn [app]. fold (scheds n (s_log s)).
        constructor; auto. rewrite <- R. auto.
      + congruence.
      + intros _. rewrite T. auto.
    - constructor; cbn [fst snd]; auto.
      + rewrite AS. auto.
      + intros o Ho. rewrite EL in Ho. destruct Ho as [<-|Ho]; auto.
      + intros t. rewrite EL. apply R.
      + rewrite EL. apply ND.
      + intros HI. rewrite T. auto. }
  assert (DROP : In abs (u_req u) ->
     (u_init u = false -> exists L, N.divide P L /\ L <= s_tick s /\ In (u_next u) (abs :: u_req u) /\ (forall t, In t (abs :: u_req u) -> t <= u_next u)
        /\ (u_next u = L \/ (u_next u = L + P /\ (0 < L -> (In L (abs :: u_req u) <-> u_prev u = L)) /\ (L = 0 -> u_prev u = 0)))) ->
     u_init u = false ->
     SI c n P (s, mkU (u_next u) (u_prev u) (u_init u) (abs :: u_req u))).
  { intros HIn HK HI0. constructor; cbn [fst snd u_req u_next u_prev u_init]; auto.
    - intros t. cbn [In]. rewrite <- R. split; [intros [<-|Ht]; auto|auto].
    - congruence. }
  destruct (u_init u) eqn:EI.
  - (* first request *)
    rewrite orb_true_r. destruct (IN eq_refl) as [ER EN]. apply CALL; cbn [u_req u_next u_prev u_init]; auto.
    + rewrite ER. auto.
    + exists (s_tick s). split; [auto|]. split; [lia|]. split; [left; auto|]. rewrite ER. split; [intros t [<-|[]]; lia|].
      subst abs rel. destruct one; [right|left; lia]. split; [auto|]. rewrite EN. cbn [In]. split; [|auto].
      intros HL. split; [intros [C|[]]; lia|lia].
  - rewrite orb_false_r. destruct (LA eq_refl) as [L [D1 [D2 [D3 [D4 D5]]]]].
    destruct (N.ltb_spec (u_next u) abs) as [LT|GE].
    + (* later than any request so far *)
      assert (NI : ~ In abs (u_req u)) by (intros C; apply D4 in C; lia).
      apply CALL; cbn [u_req u_next u_prev u_init]; auto.
      exists (s_tick s). split; [auto|]. split; [lia|]. split; [left; auto|].
      split; [intros t [<-|Ht]; [lia|]; apply D4 in Ht; lia|].
      subst abs rel. destruct one; [right|left; lia]. split; [auto|].
      assert (NT : u_next u <= s_tick s).
      { destruct (N.eq_dec L (s_tick s)).
        - destruct D5 as [D5|[D5 _]]; lia.
        - pose proof (mult_gap P L (s_tick s) HP D1 HD ltac:(lia)). destruct D5 as [D5|[D5 _]]; lia. }
      split; [|lia]. intros HL. cbn [In]. split.
      * intros [C|C]; [lia|]. apply D4 in C. lia.
      * intros <-. auto.
    + destruct (N.ltb_spec abs (u_next u)) as [LT2|GE2]; cbn [andb].
      * (* the current tick, after a request for the next cycle *)
        assert (HL : L = s_tick s).
        { destruct (N.eq_dec L (s_tick s)); auto. exfalso.
          pose proof (mult_gap P L (s_tick s) HP D1 HD ltac:(lia)). destruct D5 as [D5|[D5 _]]; subst abs; lia. }
        destruct D5 as [D5|(D5 & D6 & D7)]; [subst abs; lia|].
        assert (HA : abs = L /\ one = false).
        { subst abs rel. destruct one; [lia|]. split; [lia|auto]. }
        destruct HA as [HA ->].
        destruct (N.eqb_spec (u_prev u) abs) as [EP|NP]; cbn [negb].
        -- assert (HIn : In abs (u_req u)).
           { rewrite HA. destruct (N.eq_dec L 0) as [Z|NZ].
             - rewrite Z. apply H0; auto; [congruence|]. rewrite D5, Z in D3. rewrite N.add_0_l in D3. exact D3.
             - apply D6; [lia|congruence]. }
           apply DROP; auto. intros _. exists L. split; [auto|]. split; [auto|]. split; [right; auto|].
           split; [intros t [<-|Ht]; [lia|auto]|]. right. split; [auto|]. split; [|auto].
           intros HL0. cbn [In]. rewrite HA. split; [intros _; congruence|auto].
        -- assert (L0 : 0 < L) by (destruct (N.eq_dec L 0) as [Z|]; [exfalso; apply NP; rewrite D7; congruence|lia]).
           assert (NI : ~ In abs (u_req u)) by (rewrite HA; intros C; apply D6 in C; congruence).
           apply CALL; cbn [u_req u_next u_prev u_init]; auto.
           exists L. split; [auto|]. split; [auto|]. split; [right; auto|].
           split; [intros t [<-|Ht]; [lia|auto]|]. right. split; [auto|]. split; [|lia].
           intros _. cbn [In]. split; [auto|intros _; left; auto].
      * (* the tick of the newest request *)
        assert (EQ : abs = u_next u) by lia. assert (HIn : In abs (u_req u)) by (rewrite EQ; auto).
        apply DROP; auto. intros _. exists L. split; [auto|]. split; [auto|]. split; [right; auto|].
        split; [intros t [<-|Ht]; [lia|auto]|]. destruct D5 as [D5|(D5 & D6 & D7)]; [left; auto|right].
        split; [auto|]. split; [|auto]. intros HL0. rewrite <- D6 by auto. cbn [In]. split; [intros [C|C]; auto|auto].
        exfalso. lia.
Qed.

Lemma SI_init : forall c n P, SI c n P (init, scu0).
Proof.
  intros. constructor; cbn [fst snd]; auto.
  all: try apply init_inv; try (intros ? []); try (cbn; tauto); try constructor; try discriminate.
Qed.
Lemma SI_exec : forall c n P cont l st, c_uniq c n = false -> 0 < P -> SI c n P st -> fair c n P cont st l ->
  SI c n P (fold_left (sstep c n P cont) l st).
Proof.
  induction l as [|a l IH]; intros st HU HP H HF; [exact H|]. destruct HF as [F1 F2]. cbn [fold_left]. apply IH; auto.
  destruct st as [s u]. destruct a as [a|one]; cbn [sstep fst snd].
  - apply SI_base; auto.
  - destruct (s_ctl s) eqn:HC; auto; apply SI_req; auto.
Qed.

(** The handler calls of the event, oldest first, as (tick) list of the trace. *)
Definition strace (c : cfg) (n : nat) (P : N) (cont : bool) (l : list sact) : list obs := rev (s_log (fst (sexec c n P cont l))).

(** In no tick the handler runs twice. *)
Theorem C11_once_partial : forall c n P cont acts a b d i1 g1 i2 g2 t,
  c_uniq c n = false -> 0 < P -> fair c n P cont (init, scu0) acts ->
  strace c n P cont acts = a ++ OFire i1 (User n) t g1 :: b ++ OFire i2 (User n) t g2 :: d -> False.
Proof.
  intros c n P cont acts a b d i1 g1 i2 g2 t HU HP HF E.
  pose proof (SI_exec c n P cont acts _ HU HP (SI_init c n P) HF) as H. fold (sexec c n P cont acts) in H.
  destruct H as [I A Hm R ND _ _]. unfold strace in E. apply rev_split in E. rewrite rev_app_distr in E. cbn [rev] in E.
  rewrite <- !app_assoc in E. cbn [app] in E.
  set (l := s_log (fst (sexec c n P cont acts))) in *.
  assert (O : elt (t, g1, mkSlot (Some (User n)) i1) (t, g2, mkSlot (Some (User n)) i2)).
  { apply (I_order c _ I _ _ _ _ _ _ _ _ _ _ _ E). intros u Hu. apply (Hm (ORestart u)); [|cbn; auto].
    fold l. rewrite E. apply in_or_app. right. right. apply in_or_app. left. auto. }
  pose proof (I_fired c _ I _ _ _ _ _ _ E) as (x2 & x1 & X & _).
  assert (E' : l = (rev d ++ OFire i2 (User n) t g2 :: rev b) ++ OFire i1 (User n) t g1 :: rev a) by (rewrite <- app_assoc; exact E).
  pose proof (I_fired c _ I _ _ _ _ _ _ E') as (y2 & y1 & Y & _).
  assert (K : i1 = i2 /\ g1 = g2).
  { apply (scheds_uniq n l i1 g1 i2 g2 t ND).
    - rewrite E'. apply in_or_app. right. right. rewrite Y. apply in_or_app. right. left. auto.
    - rewrite E. apply in_or_app. right. right. rewrite X. apply in_or_app. right. left. auto. }
  destruct K as [<- <-]. apply (elt_id_neq _ _ O). reflexivity.
Qed.
(** Event 4 of a clock with period 10 is asked for at tick 10 with schedule(1), schedule(0), schedule(1), schedule(0). *)
Definition acts11 : list sact :=
  [SBase (ACmd (CSchedule 1 10 true)); SBase (ARun None true)] ++ repeat (SBase AStep) 2
  ++ [SReq true; SReq false; SReq true; SReq false] ++ repeat (SBase AStep) 30.
Example C11_once_ex : strace cex 4 10 true acts11
  = [OSched 0 (User 1) 10 2; OFire 0 (User 1) 10 2; OSched 1 (User 4) 20 2; OSched 2 (User 4) 10 2;
     OFire 2 (User 4) 10 2; OFire 1 (User 4) 20 2] /\ fair cex 4 10 true (init, scu0) acts11.
Proof.
  split; [vm_compute; reflexivity|]. cbn. repeat split; auto; try discriminate; try (exists 1; reflexivity).
Qed.
Print Assumptions C11_once_partial.

(** Every tick asked for has its call: once the tick has passed, the handler ran in it. *)
Theorem C11_served_partial : forall c n P cont acts t,
  c_uniq c n = false -> 0 < P -> fair c n P cont (init, scu0) acts ->
  In t (u_req (snd (sexec c n P cont acts))) ->
  s_ctl (fst (sexec c n P cont acts)) = Idle -> t < s_tick (fst (sexec c n P cont acts)) ->
  exists id g, In (OFire id (User n) t g) (strace c n P cont acts).
Proof.
  intros c n P cont acts t HU HP HF Hr HC Ht.
  pose proof (SI_exec c n P cont acts _ HU HP (SI_init c n P) HF) as H. fold (sexec c n P cont acts) in H.
  destruct H as [I A Hm R ND _ _]. apply R in Hr. apply scheds_in in Hr. destruct Hr as [id [g Hr]].
  apply in_split in Hr. destruct Hr as (l2 & l1 & E).
  destruct (I_complete c _ I _ _ _ _ _ _ E) as [K|[(o & K1 & K2)|[K|K]]].
  - exists id, g. unfold strace. rewrite <- in_rev. rewrite E. apply in_or_app. auto.
  - exfalso. apply (Hm o).
    + rewrite E. apply in_or_app. auto.
    + destruct K2 as [->|[->| ->]]; cbn; auto.
  - congruence.
  - exfalso. apply (pend_tick_ge c _ _ I) in K. unfold e_t in K; simpl in K. lia.
Qed.
Example C11_served_ex : let st := sexec cex 4 10 true acts11 in
  u_req (snd st) = [10; 20; 10; 20] /\ s_ctl (fst st) = Idle /\ s_tick (fst st) = 21.
Proof. vm_compute. auto. Qed.
Print Assumptions C11_served_partial.

(** The handler runs in no tick that was not asked for. *)
Theorem C11_only_requested_partial : forall c n P cont acts id t g,
  c_uniq c n = false -> 0 < P -> fair c n P cont (init, scu0) acts ->
  In (OFire id (User n) t g) (strace c n P cont acts) -> In t (u_req (snd (sexec c n P cont acts))).
Proof.
  intros c n P cont acts id t g HU HP HF Hin.
  pose proof (SI_exec c n P cont acts _ HU HP (SI_init c n P) HF) as H. fold (sexec c n P cont acts) in H.
  destruct H as [I A Hm R ND _ _]. unfold strace in Hin. rewrite <- in_rev in Hin.
  apply in_split in Hin. destruct Hin as (l2 & l1 & E). destruct (I_fired c _ I _ _ _ _ _ _ E) as (x2 & x1 & X & _).
  apply R. apply scheds_in. exists id, g. rewrite E, X. apply in_or_app. right. right. apply in_or_app. right. left. auto.
Qed.
Example C11_only_ex : In (OFire 1 (User 4) 20 2) (strace cex 4 10 true acts11).
Proof. vm_compute. auto 10. Qed.
Print Assumptions C11_only_requested_partial.

(** In tick 0, schedule(1) followed by schedule(0) loses the call in tick 0. *)
Theorem C11_tick0_refuted : exists acts,
  In 0 (u_req (snd (sexec cex 4 10 true acts))) /\ s_ctl (fst (sexec cex 4 10 true acts)) = Idle
  /\ s_tick (fst (sexec cex 4 10 true acts)) = 11
  /\ (forall id g, ~ In (OFire id (User 4) 0 g) (strace cex 4 10 true acts))
  /\ exists id g, In (OFire id (User 4) 10 g) (strace cex 4 10 true acts).
Proof.
  exists ([SReq true; SReq false; SBase (ARun None true)] ++ repeat (SBase AStep) 20).
  split; [vm_compute; auto|]. split; [vm_compute; auto|]. split; [vm_compute; auto|].
  assert (E : strace cex 4 10 true ([SReq true; SReq false; SBase (ARun None true)] ++ repeat (SBase AStep) 20)
     = [OSched 0 (User 4) 10 2; OFire 0 (User 4) 10 2]) by (vm_compute; reflexivity).
  rewrite E. split; [intros id g [C|[C|[]]]; discriminate|]. exists 0%nat, 2%nat. right. left. auto.
Qed.
Print Assumptions C11_tick0_refuted.

(** After cancel() a new request in the same cycle is ignored. *)
Theorem C11_cancel_refuted : exists acts,
  (exists b, acts = b ++ [SReq true; SBase (ACmd (CCancel 4)); SReq true] ++ repeat (SBase AStep) 20) /\
  s_ctl (fst (sexec cex 4 10 true acts)) = Idle /\ s_tick (fst (sexec cex 4 10 true acts)) = 21
  /\ (forall id t g, ~ In (OFire id (User 4) t g) (strace cex 4 10 true acts)).
Proof.
  exists (([SBase (ACmd (CSchedule 1 10 true)); SBase (ARun None true)] ++ repeat (SBase AStep) 2)
       ++ [SReq true; SBase (ACmd (CCancel 4)); SReq true] ++ repeat (SBase AStep) 20).
  split; [eexists; reflexivity|]. split; [vm_compute; auto|]. split; [vm_compute; auto|].
  match goal with |- forall id t g, ~ In _ ?tr => let v := eval vm_compute in tr in assert (E : tr = v) by (vm_compute; reflexivity) end.
  rewrite E. intros id t g C. cbn in C. repeat (destruct C as [C|C]; [discriminate|]). exact C.
Qed.
Print Assumptions C11_cancel_refuted.

(** Requests made between the edges of the event's clock, from a handler of another clock domain, can run the
    handler twice in one tick: schedule(1) at 10, then schedule(1) and schedule(0) at 15, then schedule(0) at 20. *)
Theorem C11_off_edge_refuted : exists acts i1 i2 g, i1 <> i2 /\
  In (OFire i1 (User 4) 20 g) (strace cex 4 10 true acts) /\ In (OFire i2 (User 4) 20 g) (strace cex 4 10 true acts).
Proof.
  exists ([SBase (ACmd (CSchedule 1 10 true)); SBase (ACmd (CSchedule 1 15 true)); SBase (ACmd (CSchedule 1 20 true)); SBase (ARun None true)]
       ++ repeat (SBase AStep) 2 ++ [SReq true] ++ repeat (SBase AStep) 7 ++ [SReq true; SReq false]
       ++ repeat (SBase AStep) 9 ++ [SReq false] ++ repeat (SBase AStep) 40), 3%nat, 6%nat, 2%nat.
  split; [discriminate|]. split; vm_compute; auto 20.
Qed.
Print Assumptions C11_off_edge_refuted.
