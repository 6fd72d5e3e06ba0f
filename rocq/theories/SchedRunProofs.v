(** Lemmas about handlers, bounded runs and unique events in the scheduler model. *)
From Coq Require Import List NArith Arith Bool Lia Sorted.
From Verif Require Import SchedModel SchedProofs.
Import ListNotations.
Open Scope N_scope.

Definition is_fire (o : obs) : Prop := match o with OFire _ _ _ _ => True | _ => False end.
Definition quiet (o : obs) : Prop :=
  match o with OFire _ _ _ _ | ORestart _ | OClear => False | _ => True end.

(** ** Frame facts *)
Lemma schedule_event_log : forall c s e rel cont uniq s' ok,
  schedule_event c s e rel (ev_gid c e) cont uniq = (s', ok) ->
  exists o, s_log s' = o :: s_log s /\ quiet o /\
    (o = OSched (s_next s) e (s_tick s + rel) (ev_group c e) \/ o = OAbsorb e (s_tick s + rel) \/ o = ORefuse e (s_tick s + rel)).
Proof.
  intros. apply schedule_event_cases in H.
  destruct H as [(_ & -> & _)|(_ & Hr & Hg & s1 & Hs & [(_ & -> & _)|(_ & qs & p & Hi & ->)])].
  - eexists; simpl; split; [reflexivity|]; simpl; auto.
  - exists (OAbsorb e (s_tick s + rel)). destruct Hs as [->|(f & l & ->)]; simpl; auto.
  - exists (OSched (s_next s) e (s_tick s + rel) (ev_group c e)). destruct Hs as [->|(f & l & ->)]; simpl; auto.
Qed.

Lemma schedule_event_pend : forall c s e rel cont uniq s' ok,
  Inv c s -> s_ctl s <> LoopHead -> s_ctl s <> Crashed ->
  schedule_event c s e rel (ev_gid c e) cont uniq = (s', ok) ->
  pend s' = pend s \/
  pend s' = ins (s_tick s + rel, ev_group c e, mkSlot (Some e) (s_next s)) (pend s).
Proof.
  intros c s e rel cont uniq s' ok I H1 H2 H. apply schedule_event_cases in H.
  destruct H as [(_ & -> & _)|(_ & Hr & Hg & s1 & Hs & [(_ & -> & _)|(_ & qs & p & Hi & ->)])].
  - left; reflexivity.
  - left. destruct Hs as [->|(f & l & ->)]; reflexivity.
  - right. pose proof (accept_inv c s e rel qs p I H1 H2 Hg Hr Hi) as [_ K].
    destruct Hs as [->|(f & l & ->)]; exact K.
Qed.

Lemma schedule_event_latest : forall c s e rel cont uniq s' ok,
  schedule_event c s e rel (ev_gid c e) cont uniq = (s', ok) ->
  s_latest s <= s_latest s' /\ (cont = true -> ok = true -> s_tick s + rel <= s_latest s').
Proof.
  intros c s e rel cont uniq s' ok H. unfold schedule_event in H.
  destruct ((rel =? 0) && _)%bool; [injection H as <- <-; simpl; split; [lia|discriminate]|].
  destruct (negb _); [injection H as <- <-; simpl; split; [lia|discriminate]|].
  destruct (uniq && _)%bool.
  - injection H as <- <-. destruct cont; simpl; split; intros; try discriminate; lia.
  - destruct (q_insert _ _ _ _ _ _). injection H as <- <-. destruct cont; simpl; split; intros; try discriminate; lia.
Qed.

Lemma exec_cmd_frame : forall c s k,
  s_ctl (exec_cmd c s k) = s_ctl s /\ s_tick (exec_cmd c s k) = s_tick s /\
  s_grp (exec_cmd c s k) = s_grp s /\ s_idx (exec_cmd c s k) = s_idx s /\
  (k <> CStop -> s_running (exec_cmd c s k) = s_running s) /\
  (s_running s = false -> s_running (exec_cmd c s k) = false) /\
  s_latest s <= s_latest (exec_cmd c s k) /\
  s_last (exec_cmd c s k) = s_last s /\
  exists new, s_log (exec_cmd c s k) = new ++ s_log s /\ Forall quiet new.
Proof.
  intros c s k. destruct k; simpl.
  - unfold schedule_user. destruct (_ && _)%bool.
    + simpl. do 8 (split; [first [reflexivity | lia | congruence | intros; first [lia|congruence]]|]). exists [ORefuse (User n) (s_tick s + rel)]. simpl. split; [first [reflexivity|assumption]|repeat (constructor; auto)].
+  destruct (schedule_event c s (User n) rel (c_gid c n) cont (c_uniq c n)) as [s1 ok] eqn:E. simpl.
      pose proof (schedule_event_frame c s (User n) _ _ _ _ _ E) as (F1 & F2 & F3 & F4 & F5 & F6 & F7 & F8 & F9).
      pose proof (schedule_event_latest c s (User n) _ _ _ _ _ E) as (L1 & _).
      pose proof (schedule_event_log c s (User n) _ _ _ _ _ E) as (o & Ho & Hq & _).
      do 8 (split; [first [reflexivity | lia | congruence | intros; first [lia|congruence]]|]). exists [o]. simpl. split; [first [reflexivity|assumption]|repeat (constructor; auto)].
- do 8 (split; [first [reflexivity | lia | congruence | intros; first [lia|congruence]]|]). exists [OCancel (User n)]. simpl. split; [first [reflexivity|assumption]|repeat (constructor; auto)].
- do 8 (split; [first [reflexivity | lia | congruence | intros; first [lia|congruence]]|]). exists [OCancelAt (User n) (s_tick s + rel)]. simpl. split; [first [reflexivity|assumption]|repeat (constructor; auto)].
- do 8 (split; [first [reflexivity | lia | congruence | intros; first [lia|congruence]]|]). exists []. auto.
  - do 8 (split; [first [reflexivity | lia | congruence | intros; first [lia|congruence]]|]). exists []. auto.
  - do 8 (split; [first [reflexivity | lia | congruence | intros; first [lia|congruence]]|]). exists [OCancel (User n)]. simpl. split; [first [reflexivity|assumption]|repeat (constructor; auto)].
Qed.

Lemma centry_other : forall c e P x, sl_ev (e_s x) <> Some e -> centry c e P x = x.
Proof.
  intros. unfold centry. destruct (_ && _)%bool; auto. unfold csl. destruct x as [k sl]; simpl in *.
  destruct (sl_ev sl) eqn:E; auto. destruct (ev_eqb e0 e) eqn:E1; auto. apply ev_eqb_eq in E1. subst.
  unfold e_s in H. simpl in H. congruence.
Qed.

Lemma centry_in_other : forall c e P l x e', e' <> e -> sl_ev (e_s x) = Some e' ->
  (In x (map (centry c e P) l) <-> In x l).
Proof.
  intros c e P l x e' Hne Hx. rewrite in_map_iff. split.
  - intros (y & Hy & Hin). destruct (centry_some c e P y e') as (K & _); [congruence|]. congruence.
  - intros H. exists x. split; auto. apply centry_other. congruence.
Qed.

(** Occurrences of the stop event are not touched by user commands. *)
Lemma exec_cmd_pend_stop : forall c s k x, Inv c s -> s_ctl s <> LoopHead -> s_ctl s <> Crashed ->
  sl_ev (e_s x) = Some Stop -> (In x (pend (exec_cmd c s k)) <-> In x (pend s)).
Proof.
  intros c s k x I H1 H2 Hx. destruct k; simpl; try tauto.
  - unfold schedule_user. destruct (_ && _)%bool; [simpl; tauto|].
    destruct (schedule_event c s (User n) rel (c_gid c n) cont (c_uniq c n)) as [s1 ok] eqn:E. simpl.
    destruct (schedule_event_pend c s (User n) _ _ _ _ _ I H1 H2 E) as [->| ->]; [tauto|].
    rewrite ins_In. split; auto. intros [->|]; auto. discriminate.
  - destruct (cancel_event_inv c s (User n) I) as [_ ->]. eapply centry_in_other; eauto. discriminate.
  - destruct (cancel_event_at_inv c s (User n) rel I) as [_ ->]. eapply centry_in_other; eauto. discriminate.
  - unfold cancel_async.
    destruct (cancel_event_inv c (set_async s (filter (fun a => negb (Nat.eqb (fst (fst a)) n)) (s_async s))) (User n)) as [_ ->].
    + apply set_async_inv; auto.
    + rewrite centry_in_other; eauto; [|discriminate]. reflexivity.
Qed.

(** Draining the asynchronous list only adds user occurrences. *)
Lemma drain_frame : forall c l s s', Inv c s -> s_ctl s = Scan -> drain c s l = Some s' ->
  s_tick s' = s_tick s /\ s_running s' = s_running s /\ s_grp s' = s_grp s /\ s_latest s <= s_latest s' /\
  s_last s' = s_last s /\
  (forall x, sl_ev (e_s x) = Some Stop -> (In x (pend s') <-> In x (pend s))) /\
  exists new, s_log s' = new ++ s_log s /\ Forall quiet new.
Proof.
  induction l as [|[[n rel] cont] r IH]; simpl; intros s s' I HC H.
  - injection H as <-. simpl. split; auto. split; auto. split; auto. split; [lia|]. split; auto. split; [tauto|].
    exists []. auto.
  - destruct (schedule_event c s (User n) rel (c_gid c n) cont false) as [s1 ok] eqn:ES.
    destruct ok; [|discriminate].
    pose proof (schedule_event_inv c s (User n) rel cont false s1 true I ltac:(congruence) ltac:(congruence) ES) as I1.
    pose proof (schedule_event_frame c s (User n) _ _ _ _ _ ES) as (F1 & F2 & F3 & F4 & F5 & F6 & F7 & F8 & F9).
    pose proof (schedule_event_latest c s (User n) _ _ _ _ _ ES) as (L1 & _).
    pose proof (schedule_event_log c s (User n) _ _ _ _ _ ES) as (o & Ho & Hq & _).
    destruct (IH s1 s' I1 ltac:(congruence) H) as (G1 & G2 & G3 & G4 & G5 & G6 & new & Hn & Hnq).
    split; [congruence|]. split; [congruence|]. split; [congruence|]. split; [lia|]. split; [congruence|]. split.
    + intros x Hx. rewrite (G6 x Hx).
      destruct (schedule_event_pend c s (User n) _ _ _ _ _ I ltac:(congruence) ltac:(congruence) ES) as [->| ->]; [tauto|].
      rewrite ins_In. split; auto. intros [->|]; auto. discriminate.
    + exists (new ++ [o]). rewrite Hn, Ho, <- app_assoc. split; auto. apply Forall_app. auto.
Qed.

(** ** The event being handled is the last one recorded *)
Definition handling (s : sched) : Prop :=
  s_ctl s = Handler -> exists new id e l, s_log s = new ++ OFire id e (s_tick s) (s_grp s) :: l /\ Forall quiet new.

Lemma step_handling : forall c s a, Inv c s -> handling s -> handling (step c s a).
Proof.
  intros c s a I H. unfold step. destruct a; destruct (s_ctl s) eqn:HC; auto.
  - intros K. rewrite exec_cmd_ctl in K. congruence.
  - intros K. destruct (H HC) as (new & id & e & l & HL & HQ).
    destruct (exec_cmd_frame c s k) as (F1 & F2 & F3 & _ & _ & _ & _ & _ & new2 & HL2 & HQ2).
    exists (new2 ++ new), id, e, l. rewrite HL2, HL, F2, F3, <- app_assoc. split; auto. apply Forall_app; auto.
  - intros K. exfalso. revert K. unfold run_begin. destruct num as [[|n]|]; simpl; try congruence.
    destruct (match s_queue s with [] => true | _ :: _ => _ end).
    + destruct exact; simpl; congruence.
    + simpl. congruence.
  - intros K. simpl in K. congruence.
  - intros K. simpl in K. congruence.
  - intros K. exfalso. revert K. unfold tick_begin. destruct (s_running s); [|simpl; congruence].
    destruct (s_queue s) as [|q rest] eqn:EQ; [simpl; congruence|].
    destruct (drain c _ _) eqn:ED; [|simpl; congruence].
    assert (HD : forall l s s', s_ctl s = Scan -> drain c s l = Some s' -> s_ctl s' = Scan).
    { clear. induction l as [|[[n rel] cont] r IH]; simpl; intros s s' HC H.
      - injection H as <-. auto.
      - destruct (schedule_event c s (User n) rel (c_gid c n) cont false) as [s1 ok] eqn:ES.
        destruct ok; [|discriminate]. apply (IH s1); auto.
        pose proof (schedule_event_frame c s (User n) _ _ _ _ _ ES) as (F1 & _). congruence. }
    apply HD in ED; [|reflexivity]. rewrite ED. congruence.
  - unfold scan. destruct (s_queue s) as [|q rest] eqn:EQ; [intros K; simpl in K; congruence|].
    destruct (Nat.ltb _ _).
    + destruct (nth_error _ _) as [sl|]; [|intros K; simpl in K; congruence].
      destruct (sl_ev sl) as [[|n]|]; try (intros K; simpl in K; congruence).
      intros _. exists [], (sl_id sl), (User n), (s_log s). simpl. auto.
    + intros K. exfalso. revert K. unfold tick_end. rewrite EQ. destruct rest; simpl; try congruence.
      destruct (s_latest s <? q_tick q0); simpl; congruence.
  - intros K. simpl in K. congruence.
Qed.

Lemma exec_handling : forall c l s, Inv c s -> handling s -> handling (exec c s l).
Proof.
  induction l; simpl; intros; auto. apply IHl; [apply step_inv; auto|apply step_handling; auto].
Qed.
Lemma reach_handling : forall c l, handling (exec c init l).
Proof. intros. apply exec_handling; [apply init_inv|]. intros H. discriminate. Qed.

(** ** One call of run *)
Inductive run_to (c : cfg) : sched -> list action -> sched -> Prop :=
| run_done : forall s, s_ctl s = Idle -> run_to c s [] s
| run_step : forall s a l s', s_ctl s <> Idle -> run_to c (step c s a) l s' -> run_to c s (a :: l) s'.

Definition fires_in (lo hi : N) (l : list obs) : Prop :=
  forall id e t g, In (OFire id e t g) l -> lo <= t <= hi.

Lemma quiet_fires : forall lo hi l, Forall quiet l -> fires_in lo hi l.
Proof. intros lo hi l H id e t g K. rewrite Forall_forall in H. apply H in K. easy. Qed.
Lemma fires_app : forall lo hi a b, fires_in lo hi a -> fires_in lo hi b -> fires_in lo hi (a ++ b).
Proof. unfold fires_in. intros. apply in_app_iff in H1. destruct H1; eauto. Qed.

(** The window invariant: run ends no later than after tick [T]. *)
Definition stop_at (T : N) (s : sched) : Prop :=
  exists x, In x (pend s) /\ sl_ev (e_s x) = Some Stop /\ e_t x = T.

Record Win (c : cfg) (lo T : N) (l0 : list obs) (s : sched) : Prop := {
  W_inv : Inv c s;
  W_lo : lo <= s_tick s;
  W_hi : match s_ctl s with Idle => s_tick s <= T + 1 | _ => s_tick s <= T end;
  W_stop : s_ctl s <> Idle -> s_running s = false \/ stop_at T s;
  W_log : exists new, s_log s = new ++ l0 /\ fires_in lo T new
}.

Lemma pend_tick_ge : forall c s x, Inv c s -> In x (pend s) -> s_tick s <= e_t x.
Proof.
  intros c s x I H. unfold pend in H. apply skipn_In in H. apply flat_In in H.
  destruct H as (q & Hq & <- & _). pose proof (I_ge c s I) as K. rewrite Forall_forall in K. auto.
Qed.

Lemma head_le : forall c s q rest x, Inv c s -> s_queue s = q :: rest -> In x (pend s) -> q_tick q <= e_t x.
Proof.
  intros c s q rest x I E H. unfold pend in H. apply skipn_In in H. apply flat_In in H.
  destruct H as (q' & Hq & <- & _). pose proof (I_sorted c s I) as K. rewrite E in K, Hq. inversion K; subst.
  destruct Hq as [<-|Hq]; [lia|]. rewrite Forall_forall in H2. apply H2 in Hq. unfold qlt in Hq. lia.
Qed.

Lemma tick_end_pend : forall c s, Inv c s -> s_ctl s = Scan -> (group_count c <= s_grp s)%nat ->
  forall q rest, s_queue s = q :: rest -> pend s = flat rest /\ q_tick q = s_tick s.
Proof.
  intros c s I HC HG q rest EQ.
  pose proof (I_ctl c s I) as K. unfold ctl_ok in K. rewrite HC in K.
  destruct K as (q' & rest' & E & Et & Hgs & Hle). rewrite EQ in E. injection E as <- <-.
  assert (GQ : gvalid c q) by (pose proof (I_q c s I) as K; rewrite EQ in K; inversion K; auto).
  destruct GQ as [GL _].
  assert (HE : forall j, nth j (q_groups q) [] = []).
  { intros. destruct (Nat.ltb_spec j (s_grp s)); auto. apply nth_overflow. lia. }
  rewrite HE in Hle. simpl in Hle. split; auto.
  unfold pend, done. rewrite HC, EQ. replace (s_idx s) with 0%nat by lia. simpl. rewrite fg_empty; auto.
Qed.

Lemma Win_step : forall c lo T l0 s a, Win c lo T l0 s -> s_ctl s <> Idle -> Win c lo T l0 (step c s a).
Proof.
  intros c lo T l0 s a [I HL HH HS (new & HN & HF)] HNI.
  assert (I' : Inv c (step c s a)) by (apply step_inv; auto).
  unfold step in *. destruct a; destruct (s_ctl s) eqn:HC; try congruence;
    try (constructor; auto; rewrite ?HC; auto; try (intros; congruence); eauto; fail).
  - (* command in a handler *)
    destruct (exec_cmd_frame c s k) as (F1 & F2 & F3 & F4 & F5 & F6 & F7 & F8 & new2 & HL2 & HQ2).
    constructor; auto.
    + rewrite F2; auto.
    + rewrite F1, HC, F2. auto.
    + intros _. destruct (HS HNI) as [H|(x & Hx & Hx1 & Hx2)]; auto.
      right. exists x. split; [|auto]. apply exec_cmd_pend_stop; auto; congruence.
    + exists (new2 ++ new). rewrite HL2, HN, <- app_assoc. split; auto. apply fires_app; auto using quiet_fires.
  - (* tick_begin *)
    unfold tick_begin in *. destruct (s_running s) eqn:ER.
    2:{ constructor; auto; simpl; try (eauto; fail); try lia; try (intros K; congruence). }
    destruct (HS HNI) as [H|(x & Hx & Hx1 & Hx2)]; [congruence|].
    destruct (s_queue s) as [|q rest] eqn:EQ.
    { exfalso. unfold pend, flat in Hx. rewrite EQ in Hx. apply skipn_In in Hx. easy. }
    pose proof (head_le c s q rest x I EQ Hx) as Hhd.
    set (gf := match q_first q with Some f => f | None => group_count c end) in *.
    set (s1 := set_pos (set_time s (q_tick q) (s_elapsed s + absdiff (q_tick q) (s_elapsed s))) gf 0 Scan) in *.
    assert (Htq : s_tick s <= q_tick q).
    { pose proof (I_ge c s I) as K. rewrite EQ in K. inversion K; auto. }
    assert (Hp1 : pend s1 = pend s) by (unfold pend, done; rewrite HC; reflexivity).
    assert (I1 : Inv c s1).
    { pose proof (tick_begin_inv c s I HC) as K. unfold tick_begin in K. rewrite ER, EQ in K. fold gf in K. fold s1 in K.
      change (s_async (set_pos (set_time s (q_tick q) (s_elapsed s + absdiff (q_tick q) (s_elapsed s))) gf 0 Scan)) with (s_async s1) in K.
      apply (reposition_inv c s); auto.
      - unfold ctl_ok; simpl. exists q, rest. split; auto. split; auto. split; [|lia].
        intros g Hg. pose proof (I_q c s I) as GQ. rewrite EQ in GQ. inversion GQ as [|? ? GQ1 _]; subst.
        apply GQ1. unfold gf in Hg. destruct (q_first q); auto.
      - simpl. rewrite EQ. pose proof (I_sorted c s I) as SS. rewrite EQ in SS. inversion SS; subst.
        constructor; [lia|]. eapply Forall_impl; [|eassumption]. unfold qlt; simpl; intros; lia.
      - intros H; rewrite HC in H; discriminate.
      - unfold fired_key_ok. rewrite HC. simpl. intros t g [_ H]. rewrite EQ in H. inversion H; subst. auto. }
    change (s_async (set_pos (set_time s (q_tick q) (s_elapsed s + absdiff (q_tick q) (s_elapsed s))) gf 0 Scan)) with (s_async s1) in *.
    destruct (drain c s1 (s_async s1)) as [s2|] eqn:ED.
    + destruct (drain_frame c _ s1 s2 I1 eq_refl ED) as (F1 & F2 & F3 & F4 & F5 & F6 & new2 & HL2 & HQ2).
      destruct (drain_inv c _ s1 s2 I1 eq_refl ED) as [_ FC].
      constructor; auto.
      * rewrite F1. simpl. lia.
      * rewrite FC, F1. simpl. lia.
      * intros _. right. exists x. split; auto. apply F6; auto. rewrite Hp1. auto.
      * exists (new2 ++ new). rewrite HL2. simpl. rewrite HN, <- app_assoc. split; auto. apply fires_app; auto using quiet_fires.
    + constructor; auto; simpl; try lia; eauto.
      intros _. right. exists x. split; auto. rewrite <- Hp1 in Hx. exact Hx.
  - (* scan *)
    unfold scan in *. destruct (s_queue s) as [|q rest] eqn:EQ.
    { exfalso. pose proof (I_ctl c s I) as K. unfold ctl_ok in K. rewrite HC in K. destruct K as (? & ? & E & _). congruence. }
    destruct (Nat.ltb_spec (s_grp s) (group_count c)) as [HG|HG].
    + destruct (nth_error (nth (s_grp s) (q_groups q) []) (s_idx s)) as [sl|] eqn:EN.
      * destruct (sl_ev sl) as [[|n]|] eqn:EE.
        -- constructor; auto; simpl; auto.
           exists (OFire (sl_id sl) Stop (s_tick s) (s_grp s) :: new). rewrite HN. split; auto.
           intros id e t g [H|H]; [|eauto]. injection H as <- <- <- <-. lia.
        -- match goal with |- Win _ _ _ _ ?s' => assert (Hp : pend s = (s_tick s, s_grp s, sl) :: pend s') by
             (eapply (fire_inv c s s' sl (User n) q rest); eauto) end.
           constructor; auto; simpl; auto.
           ++ intros _. destruct (HS HNI) as [H|(x & Hx & Hx1 & Hx2)]; auto. right. exists x. split; auto.
              rewrite Hp in Hx. destruct Hx as [<-|Hx]; auto. simpl in Hx1. congruence.
           ++ exists (OFire (sl_id sl) (User n) (s_tick s) (s_grp s) :: new). rewrite HN. split; auto.
              intros id e t g [H|H]; [|eauto]. injection H as <- <- <- <-. lia.
        -- destruct (skip_inv c s sl q rest I HC EQ HG EN EE) as [_ Hp].
           constructor; auto; simpl; eauto.
           intros _. destruct (HS HNI) as [H|(x & Hx & Hx1 & Hx2)]; auto. right. exists x. split; auto.
           rewrite Hp in Hx. destruct Hx as [<-|Hx]; auto. simpl in Hx1. congruence.
      * destruct (next_group_inv c s q rest I HC EQ HG EN) as [_ Hp].
        constructor; auto; simpl; eauto.
        intros _. destruct (HS HNI) as [H|(x & Hx & Hx1 & Hx2)]; auto. right. exists x. split; auto.
        rewrite Hp. auto.
    + destruct (tick_end_pend c s I HC HG q rest EQ) as [Hp Ht].
      unfold tick_end in *. rewrite EQ in *. destruct rest as [|n rr].
      * constructor; auto; simpl; try (eauto; fail); try lia; try (intros K; congruence).
      * destruct (s_latest (set_queue s (n :: rr) (s_pool s ++ [q_first q])) <? q_tick n).
        -- constructor; auto; simpl; try (eauto; fail); try lia; try (intros K; congruence).
        -- constructor; auto; simpl; try (eauto; fail); try lia.
           intros _. destruct (HS HNI) as [H|(x & Hx & Hx1 & Hx2)]; auto. right. exists x. split; auto.
           unfold pend, done. simpl. rewrite Hp in Hx. exact Hx.
  - (* end of handler *)
    constructor; auto; simpl; eauto.
    intros _. destruct (HS HNI) as [H|(x & Hx & Hx1 & Hx2)]; auto. right. exists x. split; auto.
    unfold pend, done in *. rewrite HC in Hx. exact Hx.
Qed.

Lemma Win_run : forall c lo T l0 s acts s', run_to c s acts s' -> Win c lo T l0 s -> Win c lo T l0 s'.
Proof. induction 1; intros; auto. apply IHrun_to. apply Win_step; auto. Qed.

Lemma group_zero_lt : forall c, (ev_group c Stop < group_count c)%nat.
Proof. intros. unfold ev_group, firing_group, group_zero, group_count; simpl. lia. Qed.

(** Facts about the stop request of a finite run. *)
Lemma run_begin_cases : forall c s n ex, Inv c s -> s_ctl s = Idle -> 0 < n ->
  let s1 := run_begin c s (Some n) ex in
  (s_ctl s1 = Idle /\ s_log s1 = s_log s /\ pend s1 = pend s /\
   s_tick s1 = (if ex then s_tick s + n else s_tick s) /\
   Forall (fun q => s_tick s + n < q_tick q) (s_queue s)) \/
  (s_ctl s1 = LoopHead /\ s_running s1 = true /\ s_tick s1 = s_tick s /\
   (exists o, s_log s1 = o :: s_log s /\ quiet o) /\
   pend s1 = ins (s_tick s + (n - 1), ev_group c Stop, mkSlot (Some Stop) (s_next s)) (pend s) /\
   (ex = true -> s_tick s + (n - 1) <= s_latest s1)).
Proof.
  intros c s n ex I HC Hn s1. unfold s1, run_begin.
  destruct n as [|n']; [lia|]. remember (N.pos n') as n eqn:En.
  set (s0 := set_running (set_first s false) (match s_queue (set_first s false) with [] => false | _ :: _ => true end)).
  assert (I0 : Inv c s0).
  { unfold s0. apply set_running_inv; [apply set_first_inv; auto|]. simpl. congruence. }
  destruct (match s_queue s0 with [] => true | q :: _ => s_tick s0 + n <? q_tick q end) eqn:EF.
  - left. destruct ex; simpl; split; auto; split; auto; split; auto; split; auto;
      simpl in EF; destruct (s_queue s) eqn:EQ; try constructor; try (apply N.ltb_lt in EF; auto);
      pose proof (I_sorted c s I) as SS; rewrite EQ in SS; inversion SS; subst;
      (eapply Forall_impl; [|eassumption]; unfold qlt; simpl; intros; lia).
  - right. destruct (schedule_event c s0 Stop (n - 1) 0 ex false) as [s2 ok] eqn:ES. simpl.
    change 0%nat with (ev_gid c Stop) in ES.
    pose proof (schedule_event_frame c s0 Stop _ _ _ _ _ ES) as (F1 & F2 & F3 & F4 & F5 & _).
    pose proof (schedule_event_latest c s0 Stop _ _ _ _ _ ES) as (L1 & L2).
    pose proof (schedule_event_log c s0 Stop _ _ _ _ _ ES) as (o & Ho & Hq & _).
    pose proof (schedule_event_cases c s0 Stop _ _ _ _ _ ES) as CC.
    assert (HG0 : s_grp s = 0%nat) by (pose proof (I_ctl c s I) as K; unfold ctl_ok in K; rewrite HC in K; auto).
    destruct CC as [(_ & _ & CC)|(Hok & Hr & Hg & sx & Hs & [(Hu & _)|(_ & qs & p & Hi & ->)])].
    + exfalso. simpl in CC. rewrite HG0 in CC. pose proof (group_zero_lt c). lia.
    + discriminate.
    + split; auto. split.
      { rewrite F5. simpl. simpl in EF. destruct (s_queue s); [discriminate|auto]. }
      split; [rewrite F2; auto|]. split; [exists o; split; auto|].
      split; [|intros; apply L2; auto].
      pose proof (accept_inv c s0 Stop (n-1) qs p I0 ltac:(simpl; congruence) ltac:(simpl; congruence) Hg Hr Hi) as [_ K].
      assert (K2 : pend s2 = ins (s_tick s + (n - 1), ev_group c Stop, mkSlot (Some Stop) (s_next s)) (pend s)).
      { destruct Hs as [->|(f & l & ->)]; exact K. }
      rewrite <- K2. unfold pend, done. rewrite F1. simpl. rewrite HC. reflexivity.
Qed.

Lemma window : forall c s n ex racts s', Inv c s -> s_ctl s = Idle -> 0 < n ->
  run_to c (run_begin c s (Some n) ex) racts s' ->
  s_tick s <= s_tick s' <= s_tick s + n /\
  exists new, s_log s' = new ++ s_log s /\ fires_in (s_tick s) (s_tick s + n - 1) new.
Proof.
  intros c s n ex racts s' I HC Hn HR.
  assert (I1 : Inv c (run_begin c s (Some n) ex)) by (apply run_begin_inv; auto).
  pose proof (run_begin_cases c s n ex I HC Hn) as CC. cbv zeta in CC.
  destruct CC as [(C1 & C2 & C3 & C4 & C5)|(C1 & C2 & C3 & (o & C4 & C5) & C6 & C7)].
  - assert (s' = run_begin c s (Some n) ex) by (inversion HR; subst; congruence).
    subst s'. rewrite C4, C2. split; [destruct ex; lia|]. exists []. split; auto. easy.
  - assert (W : Win c (s_tick s) (s_tick s + n - 1) (s_log s) s').
    { eapply Win_run; [exact HR|]. constructor; auto.
      - rewrite C3. lia.
      - rewrite C1, C3. lia.
      - intros _. right. exists (s_tick s + (n - 1), ev_group c Stop, mkSlot (Some Stop) (s_next s)).
        rewrite C6. split; [apply ins_In; auto|]. split; auto. unfold e_t; simpl. lia.
      - exists [o]. split; auto. apply quiet_fires. auto. }
    assert (HI : s_ctl s' = Idle) by (clear -HR; induction HR; auto).
    destruct W. rewrite HI in *. split; [lia|auto].
Qed.

(** The exact invariant. *)
Record Exact (c : cfg) (T : N) (s : sched) : Prop := {
  E_inv : Inv c s;
  E_main :
    match s_ctl s with
    | Idle => s_tick s = T + 1
    | Crashed => True
    | _ => (s_running s = false /\ s_tick s = T) \/
           (s_running s = true /\ stop_at T s /\ T <= s_latest s /\
            forall x, In x (pend s) -> sl_ev (e_s x) = Some Stop -> e_t x = T)
    end
}.

Lemma Exact_step : forall c T s a, Exact c T s -> s_ctl s <> Idle -> a <> ACmd CStop -> Exact c T (step c s a).
Proof.
  intros c T s a [I HM] HNI HNS.
  assert (I' : Inv c (step c s a)) by (apply step_inv; auto).
  constructor; auto. unfold step in *. destruct a; destruct (s_ctl s) eqn:HC; try congruence;
    try (rewrite ?HC; auto; fail).
  - (* command *)
    destruct (exec_cmd_frame c s k) as (F1 & F2 & F3 & F4 & F5 & F6 & F7 & F8 & _).
    rewrite F1, HC, F2. rewrite F5 by congruence. destruct HM as [H|(H1 & (x & Hx & Hx1 & Hx2) & H3 & H4)]; auto.
    right. split; auto. split.
    { exists x. split; auto. apply exec_cmd_pend_stop; auto; congruence. }
    split; [lia|]. intros y Hy Hy1. apply H4; auto. apply (exec_cmd_pend_stop c s k y); auto; congruence.
  - (* tick_begin *)
    unfold tick_begin in *. destruct (s_running s) eqn:ER.
    2:{ simpl. destruct HM as [[_ H]|[H _]]; [lia|discriminate]. }
    destruct HM as [[H _]|(H1 & (x & Hx & Hx1 & Hx2) & H3 & H4)]; [discriminate|].
    destruct (s_queue s) as [|q rest] eqn:EQ.
    { exact Logic.I. }
    set (gf := match q_first q with Some f => f | None => group_count c end) in *.
    set (s1 := set_pos (set_time s (q_tick q) (s_elapsed s + absdiff (q_tick q) (s_elapsed s))) gf 0 Scan) in *.
    assert (Hp1 : pend s1 = pend s) by (unfold pend, done; rewrite HC; reflexivity).
    assert (I1 : Inv c s1).
    { apply (reposition_inv c s); auto.
      - unfold ctl_ok; simpl. exists q, rest. split; auto. split; auto. split; [|lia].
        intros g Hg. pose proof (I_q c s I) as GQ. rewrite EQ in GQ. inversion GQ as [|? ? GQ1 _]; subst.
        apply GQ1. unfold gf in Hg. destruct (q_first q); auto.
      - simpl. rewrite EQ. pose proof (I_sorted c s I) as SS. rewrite EQ in SS. inversion SS; subst.
        constructor; [lia|]. eapply Forall_impl; [|eassumption]. unfold qlt; simpl; intros; lia.
      - intros H; rewrite HC in H; discriminate.
      - unfold fired_key_ok. rewrite HC. simpl. intros t g [_ H]. rewrite EQ in H. inversion H; subst. auto. }
    change (s_async (set_pos (set_time s (q_tick q) (s_elapsed s + absdiff (q_tick q) (s_elapsed s))) gf 0 Scan)) with (s_async s1) in *.
    destruct (drain c s1 (s_async s1)) as [s2|] eqn:ED; [|exact Logic.I].
    destruct (drain_frame c _ s1 s2 I1 eq_refl ED) as (F1 & F2 & F3 & F4 & F5 & F6 & _).
    destruct (drain_inv c _ s1 s2 I1 eq_refl ED) as [_ FC].
    rewrite FC. right. rewrite F2. split; [simpl; auto|]. split.
    { exists x. split; auto. apply F6; auto. rewrite Hp1. auto. }
    split; [simpl in F4; lia|]. intros y Hy Hy1. apply H4; auto. rewrite <- Hp1. apply F6; auto.
  - (* scan *)
    unfold scan in *. destruct (s_queue s) as [|q rest] eqn:EQ.
    { exact Logic.I. }
    destruct (Nat.ltb_spec (s_grp s) (group_count c)) as [HG|HG].
    + destruct (nth_error (nth (s_grp s) (q_groups q) []) (s_idx s)) as [sl|] eqn:EN.
      * destruct (sl_ev sl) as [[|n]|] eqn:EE.
        -- simpl. left. split; auto. destruct HM as [[_ H]|(H1 & _ & H3 & H4)]; auto.
           pose proof (scan_head c s q rest sl I HC EQ HG EN) as Hp.
           apply (H4 (s_tick s, s_grp s, sl)); auto. rewrite Hp. left; auto.
        -- match goal with |- context[s_ctl ?s'] => assert (Hp : pend s = (s_tick s, s_grp s, sl) :: pend s') by
             (eapply (fire_inv c s s' sl (User n) q rest); eauto) end.
           simpl. destruct HM as [H|(H1 & (x & Hx & Hx1 & Hx2) & H3 & H4)]; auto.
           right. split; auto. rewrite Hp in Hx, H4. split.
           { exists x. split; auto. destruct Hx as [<-|Hx]; auto. simpl in Hx1. congruence. }
           split; auto. intros y Hy Hy1. apply H4; auto. right; auto.
        -- destruct (skip_inv c s sl q rest I HC EQ HG EN EE) as [_ Hp].
           simpl. destruct HM as [H|(H1 & (x & Hx & Hx1 & Hx2) & H3 & H4)]; auto.
           right. split; auto. rewrite Hp in Hx, H4. split.
           { exists x. split; auto. destruct Hx as [<-|Hx]; auto. simpl in Hx1. congruence. }
           split; auto. intros y Hy Hy1. apply H4; auto. right; auto.
      * destruct (next_group_inv c s q rest I HC EQ HG EN) as [_ Hp].
        simpl. destruct HM as [H|(H1 & (x & Hx & Hx1 & Hx2) & H3 & H4)]; auto.
        right. split; auto. split.
        { exists x. split; auto. rewrite Hp. auto. }
        split; auto. rewrite Hp. auto.
    + destruct (tick_end_pend c s I HC HG q rest EQ) as [Hp Ht].
      unfold tick_end in *. rewrite EQ in *.
      destruct HM as [[H1 H2]|(H1 & (x & Hx & Hx1 & Hx2) & H3 & H4)].
      * destruct rest as [|n rr]; [simpl; lia|].
        destruct (s_latest (set_queue s (n :: rr) (s_pool s ++ [q_first q])) <? q_tick n); simpl; auto. lia.
      * rewrite Hp in Hx, H4. destruct rest as [|n rr]; [easy|].
        assert (HT : q_tick n <= T).
        { apply flat_In in Hx. destruct Hx as (q' & Hq' & Hq1 & _). rewrite <- Hx2, <- Hq1.
          pose proof (I_sorted c s I) as SS. rewrite EQ in SS. inversion SS as [|? ? SS1 SS2]; subst.
          inversion SS1; subst. destruct Hq' as [<-|Hq']; [lia|]. rewrite Forall_forall in H5. apply H5 in Hq'.
          unfold qlt in Hq'. lia. }
        replace (s_latest (set_queue s (n :: rr) (s_pool s ++ [q_first q])) <? q_tick n) with false.
        2:{ symmetry. apply N.ltb_ge. simpl. lia. }
        simpl. right. split; auto. split; [|split; auto].
        exists x. split; auto.
  - (* end of handler *)
    simpl. destruct HM as [H|(H1 & (x & Hx & Hx1 & Hx2) & H3 & H4)]; auto.
    right. split; auto. unfold stop_at. unfold pend, done in *. rewrite HC in *. simpl. split; eauto.
Qed.

Lemma Exact_run : forall c T s acts s', run_to c s acts s' -> ~ In (ACmd CStop) acts -> Exact c T s -> Exact c T s'.
Proof.
  induction 1; intros; auto. apply IHrun_to.
  - intros K. apply H1. right; auto.
  - apply Exact_step; auto. intros ->. apply H1. left; auto.
Qed.

Lemma exact_run : forall c s n racts s', Inv c s -> s_ctl s = Idle -> 0 < n ->
  (forall x, In x (pend s) -> sl_ev (e_s x) <> Some Stop) ->
  ~ In (ACmd CStop) racts ->
  run_to c (run_begin c s (Some n) true) racts s' -> s_tick s' = s_tick s + n.
Proof.
  intros c s n racts s' I HC Hn HNS HNC HR.
  assert (I1 : Inv c (run_begin c s (Some n) true)) by (apply run_begin_inv; auto).
  pose proof (run_begin_cases c s n true I HC Hn) as CC. cbv zeta in CC.
  destruct CC as [(C1 & C2 & C3 & C4 & C5)|(C1 & C2 & C3 & (o & C4 & C5) & C6 & C7)].
  - assert (s' = run_begin c s (Some n) true) by (inversion HR; subst; congruence).
    subst s'. auto.
  - assert (E : Exact c (s_tick s + n - 1) s').
    { eapply Exact_run; [exact HR|auto|]. constructor; auto. rewrite C1. right. split; auto. split; [|split].
      - exists (s_tick s + (n - 1), ev_group c Stop, mkSlot (Some Stop) (s_next s)).
        rewrite C6. split; [apply ins_In; auto|]. split; auto. unfold e_t; simpl. lia.
      - specialize (C7 eq_refl). lia.
      - intros x Hx Hx1. rewrite C6 in Hx. apply ins_In in Hx. destruct Hx as [->|Hx].
        + unfold e_t; simpl. lia.
        + exfalso. eapply HNS; eauto. }
    assert (HI : s_ctl s' = Idle) by (clear -HR; induction HR; auto).
    destruct E as [_ E]. rewrite HI in E. lia.
Qed.
