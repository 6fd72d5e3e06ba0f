(** Lemmas about queries and unique events in the scheduler model. *)
From Coq Require Import List NArith Arith Bool Lia Sorted.
From Verif Require Import SchedModel SchedProofs SchedRunProofs.
Import ListNotations.
Open Scope N_scope.

Lemma has_ev_spec : forall grp e, has_ev grp e = true <-> exists sl, In sl grp /\ sl_ev sl = Some e.
Proof.
  intros. unfold has_ev. rewrite existsb_exists. split.
  - intros (sl & H & K). exists sl. split; auto. destruct (sl_ev sl); [|discriminate].
    apply ev_eqb_eq in K. congruence.
  - intros (sl & H & K). exists sl. split; auto. rewrite K. apply ev_eqb_eq. auto.
Qed.

Lemma q_find_some : forall t qs q, q_find qs t = Some q -> In q qs /\ q_tick q = t.
Proof.
  induction qs; simpl; intros; [discriminate|].
  destruct (q_tick a =? t) eqn:E; [injection H as <-; apply N.eqb_eq in E; auto|].
  destruct (t <? q_tick a); [discriminate|]. apply IHqs in H. tauto.
Qed.
Lemma q_find_in : forall t qs q, StronglySorted qlt qs -> In q qs -> q_tick q = t -> q_find qs t = Some q.
Proof.
  induction qs; simpl; intros; [easy|]. inversion H; subst. rewrite Forall_forall in H5.
  destruct H0 as [->|H0].
  - rewrite N.eqb_refl. auto.
  - apply H5 in H0 as K. unfold qlt in K.
    replace (q_tick a =? q_tick q) with false by (symmetry; apply N.eqb_neq; lia).
    replace (q_tick q <? q_tick a) with false by (symmetry; apply N.ltb_ge; lia). auto.
Qed.

(** The queries see exactly the slots of the queue. *)
Lemma is_scheduled_flat : forall c s e, Inv c s ->
  (is_scheduled c s e = true <-> exists x, In x (flat (s_queue s)) /\ sl_ev (e_s x) = Some e).
Proof.
  intros c s e I. unfold is_scheduled. rewrite existsb_exists. split.
  - intros (q & Hq & H). apply has_ev_spec in H. destruct H as (sl & H1 & H2).
    exists (q_tick q, ev_group c e, sl). split; auto. apply flat_In. exists q. unfold e_t, e_g, e_s; simpl.
    split; auto. split; auto. split; auto.
    destruct (Nat.ltb_spec (ev_group c e) (length (q_groups q))) as [L|L]; auto.
    rewrite (nth_overflow _ _ L) in H1. easy.
  - intros (x & Hx & Hs). pose proof (I_grp c s I x e Hx Hs) as HG. apply flat_In in Hx.
    destruct Hx as (q & Hq & Ht & Hl & Hin). exists q. split; auto. apply has_ev_spec.
    rewrite HG in Hin. eauto.
Qed.

Lemma is_scheduled_at_flat : forall c s e rel, Inv c s ->
  (is_scheduled_at c s e rel = true <->
   exists x, In x (flat (s_queue s)) /\ sl_ev (e_s x) = Some e /\ e_t x = s_tick s + rel).
Proof.
  intros c s e rel I. unfold is_scheduled_at. split.
  - destruct (q_find (s_queue s) (s_tick s + rel)) as [q|] eqn:E; [|discriminate].
    apply q_find_some in E. destruct E as [Hq Ht]. intros H. apply has_ev_spec in H. destruct H as (sl & H1 & H2).
    exists (q_tick q, ev_group c e, sl). split; [|auto]. apply flat_In. exists q. unfold e_t, e_g, e_s; simpl.
    split; auto. split; auto. split; auto.
    destruct (Nat.ltb_spec (ev_group c e) (length (q_groups q))) as [L|L]; auto.
    rewrite (nth_overflow _ _ L) in H1. easy.
  - intros (x & Hx & Hs & HT). pose proof (I_grp c s I x e Hx Hs) as HG. apply flat_In in Hx.
    destruct Hx as (q & Hq & Ht & Hl & Hin).
    rewrite (q_find_in (s_tick s + rel) (s_queue s) q); [|apply (I_sorted c s I)|auto|congruence].
    apply has_ev_spec. rewrite HG in Hin. eauto.
Qed.

(** ** Slots already passed in the current group were fired *)
Definition pre (s : sched) : list entry := firstn (done s) (flat (s_queue s)).

Definition Dn (s : sched) : Prop :=
  forall x e, In x (pre s) -> sl_ev (e_s x) = Some e ->
    In (OFire (sl_id (e_s x)) e (e_t x) (e_g x)) (recent (s_log s)).

Lemma flat_pre_pend : forall s, flat (s_queue s) = pre s ++ pend s.
Proof. intros. unfold pre, pend. symmetry. apply firstn_skipn. Qed.

Lemma recent_app_quiet : forall new l, Forall quiet new -> recent (new ++ l) = new ++ recent l.
Proof. induction 1; simpl; auto. rewrite IHForall. destruct x; easy. Qed.

Lemma schedule_event_pre : forall c s e rel cont uniq s' ok,
  Inv c s -> s_ctl s <> LoopHead -> s_ctl s <> Crashed ->
  schedule_event c s e rel (ev_gid c e) cont uniq = (s', ok) -> pre s' = pre s.
Proof.
  intros c s e rel cont uniq s' ok I H1 H2 H.
  pose proof (schedule_event_frame c s e _ _ _ _ _ H) as (F1 & F2 & F3 & F4 & _).
  assert (HD : done s' = done s) by (unfold done; rewrite F1, F4; auto).
  apply schedule_event_cases in H.
  destruct H as [(_ & -> & _)|(_ & Hr & Hg & s1 & Hs & [(_ & -> & _)|(_ & qs & p & Hi & ->)])].
  - reflexivity.
  - destruct Hs as [->|(f & l & ->)]; reflexivity.
  - unfold pre. rewrite HD.
    assert (E : flat (s_queue s') = flat qs) by (destruct Hs as [->|(f & l & ->)]; reflexivity).
    rewrite E. pose proof (done_prefix c s I) as [Hdl Hdk].
    replace qs with (fst (q_insert c (s_queue s) (s_pool s) (s_tick s + rel) (ev_group c e) (mkSlot (Some e) (s_next s)))) by (rewrite Hi; auto).
    rewrite q_insert_flat; auto; [|apply (I_q c s I)|apply (I_sorted c s I)].
    rewrite <- (firstn_skipn (done s) (flat (s_queue s))) at 1. rewrite ins_app_skip.
    + rewrite firstn_app, firstn_firstn, Nat.min_id, firstn_length, Nat.min_l, Nat.sub_diag by auto.
      simpl. rewrite app_nil_r. reflexivity.
    + intros y Hy. rewrite (Hdk y Hy). unfold klt; simpl. intros [|[K1 K2]]; [lia|]. apply Hr. split; [lia|auto].
Qed.

Lemma cancel_gen_pre : forall c s e (P : N -> bool) o,
  pre (note (set_queue s (map (fun q => if P (q_tick q) then cancel_q c e q else q) (s_queue s)) (s_pool s)) o)
  = map (centry c e P) (pre s).
Proof.
  intros. unfold pre, done. simpl. rewrite flat_cancel_gen, firstn_map. reflexivity.
Qed.

(** What happens to the passed and pending slots, one primitive at a time; [n0] is
    the unique event under observation. *)
Inductive effect (c : cfg) (n0 : nat) (s s' : sched) : Prop :=
| ef_same : pend s' = pend s -> (pre s' = pre s \/ pre s' = []) ->
    s_log s' = s_log s -> s_last s' = s_last s -> s_tick s <= s_tick s' -> effect c n0 s s'
| ef_sched (e : ev) (rel : N) (uniq : bool) (o : obs) :
    (o = ORefuse e (s_tick s + rel) /\ pend s' = pend s \/
     o = OAbsorb e (s_tick s + rel) /\ pend s' = pend s /\ uniq = true /\
       (exists x, In x (flat (s_queue s)) /\ sl_ev (e_s x) = Some e /\ e_t x = s_tick s + rel) \/
     o = OSched (s_next s) e (s_tick s + rel) (ev_group c e) /\
       pend s' = ins (s_tick s + rel, ev_group c e, mkSlot (Some e) (s_next s)) (pend s) /\
       (uniq = true -> forall x, In x (flat (s_queue s)) -> sl_ev (e_s x) = Some e -> e_t x <> s_tick s + rel)) ->
    (e = User n0 -> uniq = true /\ (o <> ORefuse e (s_tick s + rel) -> s_last s n0 <> Some (s_tick s + rel))) ->
    pre s' = pre s -> s_log s' = o :: s_log s -> s_last s' = s_last s -> s_tick s' = s_tick s -> effect c n0 s s'
| ef_cancel (e : ev) (P : N -> bool) (o : obs) :
    pend s' = map (centry c e P) (pend s) -> pre s' = map (centry c e P) (pre s) ->
    (o = OCancel e \/ exists t, o = OCancelAt e t) ->
    s_log s' = o :: s_log s -> s_last s' = s_last s -> s_tick s' = s_tick s -> effect c n0 s s'
| ef_fire (sl : slot) (e : ev) : sl_ev sl = Some e ->
    pend s = (s_tick s, s_grp s, sl) :: pend s' -> pre s' = pre s ++ [(s_tick s, s_grp s, sl)] ->
    s_log s' = OFire (sl_id sl) e (s_tick s) (s_grp s) :: s_log s ->
    (e = User n0 -> c_uniq c n0 = true -> s_last s' n0 = Some (s_tick s)) ->
    (e <> User n0 -> s_last s' n0 = s_last s n0) -> s_tick s' = s_tick s -> effect c n0 s s'
| ef_skip (sl : slot) : sl_ev sl = None ->
    pend s = (s_tick s, s_grp s, sl) :: pend s' -> pre s' = pre s ++ [(s_tick s, s_grp s, sl)] ->
    s_log s' = s_log s -> s_last s' = s_last s -> s_tick s' = s_tick s -> effect c n0 s s'
| ef_clear : pend s' = [] -> pre s' = [] -> s_log s' = OClear :: s_log s -> s_last s' = s_last s ->
    s_tick s' = s_tick s -> effect c n0 s s'
| ef_restart (t : N) : pend s' = [] -> pre s' = [] -> s_log s' = ORestart t :: s_log s -> s_last s' = s_last s ->
    effect c n0 s s'.

Inductive effs (c : cfg) (n0 : nat) : sched -> sched -> Prop :=
| effs_nil : forall s, effs c n0 s s
| effs_cons : forall s s1 s2, Inv c s -> effect c n0 s s1 -> effs c n0 s1 s2 -> effs c n0 s s2.

Lemma effs_one : forall c n0 s s', Inv c s -> effect c n0 s s' -> effs c n0 s s'.
Proof. intros. eapply effs_cons; eauto. constructor. Qed.
Lemma effs_app : forall c n0 s s1 s2, effs c n0 s s1 -> effs c n0 s1 s2 -> effs c n0 s s2.
Proof. induction 1; intros; auto. eapply effs_cons; eauto. Qed.

Lemma schedule_event_effect : forall c n0 s e rel cont uniq s' ok,
  Inv c s -> s_ctl s <> LoopHead -> s_ctl s <> Crashed ->
  schedule_event c s e rel (ev_gid c e) cont uniq = (s', ok) ->
  (e = User n0 -> uniq = true /\ s_last s n0 <> Some (s_tick s + rel)) ->
  effect c n0 s s'.
Proof.
  intros c n0 s e rel cont uniq s' ok I H1 H2 H HU.
  pose proof (schedule_event_pre c s e _ _ _ _ _ I H1 H2 H) as HP.
  pose proof (schedule_event_frame c s e _ _ _ _ _ H) as (F1 & F2 & F3 & F4 & F5 & F6 & F7 & F8 & F9).
  pose proof (schedule_event_log c s e _ _ _ _ _ H) as (o & Ho & Hq & _).
  apply (ef_sched c n0 s s' e rel uniq o); auto; [|intros HE; specialize (HU HE); tauto].
  apply schedule_event_cases in H.
  destruct H as [(_ & -> & _)|(_ & Hr & Hg & s1 & Hs & [(Hu & -> & q & Hq1 & Hq2)|(Hu & qs & p & Hi & ->)])].
  - left. simpl in Ho. injection Ho as <-. auto.
  - right. left. assert (E : o = OAbsorb e (s_tick s + rel) /\ pend s' = pend s).
    { destruct Hs as [->|(f & l & ->)]; simpl in Ho; injection Ho as <-; auto. }
    destruct E. split; auto. split; auto. split; auto.
    apply (proj1 (is_scheduled_at_flat c s e rel I)). unfold is_scheduled_at. rewrite Hq1. auto.
  - right. right. pose proof (accept_inv c s e rel qs p I H1 H2 Hg Hr Hi) as [_ K]. cbv zeta in K.
    split; [|split].
    + destruct Hs as [->|(f & l & ->)]; simpl in Ho; injection Ho as <-; auto.
    + destruct Hs as [->|(f & l & ->)]; exact K.
    + intros HU1 x Hx Hx1 Hx2.
      assert (H : is_scheduled_at c s e rel = true) by (apply (proj2 (is_scheduled_at_flat c s e rel I)); eauto).
      unfold is_scheduled_at in H. destruct (q_find (s_queue s) (s_tick s + rel)); [|discriminate].
      specialize (Hu HU1 q eq_refl). congruence.
Qed.

Lemma cancel_event_pre : forall c s e, pre (cancel_event c s e) = map (centry c e (fun _ => true)) (pre s).
Proof. intros. apply (cancel_gen_pre c s e (fun _ => true)). Qed.

Lemma exec_cmd_effs : forall c n0 s k, Inv c s -> s_ctl s <> LoopHead -> s_ctl s <> Crashed ->
  c_uniq c n0 = true -> effs c n0 s (exec_cmd c s k).
Proof.
  intros c n0 s k I H1 H2 HU. destruct k; simpl.
  - unfold schedule_user. destruct (_ && _)%bool eqn:EB.
    + apply effs_one; auto. apply (ef_sched c n0 _ _ (User n) rel true (ORefuse (User n) (s_tick s + rel))); auto.
    + destruct (schedule_event c s (User n) rel (c_gid c n) cont (c_uniq c n)) as [s1 ok] eqn:E. simpl.
      apply effs_one; auto. apply (schedule_event_effect c n0 s (User n) rel cont (c_uniq c n) s1 ok); auto.
      intros HE. injection HE as ->. rewrite HU in *. split; auto. intros HL. rewrite HL, N.eqb_refl in EB. discriminate.
  - apply effs_one; auto. destruct (cancel_event_inv c s (User n) I) as [_ K].
    apply (ef_cancel c n0 s _ (User n) (fun _ => true) (OCancel (User n))); auto. apply cancel_event_pre.
  - apply effs_one; auto. destruct (cancel_event_at_inv c s (User n) rel I) as [_ K].
    apply (ef_cancel c n0 s _ (User n) (fun u => u =? s_tick s + rel) (OCancelAt (User n) (s_tick s + rel))); auto.
    + apply (cancel_gen_pre c s (User n) (fun u => u =? s_tick s + rel)).
    + eauto.
  - apply effs_one; auto. apply ef_same; auto. simpl. lia.
  - apply effs_one; auto. apply ef_same; auto. simpl. lia.
  - unfold cancel_async. set (s1 := set_async s (filter (fun a => negb (Nat.eqb (fst (fst a)) n)) (s_async s))).
    eapply effs_cons; [auto| |apply effs_one; [apply (set_async_inv c s); exact I|]].
    + apply (ef_same c n0 s s1); auto. simpl. lia.
    + destruct (cancel_event_inv c s1 (User n)) as [_ K]; [apply set_async_inv; auto|].
      apply (ef_cancel c n0 s1 _ (User n) (fun _ => true) (OCancel (User n))); auto. apply cancel_event_pre.
Qed.

Lemma drain_effs : forall c n0 l s s', Inv c s -> s_ctl s = Scan -> drain c s l = Some s' ->
  (forall a, In a l -> fst (fst a) <> n0) -> effs c n0 s s'.
Proof.
  induction l as [|[[n rel] cont] r IH]; simpl; intros s s' I HC H HN.
  - injection H as <-. apply effs_one; auto. apply ef_same; auto. simpl. lia.
  - destruct (schedule_event c s (User n) rel (c_gid c n) cont false) as [s1 ok] eqn:ES.
    destruct ok; [|discriminate].
    pose proof (schedule_event_inv c s (User n) rel cont false s1 true I ltac:(congruence) ltac:(congruence) ES) as I1.
    pose proof (schedule_event_frame c s (User n) _ _ _ _ _ ES) as (F1 & _).
    eapply effs_cons; [auto| |apply (IH s1); auto; congruence].
    apply (schedule_event_effect c n0 s (User n) rel cont false s1 true); auto; try congruence.
    intros HE. injection HE as ->. exfalso. apply (HN (n0, rel, cont)); auto.
Qed.

Ltac same HC := apply ef_same;
  [unfold pend, done; simpl; rewrite ?HC; reflexivity
  |first [left; unfold pre, done; simpl; rewrite ?HC; reflexivity|right; reflexivity]
  |reflexivity|reflexivity|simpl; lia].

Lemma step_effs : forall c n0 s a, Inv c s -> c_uniq c n0 = true ->
  (forall x, In x (s_async s) -> fst (fst x) <> n0) ->
  s_ctl (step c s a) <> Crashed -> effs c n0 s (step c s a).
Proof.
  intros c n0 s a I HU HA HNC. unfold step in *. destruct a; destruct (s_ctl s) eqn:HC; try apply effs_nil.
  - apply exec_cmd_effs; auto; congruence.
  - apply exec_cmd_effs; auto; congruence.
  - (* run_begin *)
    unfold run_begin in *.
    set (s0 := set_running (set_first s false) (match s_queue (set_first s false) with [] => false | _ :: _ => true end)) in *.
    assert (I0 : Inv c s0).
    { unfold s0. apply set_running_inv; [apply set_first_inv; auto|]. simpl. congruence. }
    assert (P0 : pend s0 = pend s /\ pre s0 = pre s) by (split; reflexivity).
    destruct num as [n|].
    2:{ apply effs_one; auto. same HC. }
    destruct n as [|n']; [apply effs_nil|]. remember (N.pos n') as n eqn:En.
    destruct (match s_queue s0 with [] => true | q :: _ => s_tick s0 + n <? q_tick q end) eqn:EF.
    + apply effs_one; auto. apply ef_same; destruct exact; simpl; auto; lia.
    + destruct (schedule_event c s0 Stop (n - 1) 0 exact false) as [s1 ok] eqn:ES. simpl.
      change 0%nat with (ev_gid c Stop) in ES.
      pose proof (schedule_event_inv c s0 Stop _ _ _ s1 ok I0 ltac:(simpl; congruence) ltac:(simpl; congruence) ES) as I1.
      pose proof (schedule_event_frame c s0 Stop _ _ _ _ _ ES) as (F1 & _).
      eapply effs_cons; [exact I| |eapply effs_cons; [exact I0| |apply effs_one; [exact I1|]]].
      * apply ef_same; simpl; auto. lia.
      * eapply (schedule_event_effect c n0 s0 Stop); eauto; simpl; congruence.
      * simpl in F1. rewrite HC in F1. same F1.
  - (* clear *)
    apply effs_one; auto. apply ef_clear; auto; unfold pend, pre, done; simpl; rewrite HC; reflexivity.
  - (* restart *)
    eapply effs_cons; [exact I| |apply effs_one; [apply clear_inv; eauto|]].
    + apply (ef_clear c n0 s (clear_events s)); auto; unfold pend, pre, done; simpl; rewrite HC; reflexivity.
    + apply (ef_restart c n0 _ _ t); auto; unfold pend, pre, done; simpl; rewrite HC; reflexivity.
  - (* tick_begin *)
    unfold tick_begin in *. destruct (s_running s) eqn:ER.
    2:{ apply effs_one; auto. same HC. }
    destruct (s_queue s) as [|q rest] eqn:EQ; [simpl in HNC; congruence|].
    set (gf := match q_first q with Some f => f | None => group_count c end) in *.
    set (s1 := set_pos (set_time s (q_tick q) (s_elapsed s + absdiff (q_tick q) (s_elapsed s))) gf 0 Scan) in *.
    assert (I1 : Inv c s1).
    { apply (reposition_inv c s); auto.
      - unfold pend, done; simpl. rewrite HC. reflexivity.
      - unfold ctl_ok; simpl. exists q, rest. split; auto. split; auto. split; [|lia].
        intros g Hg. pose proof (I_q c s I) as GQ. rewrite EQ in GQ. inversion GQ as [|? ? GQ1 _]; subst.
        apply GQ1. unfold gf in Hg. destruct (q_first q); auto.
      - simpl. rewrite EQ. pose proof (I_sorted c s I) as SS. rewrite EQ in SS. inversion SS; subst.
        constructor; [lia|]. eapply Forall_impl; [|eassumption]. unfold qlt; simpl; intros; lia.
      - intros H; rewrite HC in H; discriminate.
      - unfold fired_key_ok. rewrite HC. simpl. intros t g [_ H]. rewrite EQ in H. inversion H; subst. auto. }
    change (s_async (set_pos (set_time s (q_tick q) (s_elapsed s + absdiff (q_tick q) (s_elapsed s))) gf 0 Scan)) with (s_async s1) in *.
    destruct (drain c s1 (s_async s1)) as [s2|] eqn:ED; [|simpl in HNC; congruence].
    eapply effs_cons; [exact I| |eapply (drain_effs c n0 _ s1 s2); eauto].
    apply ef_same; simpl; auto.
    + unfold pend, done; simpl. rewrite HC. reflexivity.
    + pose proof (I_ge c s I) as K. rewrite EQ in K. inversion K; auto.
  - (* scan *)
    unfold scan in *. destruct (s_queue s) as [|q rest] eqn:EQ; [simpl in HNC; congruence|].
    destruct (Nat.ltb_spec (s_grp s) (group_count c)) as [HG|HG].
    + destruct (nth_error (nth (s_grp s) (q_groups q) []) (s_idx s)) as [sl|] eqn:EN.
      * pose proof (scan_head c s q rest sl I HC EQ HG EN) as Hp.
        assert (HPre : forall s', s_queue s' = s_queue s -> done s' = S (s_idx s) ->
                   pend s = (s_tick s, s_grp s, sl) :: pend s' /\ pre s' = pre s ++ [(s_tick s, s_grp s, sl)]).
        { intros s' Q1 Q2. split.
          - unfold pend at 2. rewrite Q1, Q2. exact Hp.
          - unfold pre. rewrite Q1, Q2. unfold done. rewrite HC.
            unfold pend, done in Hp. rewrite HC in Hp. revert Hp. generalize (flat (s_queue s)) as L. generalize (s_idx s) as i.
            intros i L HL. rewrite <- (firstn_skipn i L) at 1. rewrite HL.
            destruct (Nat.le_gt_cases i (length L)).
            + rewrite firstn_app, firstn_length, Nat.min_l by auto.
              replace (S i - i)%nat with 1%nat by lia. rewrite firstn_all2 by (rewrite firstn_length; lia). reflexivity.
            + rewrite skipn_all2 in HL by lia. discriminate. }
        destruct (sl_ev sl) as [[|n]|] eqn:EE.
        -- apply effs_one; auto. match goal with |- effect _ _ _ ?s' => destruct (HPre s' eq_refl eq_refl) as [HP1 HP2] end.
           apply (ef_fire c n0 _ _ sl Stop); auto. discriminate.
        -- apply effs_one; auto. match goal with |- effect _ _ _ ?s' => destruct (HPre s' eq_refl eq_refl) as [HP1 HP2] end.
           apply (ef_fire c n0 _ _ sl (User n)); auto.
           ++ intros HE HUn. injection HE as ->. simpl. rewrite HUn, Nat.eqb_refl. auto.
           ++ intros HE. simpl. destruct (c_uniq c n); auto. destruct (Nat.eqb_spec n0 n); congruence.
        -- apply effs_one; auto. match goal with |- effect _ _ _ ?s' => destruct (HPre s' eq_refl eq_refl) as [HP1 HP2] end.
           apply (ef_skip c n0 _ _ sl); auto.
      * destruct (next_group_inv c s q rest I HC EQ HG EN) as [_ Hp].
        apply effs_one; auto. apply ef_same; simpl; auto. lia.
    + destruct (tick_end_pend c s I HC HG q rest EQ) as [Hp Ht].
      apply effs_one; auto. unfold tick_end in *. rewrite EQ in *. destruct rest as [|n rr].
      * apply ef_same; simpl; auto. lia.
      * destruct (s_latest (set_queue s (n :: rr) (s_pool s ++ [q_first q])) <? q_tick n).
        -- apply ef_same; simpl; auto. lia.
        -- apply ef_same; simpl; auto. lia.
  - apply effs_one; auto. same HC.
Qed.

(** ** Invariant of a unique event *)
Record U (c : cfg) (n0 : nat) (s : sched) : Prop := {
  U_dn : Dn s;
  U_one : forall x y, In x (flat (s_queue s)) -> In y (flat (s_queue s)) ->
     sl_ev (e_s x) = Some (User n0) -> sl_ev (e_s y) = Some (User n0) -> e_t x = e_t y -> x = y;
  U_last : forall id t g, In (OFire id (User n0) t g) (recent (s_log s)) ->
     exists l, s_last s n0 = Some l /\ t <= l <= s_tick s;
  U_fresh : forall id t g x, In (OFire id (User n0) t g) (recent (s_log s)) -> In x (pend s) ->
     sl_ev (e_s x) = Some (User n0) -> e_t x <> t;
  U_abs : forall l2 l1 t, s_log s = l2 ++ OAbsorb (User n0) t :: l1 -> exists id g, alive_log l1 id (User n0) t g;
  U_once : forall l3 l2 l1 i1 g1 i2 g2 t,
     s_log s = l3 ++ OFire i2 (User n0) t g2 :: l2 ++ OFire i1 (User n0) t g1 :: l1 ->
     (forall u, ~ In (ORestart u) l2) -> False
}.

Lemma in_recent : forall l2 o l1, (forall t, ~ In (ORestart t) l2) -> (forall t, o <> ORestart t) -> In o (recent (l2 ++ o :: l1)).
Proof.
  induction l2; simpl; intros.
  - destruct o; simpl; auto. exfalso; eapply H0; eauto.
  - assert (In o (recent (l2 ++ o :: l1))). { apply IHl2; auto. intros t K. eapply H; eauto. }
    destruct a; simpl; auto. exfalso. eapply H; eauto.
Qed.

Lemma log_cons_abs : forall o l l2 l1 n0 t, o :: l = l2 ++ OAbsorb (User n0) t :: l1 ->
  (forall u, o <> OAbsorb (User n0) u) -> exists l2', l = l2' ++ OAbsorb (User n0) t :: l1.
Proof. intros. apply cons_split in H. destruct H as [(_ & -> & _)|(l2' & _ & ->)]; [exfalso; eapply H0; eauto|eauto]. Qed.

Lemma once_cons : forall o l n0,
  (forall l3 l2 l1 i1 g1 i2 g2 t,
     l = l3 ++ OFire i2 (User n0) t g2 :: l2 ++ OFire i1 (User n0) t g1 :: l1 ->
     (forall u, ~ In (ORestart u) l2) -> False) ->
  (forall i t g, o = OFire i (User n0) t g -> forall i1 g1, ~ In (OFire i1 (User n0) t g1) (recent l)) ->
  forall l3 l2 l1 i1 g1 i2 g2 t,
     o :: l = l3 ++ OFire i2 (User n0) t g2 :: l2 ++ OFire i1 (User n0) t g1 :: l1 ->
     (forall u, ~ In (ORestart u) l2) -> False.
Proof.
  intros o l n0 H1 H2 l3 l2 l1 i1 g1 i2 g2 t E HR. apply cons_split in E.
  destruct E as [(_ & -> & E)|(l3' & _ & E)]; [|eapply H1; eauto].
  eapply H2; [reflexivity|]. rewrite E. apply in_recent; auto. discriminate.
Qed.

Lemma U_effect : forall c n0 s s', c_uniq c n0 = true -> Inv c s -> U c n0 s -> effect c n0 s s' -> U c n0 s'.
Proof.
  intros c n0 s s' HU I [UD U1 UL UF UA UO] E.
  assert (HFl : forall s, flat (s_queue s) = pre s ++ pend s) by apply flat_pre_pend.
  destruct E.
  - (* same *)
    assert (Hsub : forall x, In x (flat (s_queue s')) -> In x (flat (s_queue s))).
    { intros x. rewrite !HFl, H, !in_app_iff. destruct H0 as [->| ->]; simpl; tauto. }
    constructor; rewrite ?H1, ?H2, ?H; auto.
    + intros x e Hx He. rewrite H1. apply UD; auto. destruct H0 as [<-| E0]; auto. rewrite E0 in Hx. easy.
    + intros id t g Hin. destruct (UL id t g Hin) as (l & ? & ?). exists l. split; auto. lia.
  - (* sched *)
    assert (Hr : recent (s_log s') = o :: recent (s_log s)).
    { rewrite H2. destruct H as [(-> & _)|[(-> & _)|(-> & _)]]; auto. }
    assert (Hnf : forall a b d f, o <> OFire a b d f).
    { intros. destruct H as [(-> & _)|[(-> & _)|(-> & _)]]; discriminate. }
    (* no recorded firing of n0 at the requested tick unless refused *)
    assert (HT : e = User n0 -> o <> ORefuse e (s_tick s + rel) -> forall id g, ~ In (OFire id (User n0) (s_tick s + rel) g) (recent (s_log s))).
    { intros HE Ho id g Hin. destruct (H0 HE) as [_ HL]. specialize (HL Ho).
      destruct (UL _ _ _ Hin) as (l & Hl1 & Hl2). apply HL. rewrite Hl1. f_equal. lia. }
    constructor.
    + intros x e0 Hx He. rewrite Hr. right. apply UD; auto. rewrite <- H1; auto.
    + rewrite HFl, H1. destruct H as [(_ & ->)|[(_ & -> & _)|(Ho & -> & Hne)]]; try (rewrite <- HFl; auto; fail).
      intros x y Hx Hy Hx1 Hy1 HXY. rewrite in_app_iff, ins_In in Hx, Hy.
      assert (CC : forall z, In z (pre s) \/ In z (pend s) -> In z (flat (s_queue s))) by (intros z; rewrite HFl, in_app_iff; auto).
      assert (NE : forall z, In z (pre s) \/ In z (pend s) -> sl_ev (e_s z) = Some (User n0) -> e = User n0 -> e_t z <> s_tick s + rel).
      { intros z Hz Hz1 HE. subst e. apply Hne; auto. apply H0; auto. }
      assert (HX : x = (s_tick s + rel, ev_group c e, mkSlot (Some e) (s_next s)) \/ (In x (pre s) \/ In x (pend s))) by tauto.
      assert (HY : y = (s_tick s + rel, ev_group c e, mkSlot (Some e) (s_next s)) \/ (In y (pre s) \/ In y (pend s))) by tauto.
      destruct HX as [->|HX]; destruct HY as [->|HY]; auto.
      * exfalso. simpl in Hx1. injection Hx1 as ->. eapply (NE y); eauto.
      * exfalso. simpl in Hy1. injection Hy1 as ->. eapply (NE x); eauto.
    + rewrite Hr, H3, H4. intros id t g [K|K]; [exfalso; eapply Hnf; eauto|eauto].
    + rewrite Hr. intros id t g x [K|K] Hx Hx1; [exfalso; eapply Hnf; eauto|].
      destruct H as [(_ & HP)|[(_ & HP & _)|(Ho & HP & Hne)]]; rewrite HP in Hx; eauto.
      apply ins_In in Hx. destruct Hx as [->|Hx]; eauto. simpl in Hx1. injection Hx1 as ->.
      intros Ht. unfold e_t in Ht; simpl in Ht. subst t. eapply HT; eauto. subst o. discriminate.
    + rewrite H2. intros l2 l1 t K. apply cons_split in K. destruct K as [(_ & K & <-)|(l2' & _ & K)]; eauto.
      destruct H as [(Ho & _)|[(Ho & _ & _ & (x & Hx & Hx1 & Hx2))|(Ho & _)]]; try congruence.
      rewrite Ho in K. injection K as E1 E2. subst e t. rewrite HFl, in_app_iff in Hx. destruct Hx as [Hx|Hx].
      * exfalso. pose proof (UD x (User n0) Hx Hx1) as HF. rewrite Hx2 in HF. eapply HT; eauto. rewrite Ho. discriminate.
      * exists (sl_id (e_s x)), (e_g x). rewrite <- Hx2. apply (I_alive c s I); auto.
    + rewrite H2. apply once_cons; auto. intros i t g K. exfalso. eapply Hnf; eauto.
  - (* cancel *)
    assert (Hr : recent (s_log s') = o :: recent (s_log s)).
    { rewrite H2. destruct H1 as [->|(t & ->)]; auto. }
    assert (Hnf : forall a b d f, o <> OFire a b d f).
    { intros. destruct H1 as [->|(t & ->)]; discriminate. }
    assert (Hfl : flat (s_queue s') = map (centry c e P) (flat (s_queue s))).
    { rewrite !HFl, map_app. congruence. }
    constructor.
    + intros x e0 Hx He. rewrite Hr. right. rewrite H0 in Hx. apply in_map_iff in Hx. destruct Hx as (y & <- & Hy).
      apply centry_some in He. destruct He as (Hy1 & Hy2 & _). rewrite Hy1. apply UD; auto.
    + rewrite Hfl. intros x y Hx Hy Hx1 Hy1 HXY. apply in_map_iff in Hx, Hy.
      destruct Hx as (x' & <- & Hx). destruct Hy as (y' & <- & Hy).
      apply centry_some in Hx1, Hy1. destruct Hx1 as (Ex & Hx1 & _). destruct Hy1 as (Ey & Hy1 & _).
      rewrite Ex, Ey in *. auto.
    + rewrite Hr, H3, H4. intros id t g [K|K]; [exfalso; eapply Hnf; eauto|eauto].
    + rewrite Hr. intros id t g x [K|K] Hx Hx1; [exfalso; eapply Hnf; eauto|].
      rewrite H in Hx. apply in_map_iff in Hx. destruct Hx as (y & <- & Hy).
      apply centry_some in Hx1. destruct Hx1 as (Hy1 & Hy2 & _). rewrite Hy1. eauto.
    + rewrite H2. intros l2 l1 t K. apply log_cons_abs in K; [|intros; destruct H1 as [->|(? & ->)]; discriminate].
      destruct K as (l2' & K). eauto.
    + rewrite H2. apply once_cons; auto. intros i t g K. exfalso. eapply Hnf; eauto.
  - (* fire *)
    assert (Hr : recent (s_log s') = OFire (sl_id sl) e (s_tick s) (s_grp s) :: recent (s_log s)) by (rewrite H2; auto).
    set (h := (s_tick s, s_grp s, sl) : entry) in *.
    assert (Hfl : flat (s_queue s') = flat (s_queue s)).
    { rewrite !HFl, H0, H1, <- app_assoc. reflexivity. }
    assert (Hh : In h (pend s)) by (rewrite H0; left; auto).
    assert (HSS : StronglySorted elt (pend s)) by (apply skipn_sorted; apply (I_elt c s I)).
    assert (Hnh : ~ In h (pend s')).
    { rewrite H0 in HSS. inversion HSS; subst. rewrite Forall_forall in H9. intros K. apply H9 in K. apply elt_id_neq in K. auto. }
    constructor.
    + intros x e0 Hx He. rewrite Hr. rewrite H1, in_app_iff in Hx. destruct Hx as [Hx|[<-|[]]].
      * right. apply UD; auto.
      * left. simpl in He. unfold e_t, e_g; simpl. congruence.
    + rewrite Hfl. auto.
    + rewrite Hr, H5. intros id t g [K|K].
      * injection K as <- -> <- <-. exists (s_tick s). split; [auto|]. lia.
      * destruct (UL _ _ _ K) as (l & Hl1 & Hl2).
        assert (D : e = User n0 \/ e <> User n0).
        { destruct e as [|m]; [right; discriminate|]. destruct (Nat.eq_dec m n0); [left; congruence|right; congruence]. }
        destruct D as [D|D].
        -- exists (s_tick s). split; [auto|lia].
        -- exists l. rewrite H4; auto.
    + rewrite Hr. intros id t g x [K|K] Hx Hx1.
      * injection K as <- -> <- <-. intros Ht. apply Hnh. replace h with x; auto.
        apply U1; auto.
        -- rewrite HFl, in_app_iff, H0. right. right. auto.
        -- rewrite HFl, in_app_iff. auto.
      * eapply UF; eauto. rewrite H0. right; auto.
    + rewrite H2. intros l2 l1 t K. apply log_cons_abs in K; [|discriminate]. destruct K as (l2' & K). eauto.
    + rewrite H2. apply once_cons; auto. intros i t g K i1 g1 Hin. injection K as _ E1 E2 _. subst e t.
      exact (UF i1 (s_tick s) g1 h Hin Hh H eq_refl).
  - (* skip *)
    assert (Hfl : flat (s_queue s') = flat (s_queue s)).
    { rewrite !HFl, H0, H1, <- app_assoc. reflexivity. }
    constructor; rewrite ?H2, ?H3, ?H4; auto.
    + intros x e0 Hx He. rewrite H2. rewrite H1, in_app_iff in Hx. destruct Hx as [Hx|[<-|[]]].
      * apply UD; auto.
      * simpl in He. congruence.
    + rewrite Hfl. auto.
    + intros. eapply UF; eauto. rewrite H0. right; auto.
  - (* clear *)
    constructor; rewrite ?HFl, ?H, ?H0, ?H1, ?H2, ?H3; try easy.
    + intros x e0 Hx He. rewrite H0 in Hx. easy.
    + intros id t g [K|K]; [discriminate|eauto].
    + intros l2 l1 t K. apply log_cons_abs in K; [|discriminate]. destruct K as (l2' & K). eauto.
    + apply once_cons; auto. discriminate.
  - (* restart *)
    constructor; rewrite ?HFl, ?H, ?H0, ?H1, ?H2; try easy.
    + intros x e0 Hx He. rewrite H0 in Hx. easy.
    + intros l2 l1 u K. apply log_cons_abs in K; [|discriminate]. destruct K as (l2' & K). eauto.
    + apply once_cons; auto. discriminate.
Qed.

Lemma U_effs : forall c n0 s s', c_uniq c n0 = true -> effs c n0 s s' -> U c n0 s -> U c n0 s'.
Proof. induction 2; intros; auto. apply IHeffs. eapply U_effect; eauto. Qed.

Lemma U_init : forall c n0, U c n0 init.
Proof.
  intros. constructor; simpl; try easy.
  - intros. destruct l2; discriminate.
  - intros. destruct l3; discriminate.
Qed.

Definition no_async (n : nat) (a : action) : Prop :=
  match a with ACmd (CAsync m _ _) => m <> n | _ => True end.

Lemma drain_async : forall c l s s', drain c s l = Some s' -> s_async s' = [].
Proof.
  induction l as [|[[n rel] cont] r IH]; simpl; intros.
  - injection H as <-. auto.
  - destruct (schedule_event c s (User n) rel (c_gid c n) cont false) as [s1 ok]. destruct ok; [eauto|discriminate].
Qed.

Lemma step_async : forall c s a n0, no_async n0 a ->
  (forall x, In x (s_async s) -> fst (fst x) <> n0) -> (forall x, In x (s_async (step c s a)) -> fst (fst x) <> n0).
Proof.
  intros c s a n0 HA H. unfold step. destruct a; destruct (s_ctl s) eqn:HC; auto.
  - destruct k; simpl; auto.
    + unfold schedule_user. destruct (_ && _)%bool; auto.
      destruct (schedule_event c s (User n) rel (c_gid c n) cont (c_uniq c n)) as [s1 ok] eqn:E. simpl.
      pose proof (schedule_event_frame c s (User n) _ _ _ _ _ E) as (F1 & F2 & F3 & F4 & F5 & F6 & F7 & F8 & F9).
      rewrite F7. auto.
    + intros x Hx. apply in_app_iff in Hx. destruct Hx as [Hx|[<-|[]]]; auto.
    + intros x Hx. apply filter_In in Hx. apply H. tauto.
  - destruct k; simpl; auto.
    + unfold schedule_user. destruct (_ && _)%bool; auto.
      destruct (schedule_event c s (User n) rel (c_gid c n) cont (c_uniq c n)) as [s1 ok] eqn:E. simpl.
      pose proof (schedule_event_frame c s (User n) _ _ _ _ _ E) as (F1 & F2 & F3 & F4 & F5 & F6 & F7 & F8 & F9).
      rewrite F7. auto.
    + intros x Hx. apply in_app_iff in Hx. destruct Hx as [Hx|[<-|[]]]; auto.
    + intros x Hx. apply filter_In in Hx. apply H. tauto.
  - unfold run_begin. destruct num as [[|n']|]; auto. remember (N.pos n') as n.
    set (s0 := set_running (set_first s false) (match s_queue (set_first s false) with [] => false | _ :: _ => true end)).
    destruct (match s_queue s0 with [] => true | q :: _ => s_tick s0 + n <? q_tick q end).
    + destruct exact; auto.
    + simpl. destruct (schedule_event c s0 Stop (n - 1) 0 exact false) as [s1 ok] eqn:ES. simpl.
      pose proof (schedule_event_frame c s0 Stop _ _ _ _ _ ES) as (F1 & F2 & F3 & F4 & F5 & F6 & F7 & F8 & F9).
      rewrite F7. auto.
  - unfold tick_begin. destruct (s_running s); auto. destruct (s_queue s); auto.
    destruct (drain c _ _) eqn:ED; auto. apply drain_async in ED. rewrite ED. easy.
  - unfold scan, tick_end. destruct (s_queue s) as [|q rest]; auto. destruct (Nat.ltb _ _).
    + destruct (nth_error _ _) as [sl|]; auto. destruct (sl_ev sl) as [[|n]|]; auto.
    + destruct rest; auto. destruct (_ <? _); auto.
Qed.

Lemma step_crashed : forall c s a, s_ctl s = Crashed -> step c s a = s.
Proof. intros. unfold step. destruct a; rewrite H; auto. Qed.

Lemma exec_crashed : forall c l s, s_ctl s = Crashed -> exec c s l = s.
Proof. induction l; simpl; intros; auto. rewrite step_crashed by auto. auto. Qed.

Lemma U_exec : forall c n0 l s, c_uniq c n0 = true -> Inv c s -> U c n0 s ->
  (forall x, In x (s_async s) -> fst (fst x) <> n0) -> Forall (no_async n0) l ->
  s_ctl (exec c s l) <> Crashed -> U c n0 (exec c s l).
Proof.
  induction l; simpl; intros s HU I HUs HA HN HC; auto. inversion HN; subst.
  assert (K : s_ctl (step c s a) <> Crashed).
  { intros K. apply HC. fold (exec c (step c s a) l). rewrite exec_crashed; auto. }
  apply IHl; auto.
  - apply step_inv; auto.
  - eapply U_effs; [auto|apply step_effs; eauto|auto].
  - apply step_async; auto.
Qed.

Lemma U_reach : forall c n0 l, c_uniq c n0 = true -> Forall (no_async n0) l ->
  s_ctl (exec c init l) <> Crashed -> U c n0 (exec c init l).
Proof. intros. apply U_exec; auto using init_inv, U_init. Qed.

(** Passed slots of the current group, for executions that only need [Dn]. *)
Lemma Dn_effect : forall c n0 s s', Dn s -> effect c n0 s s' -> Dn s'.
Proof.
  intros c n0 s s' UD E. destruct E; intros x e0 Hx He.
  - rewrite H1. apply UD; auto. destruct H0 as [<-|E0]; auto. rewrite E0 in Hx. easy.
  - assert (Hr : recent (s_log s') = o :: recent (s_log s)).
    { rewrite H2. destruct H as [(-> & _)|[(-> & _)|(-> & _)]]; auto. }
    rewrite Hr. right. apply UD; auto. rewrite <- H1; auto.
  - assert (Hr : recent (s_log s') = o :: recent (s_log s)).
    { rewrite H2. destruct H1 as [->|(t & ->)]; auto. }
    rewrite Hr. right. rewrite H0 in Hx. apply in_map_iff in Hx. destruct Hx as (y & <- & Hy).
    apply centry_some in He. destruct He as (Hy1 & Hy2 & _). rewrite Hy1. apply UD; auto.
  - rewrite H2. simpl. rewrite H1, in_app_iff in Hx. destruct Hx as [Hx|[<-|[]]].
    + right. apply UD; auto.
    + left. simpl in He. unfold e_t, e_g; simpl. congruence.
  - rewrite H2. rewrite H1, in_app_iff in Hx. destruct Hx as [Hx|[<-|[]]].
    + apply UD; auto.
    + simpl in He. congruence.
  - rewrite H0 in Hx. easy.
  - rewrite H0 in Hx. easy.
Qed.
