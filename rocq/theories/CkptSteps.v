(** Histories of checkpointer operations: the invariant of every history, and what is known of a checkpoint once taken. *)
From Coq Require Import List NArith Arith Bool Lia Sorting.Sorted.
From Verif Require Import LayoutModel LayoutProofs ArchDataModel ArchDataProofs ArchDataProps StorageModel StorageProofs StorageArch StorageProps
  CkptModel CkptTree CkptOps CkptData CkptWorld.
Import ListNotations.
Open Scope N_scope.

(** Addresses do not wrap. *)
Definition op_ok (o : cop) : Prop := match o with CWrite _ addr buf => addr + N.of_nat (length buf) < 2 ^ 64 | _ => True end.

Lemma get_checkpoints_alives : forall k, get_checkpoints k = map fst (alives (k_nodes k)).
Proof.
  intros k. unfold get_checkpoints, alives, flags. induction (k_nodes k) as [|[i n] l IH]; cbn [map filter snd]; [reflexivity|].
  change (fdead (flag (i, n))) with (n_dead n). destruct (n_dead n) eqn:E; cbn [negb map]; [exact IH|]. rewrite IH. unfold shown at 1. cbn [snd fst]. rewrite E. reflexivity.
Qed.
Lemma live_listed : forall k, sorted (k_nodes k) -> forall x, live_at (k_nodes k) x <-> In x (get_checkpoints k).
Proof.
  intros k S0 x. rewrite get_checkpoints_alives. split.
  - intros [n [G E]]. change x with (fst (flag (x, n))). apply in_map. apply live_in; assumption.
  - intros H. apply in_map_iff in H. destruct H as [q [<- H]]. apply filter_In in H. destruct H as [H1 H2].
    destruct (flag_get q _ (sorted_nodup _ S0) H1) as [n [G E]]. exists n. split; [exact G|]. rewrite E in H2. change (negb (n_dead n) = true) in H2.
    destruct (n_dead n); [discriminate|reflexivity].
Qed.

Section Fixed.
  Variables (sh : overshift) (cs : list cfg).
  Hypothesis Wf : Forall (wfc sh) cs.
  Hypothesis Cap : capacity cs < 2 ^ 32.
  Notation restores := (restores cs).

  Definition INV (w : world) : Prop := (exists fs, WI0 cs w fs) \/ (exists h c fs, WI cs w h c fs).
  (** The current checkpoint restores to bytes from which the ArchDatas differ in dirty lines only. *)
  Definition FR (w : world) : Prop := exists h c fs gs, WI cs w h c fs /\ restores (k_nodes (w_ck w)) c gs /\ DT cs (w_dats w) fs gs.
  (** [id] is not a future identifier; as long as it is listed it restores to [fs]. *)
  Definition Keep (id t : N) (fs : list (N -> N)) (w : world) : Prop :=
    id < k_next (w_ck w) /\ (forall n, get id (k_nodes (w_ck w)) = Some n -> n_tick n = t) /\ (live_at (k_nodes (w_ck w)) id -> restores (k_nodes (w_ck w)) id fs).
  Lemma INV_sorted : forall w, INV w -> sorted (k_nodes (w_ck w)).
  Proof.
    intros w [[fs H]|[h [c [fs H]]]]; [unfold sorted; rewrite (w0_nodes _ _ _ H); constructor|exact (ti_sorted _ _ _ _ (wi_tree _ _ _ _ _ H))].
  Qed.
  Lemma INV_D : forall w, INV w -> exists fs, D cs (w_dats w) fs.
  Proof. intros w [[fs H]|[h [c [fs H]]]]; exists fs; [exact (w0_dats _ _ _ H)|exact (wi_dats _ _ _ _ _ H)]. Qed.
  Lemma INV_dats : forall w d fs, INV w -> D cs d fs -> INV (with_dats w d).
  Proof.
    intros w d fs [[fs0 [H1 H2 H3 H4 H5 H6 H7]]|[h [c [fs0 H]]]] HD; [left; exists fs; constructor; assumption|].
    right. exists h, c, fs. apply (WI_dats cs w h c fs0 d fs H HD).
  Qed.

  (** The listing: identifiers with ticks. *)
  Definition listing (w : world) : list (N * N) := map (fun q => (fst q, ftick q)) (alives (k_nodes (w_ck w))).
  (** What a step that is not refused does to the listing and to the number of checkpoints created. *)
  Definition sapply (w : world) (o : cop) (s : N * list (N * N)) : N * list (N * N) :=
    let '(n, l) := s in
    match o with
    | CHead => (n + 1, l ++ [(n, now w)])
    | CCreate _ => if n =? 0 then (2, [(0, now w); (1, now w)]) else (n + 1, l ++ [(n, now w)])
    | CDelete id => (n, filter (fun p => negb (fst p =? id)) l)
    | _ => (n, l)
    end.

  (** One step of any history. *)
  Definition good_step (w : world) (o : cop) (w' : world) : Prop :=
    INV w' /\ (forall id t fs, Keep id t fs w -> Keep id t fs w') /\
    (k_total (w_ck w'), listing w') = sapply w o (k_total (w_ck w), listing w) /\
    (w_sched w = None <-> w_sched w' = None).

  Lemma live_alives : forall l l' y, alives l' = alives l -> sorted l -> sorted l' -> live_at l' y -> live_at l y.
  Proof.
    intros l l' y E S1 S2 [n [G DN]]. pose proof (live_in _ _ _ G DN) as I. rewrite E in I. apply filter_In in I. destruct I as [I1 I2].
    destruct (flag_get _ _ (sorted_nodup _ S1) I1) as [m [M1 M2]]. cbn [flag fst] in M1. exists m. split; [exact M1|]. injection M2 as M2 _ _. congruence.
  Qed.
  Lemma live_in_alives : forall l y, sorted l -> (live_at l y <-> In y (map fst (alives l))).
  Proof.
    intros l y S0. split.
    - intros [n [G DN]]. change y with (fst (flag (y, n))). apply in_map. apply live_in; assumption.
    - intros H. apply in_map_iff in H. destruct H as [q [<- H]]. apply filter_In in H. destruct H as [H1 H2].
      destruct (flag_get q _ (sorted_nodup _ S0) H1) as [n [G E]]. exists n. split; [exact G|]. rewrite E in H2. change (negb (n_dead n) = true) in H2.
      destruct (n_dead n); [discriminate|reflexivity].
  Qed.

  Lemma create_good : forall w h c fs force, WI cs w h c fs ->
    ck_create_ w force = Refused \/ exists w', ck_create_ w force = Done w' /\ WI cs w' h (k_next (w_ck w)) fs /\
      (forall id t gs, Keep id t gs w -> Keep id t gs w') /\ listing w' = listing w ++ [(k_next (w_ck w), now w)] /\ w_sched w' = w_sched w /\
      k_next (w_ck w') = k_next (w_ck w) + 1 /\
      (force = true \/ (exists gs, restores (k_nodes (w_ck w)) c gs /\ DT cs (w_dats w) fs gs) ->
        restores (k_nodes (w_ck w')) (k_next (w_ck w)) fs /\ Keep (k_next (w_ck w)) (now w) fs w').
  Proof.
    intros w h c fs force H. destruct (ti_cur _ _ _ _ (wi_tree _ _ _ _ _ H)) as [cn GC]. pose proof (create_ok sh cs Wf Cap w h c fs force cn H GC) as Q. cbv zeta in Q.
    destruct ((k_next (w_ck w) =? no_id) || _); [left; exact Q|]. right. destruct Q as [w' [snap [E1 [E2 [E3 [E4 [E5 [E6 [E7 [[n [E8 E8']] [E9 [E10 E11]]]]]]]]]]]].
    exists w'. split; [exact E1|]. split; [exact E2|]. split; [|split; [|split; [exact E5|split; [exact E6|]]]].
    - intros id t gs [K1 [K2 K3]]. split; [lia|]. split.
      + intros m G. destruct (E11 id m G) as [m0 [G0 T0]]; [lia|]. rewrite T0. apply K2. exact G0.
      + intros L. pose proof (ti_sorted _ _ _ _ (wi_tree _ _ _ _ _ H)) as S1. pose proof (ti_sorted _ _ _ _ (wi_tree _ _ _ _ _ E2)) as S2.
        assert (L0 : live_at (k_nodes (w_ck w)) id).
        { apply live_in_alives; [exact S1|]. apply live_in_alives in L; [|exact S2]. rewrite E4, map_app in L. apply in_app_or in L.
          destruct L as [L|[L|[]]]; [exact L|]. cbn [fst] in L. lia. }
        apply E9; auto.
    - unfold listing. rewrite E4, map_app. reflexivity.
    - intros Q. split; [auto|]. split; [lia|]. split; [intros m G; congruence|]. auto.
  Qed.

  Lemma step_ok : forall w o, INV w -> op_ok o -> cstep sh w o = Refused \/ exists w', cstep sh w o = Done w' /\ good_step w o w'.
  Proof.
    intros w o HI HO. destruct (INV_D w HI) as [fs0 HD0].
    assert (SAME : forall w', (w_ck w' = w_ck w) -> INV w' -> (w_sched w = None <-> w_sched w' = None) ->
      (forall s, sapply w o s = s) -> good_step w o w').
    { intros w' E1 E2 E3 E4. split; [exact E2|]. split; [intros id t fs; unfold Keep; rewrite E1; auto|]. split; [|exact E3]. rewrite E4. unfold listing. rewrite E1. reflexivity. }
    destruct o as [i addr buf|i|n| |force|id|id| |n].
    - destruct (cwrite_ok sh cs Wf w fs0 i addr buf HD0 HO) as [E|[d' [fs' [E1 [E2 _]]]]]; [left; exact E|]. right. eexists. split; [exact E1|].
      apply SAME; [reflexivity|eapply INV_dats; eauto|reflexivity|intros []; reflexivity].
    - destruct (creset_ok sh cs Wf w fs0 i HD0) as [E|[d' [fs' [E1 E2]]]]; [left; exact E|]. right. eexists. split; [exact E1|].
      apply SAME; [reflexivity|eapply INV_dats; eauto|reflexivity|intros []; reflexivity].
    - right. eexists. split; [reflexivity|]. apply SAME; [reflexivity| |cbn [w_sched]; destruct (w_sched w); cbn; split; congruence|intros []; reflexivity].
      destruct HI as [[fs [H1 H2 H3 H4 H5 H6 H7]]|[h [c [fs [H1 H2 H3 H4 H5 H6 H7 H8 H9]]]]]; [left; exists fs; constructor; assumption|].
      right. exists h, c, fs. constructor; try assumption. intros Q x m G. cbn [w_sched w_ck] in *. apply (H8) with (x := x); [destruct (w_sched w); [discriminate|reflexivity]|exact G].
    - cbn [cstep]. destruct HI as [[fs H]|[h [c [fs H]]]].
      + right. destruct (head_ok sh cs Wf Cap w fs H) as [w' [E1 [E2 [E3 [E4 [E5 [E6 [E7 [n [E8 E9]]]]]]]]]]. exists w'. split; [exact E1|].
        split; [right; eauto|]. split; [|split].
        * intros id t gs [K1 _]. rewrite (w0_next _ _ _ H) in K1. lia.
        * unfold listing, sapply. rewrite E4, (wi_total _ _ _ _ _ E2), E6, (w0_total _ _ _ H), (w0_nodes _ _ _ H). reflexivity.
        * rewrite E5. reflexivity.
      + left. unfold ck_head. rewrite (wi_head _ _ _ _ _ H). reflexivity.
    - cbn [cstep]. unfold ck_create. destruct HI as [[fs H]|[h [c [fs H]]]].
      + rewrite (w0_head _ _ _ H). destruct (head_ok sh cs Wf Cap w fs H) as [w1 [E1 [E2 [E3 [E4 [E5 [E6 [E7 [n [E8 E9]]]]]]]]]]. rewrite E1. cbn [obind].
        destruct (create_good w1 0 0 fs force E2) as [F|[w' [F1 [F2 [F3 [F4 [F5 [F6 F7]]]]]]]].
        * exfalso. pose proof (create_ok sh cs Wf Cap w1 0 0 fs force n E2 E8) as Q. cbv zeta in Q. rewrite E6 in Q. change (1 =? no_id) with false in Q. cbn [orb] in Q.
          assert (LT : match w_sched w1 with Some t => t <? n_tick n | None => false end = false).
          { rewrite E5, E9. unfold now. destruct (w_sched w); [apply N.ltb_irrefl|reflexivity]. }
          rewrite LT in Q. destruct Q as [w' [snap [Q1 _]]]. congruence.
        * right. exists w'. split; [exact F1|]. split; [right; eauto|]. split; [|split].
          -- intros id t gs [K1 _]. rewrite (w0_next _ _ _ H) in K1. lia.
          -- unfold sapply. rewrite (w0_total _ _ _ H). cbn [N.eqb]. rewrite (wi_total _ _ _ _ _ F2), F6, E6, F4, E6. unfold listing. rewrite E4. cbn [map app fst ftick snd].
             replace (now w1) with (now w) by (unfold now; rewrite E5; reflexivity). reflexivity.
          -- rewrite F5, E5. reflexivity.
      + rewrite (wi_head _ _ _ _ _ H). destruct (create_good w h c fs force H) as [F|[w' [F1 [F2 [F3 [F4 [F5 [F6 F7]]]]]]]]; [left; exact F|]. right. exists w'. split; [exact F1|].
        split; [right; eauto|]. split; [exact F3|]. split; [|rewrite F5; reflexivity]. unfold sapply. rewrite (wi_total _ _ _ _ _ F2), F6, (wi_total _ _ _ _ _ H), F4.
        destruct (N.eqb_spec (k_next (w_ck w)) 0) as [E|]; [|reflexivity].
        destruct (ti_head _ _ _ _ (wi_tree _ _ _ _ _ H)) as [hn [GH _]]. pose proof (ti_next _ _ _ _ (wi_tree _ _ _ _ _ H) h (get_key _ _ _ GH)). lia.
    - cbn [cstep]. destruct (get id (k_nodes (w_ck w))) as [n|] eqn:G; [|left; apply load_none; exact G].
      destruct HI as [[fs H]|[h [c [fs H]]]]; [rewrite (w0_nodes _ _ _ H) in G; discriminate|]. right.
      destruct (ckload_ok sh cs Wf Cap w h c fs id n H G) as [w' [fs' [E1 [E2 [E3 [E4 [E5 [E6 [E7 [E8 E9]]]]]]]]]]. exists w'. split; [exact E1|].
      split; [right; eauto|]. split; [|split].
      + intros i t gs [K1 [K2 K3]]. split; [lia|]. split; [intros m Gm; destruct (E9 i m Gm) as [m0 [Z1 Z2]]; rewrite Z2; auto|].
        intros L. assert (L0 : live_at (k_nodes (w_ck w)) i) by (eapply live_alives; eauto; [exact (ti_sorted _ _ _ _ (wi_tree _ _ _ _ _ H))|exact (ti_sorted _ _ _ _ (wi_tree _ _ _ _ _ E2))]). auto.
      + cbn [sapply]. unfold listing. rewrite E6, (wi_total _ _ _ _ _ E2), E7, (wi_total _ _ _ _ _ H). reflexivity.
      + rewrite E5. destruct (w_sched w); split; congruence.
    - cbn [cstep]. destruct (get id (k_nodes (w_ck w))) as [n|] eqn:G; [|left; rewrite (delete_none _ _ G); reflexivity].
      destruct HI as [[fs H]|[h [c [fs H]]]]; [rewrite (w0_nodes _ _ _ H) in G; discriminate|]. right.
      destruct (delete_ok cs w h c fs id n H G) as [k' [E1 [E2 [E3 [E4 [E5 [E6 E7]]]]]]]. rewrite E1. cbn [obind]. eexists. split; [reflexivity|].
      split; [right; eauto|]. cbn [w_ck w_sched]. split; [|split; [|reflexivity]].
      + intros i t gs [K1 [K2 K3]]. unfold Keep. cbn [w_ck]. split; [lia|]. split; [intros m Gm; destruct (E7 i m Gm) as [m0 [Z1 Z2]]; rewrite Z2; auto|].
        intros L. pose proof (ti_sorted _ _ _ _ (wi_tree _ _ _ _ _ H)) as S1. pose proof (ti_sorted _ _ _ _ (wi_tree _ _ _ _ _ E2)) as S2. cbn [w_ck] in S2.
        apply live_in_alives in L; [|exact S2]. rewrite E3, (map_fst_filter _ (fun j => negb (j =? id))) in L. apply filter_In in L. destruct L as [L1 L2].
        apply live_in_alives in L1; [|exact S1]. apply E5; auto. intros ->. rewrite N.eqb_refl in L2. discriminate.
      + cbn [sapply]. unfold listing. cbn [w_ck]. pose proof (wi_total _ _ _ _ _ E2) as T2. cbn [w_ck] in T2. rewrite T2, E4, (wi_total _ _ _ _ _ H), E3. f_equal.
        clear. induction (alives (k_nodes (w_ck w))) as [|q r IH]; cbn [filter map fst]; [reflexivity|]. destruct (negb (fst q =? id)); cbn [map]; congruence.
    - right. cbn [cstep]. eexists. split; [reflexivity|]. destruct HI as [[fs H]|[h [c [fs H]]]].
      + unfold ck_forget. rewrite (w0_head _ _ _ H). destruct w. apply SAME; [reflexivity| |reflexivity|intros []; reflexivity]. left. eauto.
      + unfold ck_forget. rewrite (wi_head _ _ _ _ _ H). destruct H as [H1 H2 H3 H4 H5 H6 H7 H8 H9]. destruct (ti_head _ _ _ _ H3) as [hn [GH _]].
        split; [|split; [|split; [|reflexivity]]].
        * right. exists h, h, fs. constructor; cbn [w_ck with_cur k_head k_cur k_nodes k_next w_dats]; auto. eapply TI_cur; eauto.
        * intros id t gs K. exact K.
        * reflexivity.
    - right. cbn [cstep]. eexists. split; [reflexivity|]. split; [|split; [|split; [reflexivity|reflexivity]]].
      + destruct HI as [[fs [H1 H2 H3 H4 H5 H6 H7]]|[h [c [fs [H1 H2 H3 H4 H5 H6 H7 H8 H9]]]]]; [left; exists fs; constructor; assumption|].
        right. exists h, c, fs. constructor; assumption.
      + intros id t gs K. exact K.
  Qed.

  (** Is the current checkpoint still what the ArchDatas' dirty lines are relative to? Decided by what a client can see. *)
  Definition fresh_after (w : world) (o : cop) (fresh : bool) : bool :=
    match o with
    | CHead => true
    | CCreate force => force || fresh || (k_total (w_ck w) =? 0)
    | CLoad id => mem id (get_checkpoints (w_ck w))
    | CDelete _ => fresh && negb (current_id (w_ck w) =? no_id)
    | CReset _ | CForget => false
    | _ => fresh
    end.
  (** The checkpoint taken now is complete: a snapshot is asked for, or it is, or there is no checkpoint yet. *)
  Definition may (w : world) (o : cop) (fresh : bool) : Prop :=
    match o with CCreate false => fresh = true \/ k_total (w_ck w) = 0 | _ => True end.

  Lemma cur_live : forall w h c fs, WI cs w h c fs -> current_id (w_ck w) <> no_id -> live_at (k_nodes (w_ck w)) c.
  Proof.
    intros w h c fs H Q. unfold current_id in Q. rewrite (wi_cur _ _ _ _ _ H) in Q. unfold id_of in Q. destruct (ti_cur _ _ _ _ (wi_tree _ _ _ _ _ H)) as [n G].
    rewrite G in Q. unfold shown in Q. cbn [fst snd] in Q. exists n. split; [exact G|]. destruct (n_dead n); [congruence|reflexivity].
  Qed.
  Lemma WI_uniq : forall w h c fs h' c' fs', WI cs w h c fs -> WI cs w h' c' fs' -> h = h' /\ c = c'.
  Proof. intros w h c fs h' c' fs' [] []. split; congruence. Qed.
  Lemma WI_not0 : forall w h c fs fs', WI cs w h c fs -> WI0 cs w fs' -> False.
  Proof. intros w h c fs fs' [] []. congruence. Qed.
  Lemma next_pos : forall w h c fs, WI cs w h c fs -> k_total (w_ck w) <> 0.
  Proof.
    intros w h c fs H. rewrite (wi_total _ _ _ _ _ H). destruct (ti_head _ _ _ _ (wi_tree _ _ _ _ _ H)) as [hn [GH _]].
    pose proof (ti_next _ _ _ _ (wi_tree _ _ _ _ _ H) h (get_key _ _ _ GH)). lia.
  Qed.

  Lemma fresh_ok : forall w o fresh w', INV w -> op_ok o -> (fresh = true -> FR w) -> cstep sh w o = Done w' ->
    fresh_after w o fresh = true -> FR w'.
  Proof.
    intros w o fresh w' HI HO HF HS HA. destruct o as [i addr buf|i|n| |force|id|id| |n]; cbn [fresh_after may] in *; try discriminate.
    - destruct (HF HA) as [h [c [fs [gs [H1 [H2 H3]]]]]]. destruct (cwrite_ok sh cs Wf w fs i addr buf (wi_dats _ _ _ _ _ H1) HO) as [E|[d' [fs' [E1 [E2 E3]]]]]; [congruence|].
      assert (w' = with_dats w d') by congruence. subst w'. exists h, c, fs', gs. split; [apply (WI_dats cs w h c fs d' fs' H1 E2)|]. split; [exact H2|]. apply E3. exact H3.
    - destruct (HF HA) as [h [c [fs [gs [[H1 H2 H3 H4 H5 H6 H7 H8 H9] [R1 R2]]]]]]. cbn [cstep] in HS. injection HS as <-. exists h, c, fs, gs. split; [|auto].
      constructor; auto. intros Q x m G. cbn [w_sched w_ck] in *. apply (H8) with (x := x); [destruct (w_sched w); [discriminate|reflexivity]|exact G].
    - cbn [cstep] in HS. destruct HI as [[fs H]|[h [c [fs H]]]]; [|unfold ck_head in HS; rewrite (wi_head _ _ _ _ _ H) in HS; discriminate].
      destruct (head_ok sh cs Wf Cap w fs H) as [w1 [E1 [E2 [E3 _]]]]. assert (w1 = w') by congruence. subst w1. exists 0, 0, fs, fs.
      split; [exact E2|]. split; [exact E3|]. apply DT_refl. exact (wi_dats _ _ _ _ _ E2).
    - cbn [cstep] in HS. unfold ck_create in HS. destruct HI as [[fs H]|[h [c [fs H]]]].
      + rewrite (w0_head _ _ _ H) in HS. destruct (head_ok sh cs Wf Cap w fs H) as [w1 [E1 [E2 [E3 _]]]]. rewrite E1 in HS. cbn [obind] in HS.
        destruct (create_good w1 0 0 fs force E2) as [F|[w2 [F1 [F2 [F3 [F4 [F5 [F6 F7]]]]]]]]; [congruence|]. assert (w2 = w') by congruence. subst w2.
        destruct F7 as [F7 _]; [right; exists fs; split; [exact E3|apply DT_refl; exact (wi_dats _ _ _ _ _ E2)]|].
        exists 0, (k_next (w_ck w1)), fs, fs. split; [exact F2|]. split; [exact F7|]. apply DT_refl. exact (wi_dats _ _ _ _ _ F2).
      + rewrite (wi_head _ _ _ _ _ H) in HS. destruct (create_good w h c fs force H) as [F|[w2 [F1 [F2 [F3 [F4 [F5 [F6 F7]]]]]]]]; [congruence|]. assert (w2 = w') by congruence. subst w2.
        assert (Q : force = true \/ exists fs1 gs, WI cs w h c fs1 /\ restores (k_nodes (w_ck w)) c gs /\ DT cs (w_dats w) fs1 gs).
        { destruct force; [left; reflexivity|]. right. cbn [orb] in HA. destruct (N.eqb_spec (k_total (w_ck w)) 0) as [HM|_]; [exfalso; exact (next_pos _ _ _ _ H HM)|].
          rewrite orb_false_r in HA. destruct (HF HA) as [h' [c' [fs1 [gs [Z1 Z2]]]]]. destruct (WI_uniq _ _ _ _ _ _ _ H Z1) as [<- <-]. eauto. }
        destruct Q as [->|[fs1 [gs [Z1 [Z2 Z3]]]]].
        * destruct (F7 (or_introl eq_refl)) as [F8 _]. exists h, (k_next (w_ck w)), fs, fs. split; [exact F2|]. split; [exact F8|]. apply DT_refl. exact (wi_dats _ _ _ _ _ F2).
        * destruct (create_good w h c fs1 force Z1) as [F|[w2 [G1 [G2 [_ [_ [_ [_ G7]]]]]]]]; [congruence|]. assert (w2 = w') by congruence. subst w2.
          destruct G7 as [G8 _]; [right; eauto|]. exists h, (k_next (w_ck w)), fs1, fs1. split; [exact G2|]. split; [exact G8|]. apply DT_refl. exact (wi_dats _ _ _ _ _ G2).
    - cbn [cstep] in HS. destruct (get id (k_nodes (w_ck w))) as [n|] eqn:G; [|rewrite (load_none sh w id G) in HS; discriminate].
      pose proof (INV_sorted w HI) as S0. destruct HI as [[fs H]|[h [c [fs H]]]]; [rewrite (w0_nodes _ _ _ H) in G; discriminate|].
      apply mem_in in HA. apply (live_listed (w_ck w) S0) in HA.
      destruct (ckload_ok sh cs Wf Cap w h c fs id n H G) as [w1 [fs' [E1 [E2 [E3 [E4 [E5 [E6 [E7 [E8 E9]]]]]]]]]]. assert (w1 = w') by congruence. subst w1.
      exists h, id, fs', fs'. split; [exact E2|]. split; [apply E8; assumption|]. apply DT_refl. exact (wi_dats _ _ _ _ _ E2).
    - apply andb_prop in HA. destruct HA as [HA1 HA2]. destruct (HF HA1) as [h [c [fs [gs [H1 [H2 H3]]]]]].
      cbn [cstep] in HS. destruct (get id (k_nodes (w_ck w))) as [n|] eqn:G; [|rewrite (delete_none _ _ G) in HS; discriminate].
      destruct (delete_ok cs w h c fs id n H1 G) as [k' [E1 [E2 [E3 [E4 [E5 [E6 E7]]]]]]]. rewrite E1 in HS. cbn [obind] in HS. injection HS as <-.
      exists h, c, fs, gs. split; [exact E2|]. cbn [w_ck w_dats]. split; [|exact H3]. apply E6; [|exact H2]. apply (cur_live _ _ _ _ H1).
      intros Q. rewrite Q in HA2. discriminate.
    - destruct (HF HA) as [h [c [fs [gs [[H1 H2 H3 H4 H5 H6 H7 H8 H9] [R1 R2]]]]]]. cbn [cstep] in HS. injection HS as <-. exists h, c, fs, gs. split; [|auto]. constructor; auto.
  Qed.

  (** A checkpoint that was not listed before a step and is after it holds the bytes there are after it. *)
  Lemma new_ok : forall w o fresh w' id, INV w -> op_ok o -> (fresh = true -> FR w) -> may w o fresh -> cstep sh w o = Done w' ->
    In id (get_checkpoints (w_ck w')) -> ~ In id (get_checkpoints (w_ck w)) ->
    exists fs, D cs (w_dats w') fs /\ Keep id (now w') fs w'.
  Proof.
    intros w o fresh w' id HI HO HF HM HS I1 I2. destruct (step_ok w o HI HO) as [E|[w1 [E1 E2]]]; [congruence|]. assert (w1 = w') by congruence. subst w1.
    destruct E2 as [_ [_ [E3 _]]]. assert (LS : forall v, get_checkpoints (w_ck v) = map fst (listing v)).
    { intros v. rewrite get_checkpoints_alives. unfold listing. rewrite map_map. reflexivity. }
    rewrite LS in I1, I2.
    destruct o as [i addr buf|i|n| |force|j|j| |n]; cbn [sapply] in E3; injection E3 as _ E3 || idtac;
      try (exfalso; rewrite E3 in I1; contradiction).
    - cbn [cstep] in HS. destruct HI as [[fs H]|[h [c [fs H]]]]; [|unfold ck_head in HS; rewrite (wi_head _ _ _ _ _ H) in HS; discriminate].
      destruct (head_ok sh cs Wf Cap w fs H) as [w1 [F1 [F2 [F3 [F4 [F5 [F6 [F7 [n [F8 F9]]]]]]]]]]. assert (w1 = w') by congruence. subst w1.
      exists fs. split; [exact (wi_dats _ _ _ _ _ F2)|]. unfold listing in I1. rewrite F4 in I1. destruct I1 as [<-|[]]. cbn [fst].
      split; [lia|]. split; [intros m G; unfold now; rewrite F5; fold (now w); congruence|]. auto.
    - cbn [cstep] in HS. unfold ck_create in HS. destruct HI as [[fs H]|[h [c [fs H]]]].
      + rewrite (w0_head _ _ _ H) in HS. destruct (head_ok sh cs Wf Cap w fs H) as [w1 [F1 [F2 [F3 [F4 [F5 [F6 [F7 [n [F8 F9]]]]]]]]]]. rewrite F1 in HS. cbn [obind] in HS.
        destruct (create_good w1 0 0 fs force F2) as [F|[w2 [G1 [G2 [G3 [G4 [G5 [G6 G7]]]]]]]]; [congruence|]. assert (w2 = w') by congruence. subst w2.
        exists fs. split; [exact (wi_dats _ _ _ _ _ G2)|].
        assert (NW : now w' = now w /\ now w1 = now w) by (unfold now; rewrite G5, F5; auto). destruct NW as [NW1 NW2].
        rewrite G4 in I1. rewrite map_app in I1. apply in_app_or in I1. destruct I1 as [I1|[<-|[]]].
        * unfold listing in I1. rewrite F4 in I1. destruct I1 as [<-|[]]. cbn [fst]. apply G3. split; [lia|]. split; [intros m G; congruence|auto].
        * cbn [fst]. rewrite NW1, <- NW2. apply G7. right. exists fs. split; [exact F3|]. apply DT_refl. exact (wi_dats _ _ _ _ _ F2).
      + rewrite (wi_head _ _ _ _ _ H) in HS.
        assert (Q : exists fs1, WI cs w h c fs1 /\ (force = true \/ exists gs, restores (k_nodes (w_ck w)) c gs /\ DT cs (w_dats w) fs1 gs)).
        { destruct force; [exists fs; auto|]. destruct HM as [HM|HM]; [|exfalso; exact (next_pos _ _ _ _ H HM)].
          destruct (HF HM) as [h' [c' [fs1 [gs [Z1 Z2]]]]]. destruct (WI_uniq _ _ _ _ _ _ _ H Z1) as [<- <-]. eauto. }
        destruct Q as [fs1 [Q1 Q2]]. destruct (create_good w h c fs1 force Q1) as [F|[w2 [G1 [G2 [G3 [G4 [G5 [G6 G7]]]]]]]]; [congruence|]. assert (w2 = w') by congruence. subst w2.
        exists fs1. split; [exact (wi_dats _ _ _ _ _ G2)|]. rewrite G4, map_app in I1. apply in_app_or in I1. destruct I1 as [I1|[<-|[]]]; [contradiction|]. cbn [fst].
        replace (now w') with (now w) by (unfold now; rewrite G5; reflexivity). apply G7. exact Q2.
    - exfalso. apply I2. rewrite E3 in I1. apply in_map_iff in I1. destruct I1 as [q [<- I1]]. apply filter_In in I1. apply in_map. tauto.
  Qed.
End Fixed.
