(** What each operation of the checkpointer does to a well-formed checkpointer and its ArchDatas. *)
From Coq Require Import List NArith Arith Bool Lia Sorting.Sorted.
From Verif Require Import LayoutModel LayoutProofs ArchDataModel ArchDataProofs ArchDataProps StorageModel StorageProofs StorageArch
  CkptModel CkptTree CkptOps CkptData.
Import ListNotations.
Open Scope N_scope.

Lemma TI_cur : forall l h c c' nx n, TI l h c nx -> get c' l = Some n -> TI l h c' nx.
Proof. intros l h c c' nx n [] G. constructor; eauto. Qed.
(** Ticks grow away from the head. *)
Lemma tick_head : forall l h c nx hn, TI l h c nx -> get h l = Some hn -> forall m x n, (below x l < m)%nat -> get x l = Some n -> n_tick hn <= n_tick n.
Proof.
  intros l h c nx hn T GH. induction m as [|m IH]; intros x n HF G; [lia|]. destruct (N.eq_dec x h) as [->|XH].
  - assert (n = hn) by congruence. subst. lia.
  - destruct (ti_prev _ _ _ _ T x n G XH) as [p [pn [P1 [P2 [P3 [P4 _]]]]]]. pose proof (below_lt p x l P3 (get_key _ _ _ P2)).
    specialize (IH p pn ltac:(lia) P2). lia.
Qed.
Lemma distance_ok : forall l h c nx, TI l h c nx -> forall fuel x n, (below x l < fuel)%nat -> get x l = Some n -> exists d, distance fuel l x = Done d.
Proof.
  intros l h c nx T. induction fuel as [|f IH]; intros x n HF G; [lia|]. cbn [distance]. unfold deref. rewrite G. cbn [obind].
  destruct (n_snap n) eqn:ES; [eauto|]. assert (XH : x <> h). { intros ->. destruct (ti_head _ _ _ _ T) as [hn [H1 [_ H2]]]. congruence. }
  destruct (ti_prev _ _ _ _ T x n G XH) as [p [pn [P1 [P2 [P3 _]]]]]. rewrite P1. pose proof (below_lt p x l P3 (get_key _ _ _ P2)).
  destruct (IH p pn) as [d Hd]; [lia|exact P2|]. rewrite Hd. cbn [obind]. eauto.
Qed.

(** A new checkpoint after [c]. *)
Lemma create_tree : forall l h c nx cn t snap s, TI l h c nx -> get c l = Some cn -> n_tick cn <= t ->
  exists l1, add_next c nx (l ++ [(nx, mkNode t false (Some c) [] snap v_new)]) = Done l1 /\
    let l' := upd nx (fun n => mkNode (n_tick n) (n_dead n) (n_prev n) (n_nexts n) (n_snap n) s) l1 in
    TI l' h nx (nx + 1) /\ flags l' = flags l ++ [(nx, (false, snap, t))] /\
    forall y, get y l' = if y =? nx then Some (mkNode t false (Some c) [] snap s)
                         else if y =? c then Some (set_nexts (n_nexts cn ++ [nx]) cn) else get y l.
Proof.
  intros l h c nx cn t snap s T GC HT. set (new := mkNode t false (Some c) [] snap v_new).
  assert (FR : forall x n, get x l = Some n -> x < nx) by (intros x n G; apply (ti_next _ _ _ _ T); eapply get_key; exact G).
  pose proof (FR c cn GC) as CN. assert (GN : get nx l = None) by (destruct (get nx l) eqn:E; [specialize (FR _ _ E); lia|reflexivity]).
  assert (G0 : forall y, get y (l ++ [(nx, new)]) = if y =? nx then Some new else get y l).
  { intros y. rewrite get_app. cbn [get]. destruct (N.eqb_spec y nx) as [->|NY]; [rewrite GN, N.eqb_refl; reflexivity|].
    destruct (get y l); [reflexivity|]. destruct (N.eqb_spec nx y); [congruence|reflexivity]. }
  assert (MN : mem nx (n_nexts cn) = false).
  { apply mem_out. intros H. destruct (ti_nexts _ _ _ _ T c cn nx GC H) as [dn [D _]]. congruence. }
  unfold add_next, deref. rewrite !G0, N.eqb_refl. destruct (N.eqb_spec c nx) as [|CX]; [lia|]. rewrite GC. cbn [obind]. unfold new at 1 2. cbn [n_prev n_tick is].
  rewrite N.eqb_refl. cbn [negb]. destruct (N.ltb_spec t (n_tick cn)); [lia|]. rewrite MN. eexists. split; [reflexivity|]. cbv zeta.
  set (l' := upd nx _ _).
  assert (GG : forall y, get y l' = if y =? nx then Some (mkNode t false (Some c) [] snap s)
                         else if y =? c then Some (set_nexts (n_nexts cn ++ [nx]) cn) else get y l).
  { intros y. unfold l'. rewrite !get_upd, !G0, N.eqb_refl. destruct (N.eqb_spec nx c); [lia|]. cbn [option_map].
    destruct (N.eqb_spec y nx) as [->|]; [reflexivity|]. destruct (N.eqb_spec y c) as [->|]; [|reflexivity].
    destruct (N.eqb_spec c nx); [lia|]. rewrite GC. reflexivity. }
  assert (FL : flags l' = flags l ++ [(nx, (false, snap, t))]).
  { unfold l'. rewrite !flags_upd by (intros; reflexivity). unfold flags. rewrite map_app. reflexivity. }
  split; [|split; [exact FL|exact GG]].
  assert (KK : keysn l' = keysn l ++ [nx]) by (rewrite !keys_flags, FL, map_app; reflexivity).
  constructor.
  - unfold sorted. rewrite KK. apply SS_snoc; [exact (ti_sorted _ _ _ _ T)|]. exact (ti_next _ _ _ _ T).
  - intros x Hx. rewrite KK in Hx. apply in_app_or in Hx. destruct Hx as [Hx|[<-|[]]]; [|lia]. pose proof (ti_next _ _ _ _ T x Hx). lia.
  - destruct (ti_head _ _ _ _ T) as [hn [H1 [H2 H3]]]. rewrite GG. pose proof (FR h hn H1). destruct (N.eqb_spec h nx); [lia|].
    destruct (N.eqb_spec h c) as [->|]; [|eauto]. assert (hn = cn) by congruence. subst hn. eauto.
  - rewrite GG, N.eqb_refl. eauto.
  - intros x n G XH. rewrite GG in G. destruct (N.eqb_spec x nx) as [->|NX].
    + injection G as <-. cbn [n_prev n_tick]. exists c, (set_nexts (n_nexts cn ++ [nx]) cn). split; [reflexivity|]. rewrite GG, N.eqb_refl.
      destruct (N.eqb_spec c nx); [lia|]. split; [reflexivity|]. split; [exact CN|]. split; [exact HT|]. apply in_or_app. right. left. reflexivity.
    + assert (P : exists p pn, n_prev n = Some p /\ get p l = Some pn /\ p < x /\ n_tick pn <= n_tick n /\ In x (n_nexts pn)).
      { destruct (N.eqb_spec x c) as [->|]; [|exact (ti_prev _ _ _ _ T x n G XH)]. injection G as <-. exact (ti_prev _ _ _ _ T c cn GC XH). }
      destruct P as [p [pn [P1 [P2 [P3 [P4 P5]]]]]]. pose proof (FR p pn P2). rewrite P1. destruct (N.eq_dec p c) as [->|PC].
      * assert (pn = cn) by congruence. subst pn. exists c, (set_nexts (n_nexts cn ++ [nx]) cn). split; [reflexivity|]. rewrite GG, N.eqb_refl.
        destruct (N.eqb_spec c nx); [lia|]. split; [reflexivity|]. split; [exact P3|]. split; [exact P4|]. apply in_or_app. left. exact P5.
      * exists p, pn. split; [reflexivity|]. rewrite GG. destruct (N.eqb_spec p nx); [lia|]. destruct (N.eqb_spec p c); [congruence|]. auto.
  - intros x n d G I. rewrite GG in G.
    assert (OLD : forall m e, get x l = Some m -> In e (n_nexts m) -> exists dn, get e l' = Some dn /\ n_prev dn = Some x).
    { intros m e Gm Ie. destruct (ti_nexts _ _ _ _ T x m e Gm Ie) as [dn [D1 D2]]. pose proof (FR e dn D1). rewrite GG. destruct (N.eqb_spec e nx); [lia|].
      destruct (N.eqb_spec e c) as [->|]; [|eauto]. assert (dn = cn) by congruence. subst dn. eauto. }
    destruct (N.eqb_spec x nx) as [->|NX]; [injection G as <-; destruct I|]. destruct (N.eqb_spec x c) as [->|]; [|eauto].
    injection G as <-. cbn [set_nexts n_nexts] in I. apply in_app_or in I. destruct I as [I|[<-|[]]]; [eauto|]. rewrite GG, N.eqb_refl. eauto.
  - intros x n G. rewrite GG in G. destruct (N.eqb_spec x nx) as [->|NX]; [injection G as <-; constructor|].
    destruct (N.eqb_spec x c) as [->|]; [|exact (ti_nodup _ _ _ _ T x n G)]. injection G as <-. cbn [set_nexts n_nexts].
    pose proof (ti_nodup _ _ _ _ T c cn GC) as ND. apply mem_out in MN. clear - ND MN. induction (n_nexts cn) as [|z r IH]; cbn [app]; [repeat constructor; intros []|].
    inversion ND as [|? ? N1 N2]; subst. constructor; [|apply IH; [intros H; apply MN; right; exact H|exact N2]].
    intros H. apply in_app_or in H. destruct H as [H|[<-|[]]]; [contradiction|]. apply MN. left. reflexivity.
Qed.

(** Flagging a checkpoint. *)
Lemma dead_tree : forall l h c nx id n, TI l h c nx -> get id l = Some n -> n_dead n = false ->
  let l' := upd id set_dead l in
  TI l' h c nx /\ alives l' = filter (fun q => negb (fst q =? id)) (alives l) /\ length (deads l') = S (length (deads l)) /\
  (forall y, get y l' = if y =? id then Some (set_dead n) else get y l).
Proof.
  intros l h c nx id n T G DN l'. assert (GG : forall y, get y l' = if y =? id then Some (set_dead n) else get y l).
  { intros y. unfold l'. rewrite get_upd, G. reflexivity. }
  assert (GE : forall y m', get y l' = Some m' -> exists m, get y l = Some m /\ n_prev m' = n_prev m /\ n_nexts m' = n_nexts m /\ n_tick m' = n_tick m /\ n_snap m' = n_snap m).
  { intros y m' H. rewrite GG in H. destruct (N.eqb_spec y id) as [->|]; [injection H as <-; exists n; auto|exists m'; auto]. }
  assert (EG : forall y m, get y l = Some m -> exists m', get y l' = Some m' /\ n_prev m' = n_prev m /\ n_nexts m' = n_nexts m /\ n_tick m' = n_tick m /\ n_snap m' = n_snap m).
  { intros y m H. rewrite GG. destruct (N.eqb_spec y id) as [->|]; [|exists m; auto]. assert (m = n) by congruence. subst m. exists (set_dead n). auto. }
  split; [|split; [|split; [|exact GG]]].
  - constructor.
    + unfold sorted, l'. rewrite keys_upd. exact (ti_sorted _ _ _ _ T).
    + unfold l'. rewrite keys_upd. exact (ti_next _ _ _ _ T).
    + destruct (ti_head _ _ _ _ T) as [hn [H1 [H2 H3]]]. destruct (EG h hn H1) as [m [M1 [M2 [M3 [M4 M5]]]]]. exists m. repeat split; congruence.
    + destruct (ti_cur _ _ _ _ T) as [cn H1]. destruct (EG c cn H1) as [m [M1 _]]. eauto.
    + intros x m Gx XH. destruct (GE x m Gx) as [m0 [M1 [M2 [M3 [M4 M5]]]]]. destruct (ti_prev _ _ _ _ T x m0 M1 XH) as [p [pn [P1 [P2 [P3 [P4 P5]]]]]].
      destruct (EG p pn P2) as [q [Q1 [Q2 [Q3 [Q4 Q5]]]]]. exists p, q. rewrite M2, M4, Q3, Q4. auto.
    + intros x m d Gx I. destruct (GE x m Gx) as [m0 [M1 [M2 [M3 [M4 M5]]]]]. rewrite M3 in I. destruct (ti_nexts _ _ _ _ T x m0 d M1 I) as [dn [D1 D2]].
      destruct (EG d dn D1) as [q [Q1 [Q2 _]]]. exists q. split; [exact Q1|congruence].
    + intros x m Gx. destruct (GE x m Gx) as [m0 [M1 [M2 [M3 _]]]]. rewrite M3. exact (ti_nodup _ _ _ _ T x m0 M1).
  - pose proof (sorted_nodup _ (ti_sorted _ _ _ _ T)) as ND. unfold l'. clear - ND G DN. unfold alives. induction l as [|[i m] l IH]; cbn [get] in G; [discriminate|].
    cbn [keysn map fst] in ND. inversion ND as [|? ? N1 N2]; subst. cbn [upd]. destruct (N.eqb_spec i id) as [->|NI].
    + injection G as ->. cbn [flags map filter flag fst snd fdead set_dead n_dead]. unfold fdead at 1 3. cbn [flag fst snd set_dead n_dead]. rewrite DN. cbn [negb filter fst].
      rewrite N.eqb_refl. cbn [negb]. rewrite filter_filter. fold (flags l). apply filter_ext_in'. intros q Hq. destruct (N.eqb_spec (fst q) id) as [E|]; [|rewrite andb_true_r; reflexivity].
      exfalso. apply N1. rewrite <- E. apply in_map_iff in Hq. destruct Hq as [r [<- Hr]]. cbn [flag fst]. apply in_map. exact Hr.
    + cbn [flags map filter]. specialize (IH G N2). fold (flags (upd id set_dead l)) (flags l). destruct (negb (fdead (flag (i, m)))); [|exact IH]. cbn [filter].
      change (fst (flag (i, m))) with i. destruct (N.eqb_spec i id); [congruence|]. cbn [negb]. f_equal. exact IH.
  - unfold l'. clear - G DN. unfold deads. induction l as [|[i m] l IH]; cbn [get] in G; [discriminate|]. cbn [upd]. destruct (N.eqb_spec i id) as [->|NI].
    + injection G as ->. cbn [flags map filter]. change (fdead (flag (id, set_dead n))) with true. change (fdead (flag (id, n))) with (n_dead n). rewrite DN. reflexivity.
    + cbn [flags map filter]. specialize (IH G). fold (flags (upd id set_dead l)) (flags l). destruct (fdead (flag (i, m))); cbn [length]; congruence.
Qed.

Definition counts (k : ckpt) : Prop :=
  k_alive k = N.of_nat (length (alives (k_nodes k))) mod 4294967296 /\
  k_snaps k = N.of_nat (length (filter fsnap (alives (k_nodes k)))) mod 4294967296 /\ cd_ok k.
Lemma live_in : forall l x n, get x l = Some n -> n_dead n = false -> In (flag (x, n)) (alives l).
Proof. intros l x n G DN. apply filter_In. split; [apply get_flag; exact G|]. unfold fdead, flag. cbn [fst snd]. rewrite DN. reflexivity. Qed.
Lemma alives_nodup : forall l, sorted l -> NoDup (map fst (alives l)).
Proof.
  intros l S0. apply sorted_nodup in S0. rewrite keys_flags in S0. unfold alives. induction (flags l) as [|q r IH]; cbn [filter map]; [constructor|].
  cbn [map] in S0. inversion S0 as [|? ? N1 N2]; subst. destruct (negb (fdead q)); [|auto]. cbn [map]. constructor; [|auto].
  intros H. apply N1. apply in_map_iff in H. destruct H as [z [<- Hz]]. apply filter_In in Hz. apply in_map. tauto.
Qed.

Section Fixed.
  Variables (sh : overshift) (cs : list cfg).
  Hypothesis Wf : Forall (wfc sh) cs.
  Hypothesis Cap : capacity cs < 2 ^ 32.
  Notation restores := (restores cs). Notation allheld := (allheld cs).

  Definition ticks0 (w : world) : Prop := w_sched w = None -> forall x n, get x (k_nodes (w_ck w)) = Some n -> n_tick n = 0.
  Record WI (w : world) (h c : N) (fs : list (N -> N)) : Prop := mkWI {
    wi_head : k_head (w_ck w) = Some h; wi_cur : k_cur (w_ck w) = Some c; wi_tree : TI (k_nodes (w_ck w)) h c (k_next (w_ck w));
    wi_counts : counts (w_ck w); wi_ids : k_next (w_ck w) <= no_id; wi_held : allheld (k_nodes (w_ck w)); wi_dats : D cs (w_dats w) fs;
    wi_ticks : ticks0 w; wi_total : k_total (w_ck w) = k_next (w_ck w) }.
  Record WI0 (w : world) (fs : list (N -> N)) : Prop := mkWI0 {
    w0_head : k_head (w_ck w) = None; w0_cur : k_cur (w_ck w) = None; w0_nodes : k_nodes (w_ck w) = []; w0_next : k_next (w_ck w) = 0;
    w0_counts : k_alive (w_ck w) = 0 /\ k_snaps (w_ck w) = 0 /\ k_deadn (w_ck w) = 0; w0_dats : D cs (w_dats w) fs;
    w0_total : k_total (w_ck w) = 0 }.

  Lemma head_ok : forall w fs, WI0 w fs -> exists w', ck_head w = Done w' /\ WI w' 0 0 fs /\ restores (k_nodes (w_ck w')) 0 fs /\
    alives (k_nodes (w_ck w')) = [(0, (false, true, now w))] /\ w_sched w' = w_sched w /\ k_next (w_ck w') = 1 /\ live_at (k_nodes (w_ck w')) 0 /\
    (exists n, get 0 (k_nodes (w_ck w')) = Some n /\ n_tick n = now w).
  Proof.
    intros w fs [H1 H2 H3 H4 [H5 [H6 H7]] HD HK]. unfold ck_head. rewrite H1.
    destruct (save_ok sh cs Wf Cap true (w_dats w) fs HD) as [d [s [segs [E1 [E2 [E3 [E4 _]]]]]]]. rewrite E1. cbn [obind].
    rewrite H3, H4. cbn [app]. eexists. split; [reflexivity|]. cbn [w_ck k_nodes w_sched k_next]. set (n := mkNode (now w) false None [] true s).
    assert (G : get 0 [(0, n)] = Some n) by reflexivity.
    assert (G1 : forall x m, get x [(0, n)] = Some m -> x = 0 /\ m = n).
    { intros x m. cbn [get]. destruct (N.eqb_spec 0 x) as [<-|]; [|discriminate]. intros Q. injection Q as <-. auto. }
    assert (T : TI [(0, n)] 0 0 (0 + 1)).
    { constructor.
      - repeat constructor.
      - intros x [<-|[]]. cbn [fst]. lia.
      - eauto. - eauto.
      - intros x m Gx XH. destruct (G1 x m Gx). congruence.
      - intros x m d' Gx I. destruct (G1 x m Gx) as [_ ->]. destruct I.
      - intros x m Gx. destruct (G1 x m Gx) as [_ ->]. constructor. }
    split; [|split; [|split; [reflexivity|split; [reflexivity|split; [reflexivity|split; exists n; auto]]]]].
    - constructor; cbn [w_ck k_head k_cur k_nodes k_next w_dats w_sched]; auto.
      + split; [|split]; unfold cd_ok; cbn [k_alive k_snaps k_deadn k_nodes]; [rewrite H5|rewrite H6|rewrite H7]; reflexivity.
      + discriminate.
      + intros x m Gx. destruct (G1 x m Gx) as [_ ->]. eauto.
      + intros Q x m Gx. cbn [w_ck k_nodes w_sched] in *. destruct (G1 x m Gx) as [_ ->]. cbn [n n_tick]. unfold now. rewrite Q. reflexivity.
      + cbn [k_total]. rewrite HK. reflexivity.
    - apply (rs_snap cs _ 0 n segs fs fs G eq_refl E3 (proj1 (D_len _ _ _ HD)) (E4 eq_refl)).
  Qed.

  Lemma create_ok : forall w h c fs force cn, WI w h c fs -> get c (k_nodes (w_ck w)) = Some cn ->
    let late := match w_sched w with Some t => t <? n_tick cn | None => false end in
    if (k_next (w_ck w) =? no_id) || late then ck_create_ w force = Refused
    else exists w' snap, ck_create_ w force = Done w' /\ WI w' h (k_next (w_ck w)) fs /\
      (exists dd, distance (depth (w_ck w)) (k_nodes (w_ck w)) c = Done dd /\ snap = force || (k_thresh (w_ck w) <=? dd)) /\
      alives (k_nodes (w_ck w')) = alives (k_nodes (w_ck w)) ++ [(k_next (w_ck w), (false, snap, now w))] /\
      w_sched w' = w_sched w /\ k_next (w_ck w') = k_next (w_ck w) + 1 /\
      live_at (k_nodes (w_ck w')) (k_next (w_ck w)) /\
      (exists n, get (k_next (w_ck w)) (k_nodes (w_ck w')) = Some n /\ n_tick n = now w) /\
      (forall y gs, live_at (k_nodes (w_ck w)) y -> restores (k_nodes (w_ck w)) y gs -> restores (k_nodes (w_ck w')) y gs) /\
      (force = true \/ (exists gs, restores (k_nodes (w_ck w)) c gs /\ DT cs (w_dats w) fs gs) -> restores (k_nodes (w_ck w')) (k_next (w_ck w)) fs) /\
      (forall y n', get y (k_nodes (w_ck w')) = Some n' -> y <> k_next (w_ck w) -> exists n, get y (k_nodes (w_ck w)) = Some n /\ n_tick n' = n_tick n).
  Proof.
    intros w h c fs force cn [HH HC T CT NI AH HD TK TT] GC late. unfold ck_create_. destruct (N.eqb_spec (k_next (w_ck w)) no_id) as [EI|EI]; [reflexivity|].
    cbn [orb]. rewrite HH. destruct (ti_head _ _ _ _ T) as [hn [GH [PH SH]]]. assert (DH : deref h (k_nodes (w_ck w)) = Done hn) by (unfold deref; rewrite GH; reflexivity).
    assert (DC : deref c (k_nodes (w_ck w)) = Done cn) by (unfold deref; rewrite GC; reflexivity).
    rewrite DH. cbn [obind].
    pose proof (tick_head _ _ _ _ hn T GH (S (below c (k_nodes (w_ck w)))) c cn ltac:(lia) GC) as TH. rewrite HC, DC. cbn [obind].
    assert (L1 : late = false -> match w_sched w with Some t => t <? n_tick hn | None => false end = false).
    { unfold late. destruct (w_sched w); [|reflexivity]. rewrite !N.ltb_ge. lia. }
    destruct late eqn:EL.
    - fold late. destruct (match w_sched w with Some t => t <? n_tick hn | None => false end); [reflexivity|]. rewrite EL. reflexivity.
    - rewrite (L1 eq_refl). fold late. rewrite EL. destruct (distance_ok _ _ _ _ T (depth (w_ck w)) c cn (below_le _ _) GC) as [dd Hd]. rewrite Hd. cbn [obind].
      set (snap := force || (k_thresh (w_ck w) <=? dd)). set (k := w_ck w) in *.
      assert (HT : n_tick cn <= now w).
      { unfold now. unfold late in EL. destruct (w_sched w) eqn:ES; [apply N.ltb_ge in EL; exact EL|]. rewrite (TK ES c cn GC). lia. }
      destruct (save_ok sh cs Wf Cap snap (w_dats w) fs HD) as [d [s [segs [E1 [E2 [E3 [E4 E5]]]]]]].
      destruct (create_tree (k_nodes k) h c (k_next k) cn (now w) snap s T GC HT) as [l1 [A1 [A2 [A3 A4]]]]. rewrite A1. cbn [obind]. rewrite E1. cbn [obind].
      set (l' := upd (k_next k) _ l1) in *. set (k' := mkCk l' _ _ _ _ _ _ _ _).
      assert (AL : alives l' = alives (k_nodes k) ++ [(k_next k, (false, snap, now w))]).
      { unfold alives. rewrite A3, filter_app. reflexivity. }
      assert (DL : deads l' = deads (k_nodes k)).
      { unfold deads. rewrite A3, filter_app. cbn [filter fdead fst snd]. apply app_nil_r. }
      assert (CNT : counts k').
      { destruct CT as [C1 [C2 C3]]. unfold counts, cd_ok. cbn [k' k_alive k_snaps k_deadn k_nodes]. rewrite AL, DL, filter_app, !app_length. cbn [length filter].
        split; [rewrite C1, inc_ok; f_equal; lia|]. split; [|exact C3]. change (fsnap (k_next k, (false, snap, now w))) with snap. destruct snap; cbn [length]; rewrite C2; [rewrite inc_ok; f_equal; lia|f_equal; lia]. }
      assert (OLD : forall y m, get y (k_nodes k) = Some m -> exists m', get y l' = Some m' /\ n_snap m' = n_snap m /\ n_prev m' = n_prev m /\ n_data m' = n_data m).
      { intros y m G. rewrite A4. pose proof (ti_next _ _ _ _ T y (get_key _ _ _ G)). destruct (N.eqb_spec y (k_next k)); [lia|].
        destruct (N.eqb_spec y c) as [->|]; [|eauto]. assert (m = cn) by congruence. subst m. eexists. split; [reflexivity|]. auto. }
      assert (AH' : allheld l').
      { intros x n G. rewrite A4 in G. destruct (N.eqb_spec x (k_next k)); [injection G as <-; eauto|]. destruct (N.eqb_spec x c) as [->|]; [|eauto]. injection G as <-. apply (AH c cn GC). }
      assert (LV : live_at l' (k_next k)) by (eexists; rewrite A4, N.eqb_refl; split; reflexivity).
      assert (GN : get (k_next k) l' = Some (mkNode (now w) false (Some c) [] snap s)) by (rewrite A4, N.eqb_refl; reflexivity).
      assert (RN : force = true \/ (exists gs, restores (k_nodes k) c gs /\ DT cs (w_dats w) fs gs) -> restores l' (k_next k) fs).
      { intros Q. destruct snap eqn:ES.
        - apply (rs_snap cs l' (k_next k) _ segs fs fs GN eq_refl E3 (proj1 (D_len _ _ _ HD)) (E4 eq_refl)).
        - destruct Q as [->|[gs [Q1 Q2]]]; [cbn in ES; discriminate|].
          apply (rs_delta cs l' (k_next k) _ c segs gs fs GN eq_refl eq_refl); [|exact E3|exact (E5 gs Q2)]. apply (restores_same cs (k_nodes k) l' OLD). exact Q1. }
      assert (LO : forall y, live_at (k_nodes k) y -> live_at l' y).
      { intros y [n [Y1 Y2]]. pose proof (ti_next _ _ _ _ T y (get_key _ _ _ Y1)). unfold live_at. rewrite A4. destruct (N.eqb_spec y (k_next k)); [lia|].
        destruct (N.eqb_spec y c) as [->|]; [|eauto]. assert (n = cn) by congruence. subst n. eauto. }
      assert (TO : forall y n', get y l' = Some n' -> y <> k_next k -> exists n, get y (k_nodes k) = Some n /\ n_tick n' = n_tick n).
      { intros y n' G NY. rewrite A4 in G. destruct (N.eqb_spec y (k_next k)); [congruence|]. destruct (N.eqb_spec y c) as [->|]; [injection G as <-|]; eauto. }
      assert (FIN : exists l2 dn, (if snap then cleanup k' (k_next k) else Done k') = Done (with_nodes k' l2 dn) /\ shr h (k_next k) (k_next k + 1) l' l2 /\ cd_ok (with_nodes k' l2 dn)).
      { destruct snap.
        - destruct (cleanup_ok k' h (k_next k) (k_next k + 1) (k_next k) _ eq_refl eq_refl A2 (proj2 (proj2 CNT)) GN) as [l2 [dn [R1 [R2 [R3 _]]]]]. eauto.
        - exists l', (k_deadn k). split; [reflexivity|]. split; [apply shr0; exact A2|]. exact (proj2 (proj2 CNT)). }
      destruct FIN as [l2 [dn [F1 [F2 F3]]]]. rewrite F1. cbn [obind]. eexists _, snap. split; [reflexivity|]. cbn [w_ck w_sched with_nodes k_nodes k_next k'].
      pose proof (shr_alives _ _ _ _ _ F2) as SA.
      split; [|split; [exists dd; split; [reflexivity|reflexivity]|]].
      + constructor; cbn [w_ck w_dats w_sched with_nodes k_head k_cur k_nodes k_next k']; auto.
        * exact (shr_TI' _ _ _ _ _ F2).
        * destruct CNT as [C1 [C2 C3]]. unfold counts. cbn [with_nodes k_alive k_snaps k_nodes k'] in *. rewrite SA. auto.
        * unfold no_id in *. lia.
        * exact (allheld_shr cs _ _ _ _ _ F2 AH').
        * intros Q x n G. cbn [w_sched w_ck with_nodes k_nodes k'] in *. destruct (shr_get _ _ _ _ _ F2 x n G) as [m [M1 [M2 _]]]. rewrite M2.
          destruct (N.eq_dec x (k_next k)) as [->|NX]; [rewrite GN in M1; injection M1 as <-; cbn [n_tick]; unfold now; rewrite Q; reflexivity|].
          destruct (TO x m M1 NX) as [m0 [Z1 Z2]]. rewrite Z2. apply (TK Q x m0 Z1).
        * fold k in TT. cbn. rewrite <- TT. reflexivity.
      + split; [rewrite SA; exact AL|]. split; [reflexivity|]. split; [reflexivity|].
        pose proof (shr_live _ _ _ _ _ F2 _ LV) as LV2. split; [exact LV2|].
        split; [destruct LV2 as [n2 [V1 V2]]; exists n2; split; [exact V1|]; destruct (shr_get _ _ _ _ _ F2 _ n2 V1) as [m [M1 [M2 _]]]; rewrite GN in M1; injection M1 as <-; exact M2|].
        split; [intros y gs Y1 Y2; apply (restores_shr cs _ _ _ _ _ F2); [apply (restores_same cs (k_nodes k) l' OLD); exact Y2|left; auto]|].
        split; [intros Q; apply (restores_shr cs _ _ _ _ _ F2); [auto|left; exact LV]|].
        intros y n' G NY. destruct (shr_get _ _ _ _ _ F2 y n' G) as [m [M1 [M2 _]]]. rewrite M2. apply TO; assumption.
  Qed.

  Lemma delete_none : forall k id, get id (k_nodes k) = None -> ck_delete k id = Refused.
  Proof. intros k id H. unfold ck_delete. rewrite H. reflexivity. Qed.
  Lemma delete_ok : forall w h c fs id n, WI w h c fs -> get id (k_nodes (w_ck w)) = Some n ->
    exists k', ck_delete (w_ck w) id = Done k' /\ WI (mkW (w_dats w) (w_sched w) k') h c fs /\
      alives (k_nodes k') = filter (fun q => negb (fst q =? id)) (alives (k_nodes (w_ck w))) /\ k_next k' = k_next (w_ck w) /\
      (forall y gs, live_at (k_nodes (w_ck w)) y -> y <> id -> restores (k_nodes (w_ck w)) y gs -> restores (k_nodes k') y gs) /\
      (forall gs, live_at (k_nodes (w_ck w)) c -> restores (k_nodes (w_ck w)) c gs -> restores (k_nodes k') c gs) /\
      (forall y n', get y (k_nodes k') = Some n' -> exists n0, get y (k_nodes (w_ck w)) = Some n0 /\ n_tick n' = n_tick n0).
  Proof.
    intros w h c fs id n [HH HC T CT NI AH HD TK TT] G. unfold ck_delete. set (k := w_ck w) in *. rewrite G. set (k1 := if n_dead n then k else _).
    pose proof (sorted_nodup _ (ti_sorted _ _ _ _ T)) as ND.
    assert (K1 : k_head k1 = Some h /\ k_cur k1 = Some c /\ TI (k_nodes k1) h c (k_next k) /\ counts k1 /\ k_next k1 = k_next k /\
      alives (k_nodes k1) = filter (fun q => negb (fst q =? id)) (alives (k_nodes k)) /\
      (exists n1, get id (k_nodes k1) = Some n1 /\ n_snap n1 = n_snap n) /\
      (forall y m, get y (k_nodes k) = Some m -> exists m', get y (k_nodes k1) = Some m' /\ n_snap m' = n_snap m /\ n_prev m' = n_prev m /\ n_data m' = n_data m) /\
      (forall y m', get y (k_nodes k1) = Some m' -> exists m, get y (k_nodes k) = Some m /\ n_tick m' = n_tick m /\ n_data m' = n_data m) /\
      (forall y, live_at (k_nodes k) y -> y <> id -> live_at (k_nodes k1) y)).
    { unfold k1. destruct (n_dead n) eqn:ED.
      - repeat split; auto; try apply CT.
        + exact (ti_sorted _ _ _ _ T). + exact (ti_next _ _ _ _ T). + exact (ti_head _ _ _ _ T). + exact (ti_cur _ _ _ _ T).
        + exact (ti_prev _ _ _ _ T). + exact (ti_nexts _ _ _ _ T). + exact (ti_nodup _ _ _ _ T).
        + unfold alives. rewrite filter_filter. apply filter_ext_in'. intros q Hq. destruct (N.eqb_spec (fst q) id) as [E|]; [|rewrite andb_true_r; reflexivity].
          cbn [negb]. rewrite andb_false_r. destruct (flag_get q _ ND Hq) as [m [M1 M2]]. rewrite E in M1. assert (m = n) by congruence. subst m. rewrite M2.
          unfold fdead, flag. cbn [fst snd]. rewrite ED. reflexivity.
        + eauto. + eauto. + eauto.
      - destruct (dead_tree _ h c (k_next k) id n T G ED) as [T1 [A1 [D1 G1]]]. cbn [k_head k_cur k_nodes k_next].
        split; [exact HH|]. split; [exact HC|]. split; [exact T1|]. split.
        { destruct CT as [C1 [C2 C3]]. unfold counts, cd_ok in *. cbn [k_alive k_snaps k_deadn k_nodes]. rewrite A1, D1, C1, C2, C3.
          pose proof (live_in _ _ _ G ED) as LI. pose proof (alives_nodup _ (ti_sorted _ _ _ _ T)) as AN.
          split; [|split; [|apply inc_ok]].
          - pose proof (remove_len _ (fun _ => true) (alives (k_nodes k)) _ AN LI eq_refl) as RL. cbn [flag fst] in RL.
            assert (FT : forall (A : Type) (l : list A), filter (fun _ => true) l = l) by (induction l; cbn [filter]; congruence).
            rewrite !FT in RL. rewrite RL. apply dec_ok.
          - destruct (n_snap n) eqn:ES.
            + pose proof (remove_len _ fsnap (alives (k_nodes k)) _ AN LI ES) as RL. cbn [flag fst] in RL. rewrite RL. apply dec_ok.
            + f_equal. f_equal. f_equal. rewrite filter_filter. apply filter_ext_in'. intros q Hq. destruct (N.eqb_spec (fst q) id) as [E|]; [|reflexivity].
              cbn [negb andb]. apply filter_In in Hq. destruct (flag_get q _ ND (proj1 Hq)) as [m [M1 M2]]. rewrite E in M1. assert (m = n) by congruence. subst m.
              rewrite M2. exact ES. }
        split; [reflexivity|]. split; [exact A1|]. split; [exists (set_dead n); rewrite G1, N.eqb_refl; auto|].
        split; [intros y m Gm; rewrite G1; destruct (N.eqb_spec y id) as [->|]; [exists (set_dead n); assert (m = n) by congruence; subst; auto|exists m; auto]|].
        split; [intros y m' Gm; rewrite G1 in Gm; destruct (N.eqb_spec y id) as [->|]; [injection Gm as <-; exists n; auto|exists m'; auto]|].
        intros y [yn [Y1 Y2]] NY. exists yn. rewrite G1. destruct (N.eqb_spec y id); [congruence|auto]. }
    destruct K1 as [B1 [B2 [B3 [B4 [B5 [B6 [[n1 [B7 B7']] [B8 [B9 B10]]]]]]]]].
    destruct (cleanup_ok k1 h c (k_next k) id n1 B1 B2 B3 (proj2 (proj2 B4)) B7) as [l' [dn [R1 [R2 [R3 R4]]]]].
    exists (with_nodes k1 l' dn). split; [exact R1|]. cbn [with_nodes k_nodes k_next]. pose proof (shr_alives _ _ _ _ _ R2) as SA.
    assert (TO : forall y n', get y l' = Some n' -> exists n0, get y (k_nodes k) = Some n0 /\ n_tick n' = n_tick n0).
    { intros y n' Gy. destruct (shr_get _ _ _ _ _ R2 y n' Gy) as [m [M1 [M2 _]]]. destruct (B9 y m M1) as [m0 [Z1 [Z2 _]]]. exists m0. split; [exact Z1|congruence]. }
    split; [|split; [rewrite SA; exact B6|split; [exact B5|split; [|split; [|exact TO]]]]].
    - constructor; cbn [w_ck w_dats w_sched with_nodes k_head k_cur k_nodes k_next]; auto.
      + rewrite B5. exact (shr_TI' _ _ _ _ _ R2).
      + destruct B4 as [C1 [C2 C3]]. unfold counts. cbn [with_nodes k_alive k_snaps k_nodes]. rewrite SA. auto.
      + rewrite B5. exact NI.
      + apply (allheld_shr cs _ _ _ _ _ R2). intros x m Gx. destruct (B9 x m Gx) as [m0 [Z1 [_ Z2]]]. rewrite Z2. apply (AH x m0 Z1).
      + intros Q x m Gx. cbn [w_sched w_ck with_nodes k_nodes] in *. destruct (TO x m Gx) as [m0 [Z1 Z2]]. rewrite Z2. apply (TK Q x m0 Z1).
      + rewrite B5, <- TT. unfold k1. destruct (n_dead n); reflexivity.
    - intros y gs Y1 Y2 Y3. apply (restores_shr cs _ _ _ _ _ R2); [apply (restores_same cs (k_nodes k) _ B8); exact Y3|]. left. apply B10; assumption.
    - intros gs Y1 Y3. pose proof (restores_same cs (k_nodes k) _ B8 _ _ Y3) as Y4. destruct (N.eq_dec c id) as [->|NC].
      + destruct (n_snap n1) eqn:ES; [|rewrite (R4 eq_refl eq_refl); exact Y4]. apply (restores_shr cs _ _ _ _ _ R2); [exact Y4|]. right. split; [reflexivity|]. eauto.
      + apply (restores_shr cs _ _ _ _ _ R2); [exact Y4|]. left. apply B10; assumption.
  Qed.

  Lemma load_none : forall w id, get id (k_nodes (w_ck w)) = None -> ck_load sh w id = Refused.
  Proof. intros w id H. unfold ck_load. rewrite H. reflexivity. Qed.
  Lemma ckload_ok : forall w h c fs id n, WI w h c fs -> get id (k_nodes (w_ck w)) = Some n ->
    exists w' fs', ck_load sh w id = Done w' /\ WI w' h id fs' /\ (forall gs, restores (k_nodes (w_ck w)) id gs -> D cs (w_dats w') gs) /\
      restores (k_nodes (w_ck w)) id fs' /\
      w_sched w' = match w_sched w with Some _ => Some (n_tick n) | None => None end /\
      alives (k_nodes (w_ck w')) = alives (k_nodes (w_ck w)) /\ k_next (w_ck w') = k_next (w_ck w) /\
      (forall y gs, live_at (k_nodes (w_ck w)) y -> restores (k_nodes (w_ck w)) y gs -> restores (k_nodes (w_ck w')) y gs) /\
      (forall y n', get y (k_nodes (w_ck w')) = Some n' -> exists n0, get y (k_nodes (w_ck w)) = Some n0 /\ n_tick n' = n_tick n0).
  Proof.
    intros w h c fs id n [HH HC T CT NI AH HD TK TT] G. unfold ck_load. set (k := w_ck w) in *. rewrite G.
    destruct (restores_some cs Cap _ _ _ _ T AH (S (below id (k_nodes k))) id n ltac:(lia) G) as [fs' RS].
    destruct (load_ok sh cs Wf Cap _ _ _ _ T id fs' RS (depth k) (below_le _ _)) as [ch [C1 C2]]. rewrite C1. cbn [obind].
    destruct (C2 (w_dats w) fs HD) as [d' [L1 L2]]. rewrite L1. cbn [obind]. rewrite HC. destruct (ti_cur _ _ _ _ T) as [cn GC].
    pose proof (TI_cur _ _ _ id _ n T G) as T1.
    destruct (cleanup_ok (with_cur k (Some id)) h id (k_next k) c cn HH eq_refl T1 (proj2 (proj2 CT)) GC) as [l' [dn [R1 [R2 [R3 _]]]]]. rewrite R1. cbn [obind].
    cbn [with_cur k_nodes] in R2. pose proof (shr_alives _ _ _ _ _ R2) as SA.
    assert (TO : forall y n', get y l' = Some n' -> exists n0, get y (k_nodes k) = Some n0 /\ n_tick n' = n_tick n0).
    { intros y n' Gy. destruct (shr_get _ _ _ _ _ R2 y n' Gy) as [m [M1 [M2 _]]]. eauto. }
    eexists _, fs'. split; [reflexivity|]. cbn [w_ck w_dats w_sched with_nodes with_cur k_nodes k_next].
    split; [|split; [|split; [exact RS|split; [reflexivity|split; [exact SA|split; [reflexivity|split; [|exact TO]]]]]]].
    - constructor; cbn [w_ck w_dats w_sched with_nodes with_cur k_head k_cur k_nodes k_next]; auto.
      + exact (shr_TI' _ _ _ _ _ R2).
      + destruct CT as [D2 [D3 D4]]. unfold counts. cbn [with_nodes with_cur k_alive k_snaps k_nodes]. rewrite SA. auto.
      + exact (allheld_shr cs _ _ _ _ _ R2 AH).
      + intros Q x m Gx. cbn [w_sched w_ck with_nodes with_cur k_nodes] in *. destruct (w_sched w) eqn:ES; [discriminate|].
        destruct (TO x m Gx) as [m0 [Z1 Z2]]. rewrite Z2. apply (TK ES x m0 Z1).
    - intros gs RG. destruct (load_ok sh cs Wf Cap _ _ _ _ T id gs RG (depth k) (below_le _ _)) as [ch2 [C3 C4]]. assert (ch2 = ch) by congruence. subst ch2.
      destruct (C4 (w_dats w) fs HD) as [d2 [L3 L4]]. assert (d2 = d') by congruence. subst d2. exact L4.
    - intros y gs Y1 Y2. apply (restores_shr cs _ _ _ _ _ R2); auto.
  Qed.

  (** Writes and resets by the client. *)
  Lemma D_set : forall cs0 l fs i a, D cs0 l fs -> nth_error l i = Some a -> exists c f, AI c a f /\ nth_error cs0 i = Some c /\ nth_error fs i = Some f /\
    (forall a' f', AI c a' f' -> D cs0 (set_nth i a' l) (set_nth i f' fs)) /\
    (forall gs, DT cs0 l fs gs -> exists g, tracked c a f g /\ forall a' f', tracked c a' f' g -> DT cs0 (set_nth i a' l) (set_nth i f' fs) gs).
  Proof.
    intros cs0 l fs i a H. revert i. induction H as [|c b f cs0 l fs HA HD IH]; intros i E; [destruct i; discriminate|]. destruct i as [|i]; cbn [nth_error] in *.
    - injection E as ->. exists c, f. split; [exact HA|]. split; [reflexivity|]. split; [reflexivity|]. cbn [set_nth]. split; [intros; constructor; assumption|].
      intros gs T. inversion T as [|? ? ? g ? ? ? gs' T1 T2]; subst. exists g. split; [exact T1|]. intros. constructor; assumption.
    - destruct (IH i E) as [c0 [f0 [A1 [A2 [A3 [A4 A5]]]]]]. exists c0, f0. split; [exact A1|]. split; [exact A2|]. split; [exact A3|]. cbn [set_nth].
      split; [intros; constructor; auto|]. intros gs T. inversion T as [|? ? ? g ? ? ? gs' T1 T2]; subst. destruct (A5 gs' T2) as [g0 [B1 B2]].
      exists g0. split; [exact B1|]. intros. constructor; auto.
  Qed.
  Definition with_dats (w : world) (d : list adata) : world := mkW d (w_sched w) (w_ck w).
  Lemma cwrite_ok : forall w fs i addr buf, D cs (w_dats w) fs -> addr + N.of_nat (length buf) < 2 ^ 64 ->
    cstep sh w (CWrite i addr buf) = Refused \/ exists d' fs', cstep sh w (CWrite i addr buf) = Done (with_dats w d') /\ D cs d' fs' /\
      (forall gs, DT cs (w_dats w) fs gs -> DT cs d' fs' gs).
  Proof.
    intros w fs i addr buf HD HB. cbn [cstep]. destruct (nth_error (w_dats w) i) as [a|] eqn:E; [|left; reflexivity]. right.
    destruct (D_set cs _ fs i a HD E) as [c [f [A1 [A2 [A3 [A4 A5]]]]]].
    assert (Wc : wfc sh c) by (rewrite Forall_forall in Wf; apply Wf; eapply nth_error_In; exact A2).
    pose proof (write_all sh c Wc a f f addr buf A1 (fun b Hb => False_ind _ (Hb eq_refl)) HB) as Q.
    assert (Q2 : forall g, tracked c a f g -> let '(a', r) := mem_write sh a addr buf in
      tracked c a' (if legal (c_k c) (c_total c) addr (N.of_nat (length buf)) then fwrite f addr buf else f) g).
    { intros g TR. pose proof (write_all sh c Wc a f g addr buf A1 TR HB) as Z. destruct (mem_write sh a addr buf). apply Z. }
    destruct (mem_write sh a addr buf) as [a' r]. destruct Q as [Q1 [Q3 _]].
    exists (set_nth i a' (w_dats w)), (set_nth i (if legal (c_k c) (c_total c) addr (N.of_nat (length buf)) then fwrite f addr buf else f) fs).
    split; [destruct (legal _ _ _ _); subst r; reflexivity|]. split; [apply A4; exact Q3|]. intros gs T. destruct (A5 gs T) as [g [G1 G2]]. apply G2. apply Q2. exact G1.
  Qed.
  Lemma creset_ok : forall w fs i, D cs (w_dats w) fs -> cstep sh w (CReset i) = Refused \/ exists d' fs', cstep sh w (CReset i) = Done (with_dats w d') /\ D cs d' fs'.
  Proof.
    intros w fs i HD. cbn [cstep]. destruct (nth_error (w_dats w) i) as [a|] eqn:E; [|left; reflexivity]. right.
    destruct (D_set cs _ fs i a HD E) as [c [f [A1 [A2 [A3 [A4 A5]]]]]].
    assert (Wc : wfc sh c) by (rewrite Forall_forall in Wf; apply Wf; eapply nth_error_In; exact A2).
    destruct (clean_all sh c Wc a f A1) as [a' [C1 C2]]. rewrite C1. eexists _, _. split; [reflexivity|]. apply A4. exact C2.
  Qed.
  Lemma WI_dats : forall w h c fs d fs', WI w h c fs -> D cs d fs' -> WI (with_dats w d) h c fs'.
  Proof. intros w h c fs d fs' [] HD. constructor; auto. Qed.
End Fixed.
