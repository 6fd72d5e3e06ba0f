(** Squashing, step by step. *)
From Coq Require Import List NArith Arith Bool Lia Sorting.Sorted Permutation.
From Verif Require Import LayoutModel ArchDataModel StorageModel CkptModel CkptTree CkptOps SquashModel SquashTree.
Import ListNotations.
Open Scope N_scope.

(** Counting down. *)
Definition snaps (l : nodes) : nat := length (filter (fun p => n_snap (snd p)) l).
Lemma dec_pos : forall x, x <> 0 -> x < 4294967296 -> dec x = x - 1.
Proof.
  intros x H1 H2. unfold dec. replace (x + 4294967295) with (x - 1 + 1 * 4294967296) by lia. rewrite N.mod_add by discriminate.
  apply N.mod_small. lia.
Qed.
Lemma uncounts_spec : forall l a s, a < 4294967296 -> s < 4294967296 ->
  uncounts l (a, s) = if (N.of_nat (length l) <=? a) && (N.of_nat (snaps l) <=? s) then Done (a - N.of_nat (length l), s - N.of_nat (snaps l)) else Asserted.
Proof.
  induction l as [|p r IH]; intros a s HA HS.
  - cbn [uncounts length]. change (N.of_nat 0) with 0. unfold snaps. cbn [filter length]. change (N.of_nat 0) with 0.
    destruct (N.leb_spec 0 a); [|lia]. destruct (N.leb_spec 0 s); [|lia]. cbn [andb]. rewrite !N.sub_0_r. reflexivity.
  - cbn [uncounts]. unfold uncount. cbn [fst snd]. unfold snaps. cbn [filter]. destruct (N.eqb_spec a 0) as [->|A0].
    + cbn [obind]. destruct (N.leb_spec (N.of_nat (length (p :: r))) 0) as [C|_]; [cbn [length] in C; lia|]. reflexivity.
    + destruct (n_snap (snd p)).
      * destruct (N.eqb_spec s 0) as [->|S0]; cbn [obind].
        -- destruct (N.leb_spec (N.of_nat (length (p :: filter (fun q => n_snap (snd q)) r))) 0) as [C|_]; [cbn [length] in C; lia|]. rewrite andb_false_r. reflexivity.
        -- rewrite (dec_pos a A0 HA), (dec_pos s S0 HS), IH by lia. fold (snaps r). cbn [length]. rewrite !Nat2N.inj_succ.
           change (length (filter (fun q : N * node => n_snap (snd q)) r)) with (snaps r).
           generalize (N.of_nat (length r)) (N.of_nat (snaps r)). intros u v. clear - A0 S0.
           destruct (N.leb_spec u (a - 1)); destruct (N.leb_spec (N.succ u) a); try lia; cbn [andb]; [|reflexivity].
           destruct (N.leb_spec v (s - 1)); destruct (N.leb_spec (N.succ v) s); try lia; [|reflexivity]. do 2 f_equal; lia.
      * cbn [obind]. rewrite (dec_pos a A0 HA), IH by lia. cbn [length]. rewrite !Nat2N.inj_succ. fold (snaps r).
        generalize (N.of_nat (length r)) (N.of_nat (snaps r)). intros u v. clear - A0.
        destruct (N.leb_spec u (a - 1)); destruct (N.leb_spec (N.succ u) a); try lia; cbn [andb]; [|reflexivity].
        destruct (v <=? s); [|reflexivity]. do 2 f_equal; lia.
Qed.
Lemma uncounts_app : forall l m ac, uncounts (l ++ m) ac = obind (uncounts l ac) (uncounts m).
Proof.
  induction l as [|p l IH]; intros m ac; cbn [app uncounts obind]; [reflexivity|]. destruct (uncount (n_snap (snd p)) ac); cbn [obind]; auto.
Qed.

(** No checkpoint is flagged deleted. *)
Definition all_live (l : nodes) : Prop := forall x n, get x l = Some n -> n_dead n = false.
Lemma id_live : forall k x n, get x (k_nodes k) = Some n -> n_dead n = false -> id_of k x = x.
Proof. intros k x n G D. unfold id_of. rewrite G. unfold shown. cbn [snd fst]. rewrite D. reflexivity. Qed.
Lemma part_kept : forall k st head ac, all_live (k_nodes k) ->
  (forall y n, In (y, n) st -> get y (k_nodes k) = Some n /\ n_snap n = false) -> part k (map fst st) (map fst st) head ac = Done ([], map fst st, head, ac).
Proof.
  intros k st head ac AL. induction st as [|[y n] st IH]; intros H; cbn [map part fst]; [reflexivity|].
  destruct (H y n (or_introl eq_refl)) as [G SN]. rewrite (id_live k y n G (AL y n G)), N.eqb_refl. cbn [negb]. unfold deref. rewrite G. cbn [obind]. rewrite SN. cbn [obind].
  rewrite IH by (intros z m Hz; apply H; right; exact Hz). reflexivity.
Qed.
Lemma part_saved : forall k rest s st head ac, all_live (k_nodes k) ->
  (forall y n, In (y, n) rest -> get y (k_nodes k) = Some n /\ y <> s) -> (exists sn, get s (k_nodes k) = Some sn) ->
  part k (map fst rest ++ s :: st) (s :: st) head ac =
  obind (uncounts rest ac) (fun ac' => obind (part k (s :: st) (s :: st) head ac') (fun '(sv, kp, h, a) => Done (map fst rest ++ sv, kp, h, a))).
Proof.
  intros k rest s st head ac AL H [sn GS]. revert ac. induction rest as [|[y n] rest IH]; intros ac.
  - cbn [map app uncounts]. cbn [obind]. destruct (part k (s :: st) (s :: st) head ac) as [[[[a b] c] d]| | | |]; reflexivity.
  - cbn [map app fst uncounts snd]. remember (s :: st) as st0. cbn [part]. subst st0. destruct (H y n (or_introl eq_refl)) as [G YS].
    rewrite (id_live k s sn GS (AL s sn GS)). destruct (N.eqb_spec y s); [congruence|]. cbn [negb]. rewrite G.
    destruct (uncount (n_snap n) ac) as [ac'| | | |]; cbn [obind]; try reflexivity. rewrite IH by (intros z m Hz; apply H; right; exact Hz).
    destruct (uncounts rest ac') as [ac''| | | |]; cbn [obind]; try reflexivity.
    destruct (part k (s :: st) (s :: st) head ac'') as [[[[a b] c] d]| | | |]; reflexivity.
Qed.

Lemma pick_all : forall l ch, (forall q, In q ch -> get (fst q) l = Some (snd q)) -> pick l (map fst ch) = ch.
Proof.
  intros l ch H. unfold pick. induction ch as [|[x n] ch IH]; cbn [map flat_map fst]; [reflexivity|]. pose proof (H (x, n) (or_introl eq_refl)) as G. cbn [fst snd] in G. rewrite G. cbn [app].
  f_equal. apply IH. intros q Hq. apply H. right. exact Hq.
Qed.
Lemma live_some_dead : forall l m, NoDup (keysn l) -> all_live l -> (forall q, In q m -> In q l) -> some_dead m = false.
Proof.
  intros l m ND AL H. unfold some_dead. destruct (existsb _ m) eqn:E; [|reflexivity]. apply existsb_exists in E. destruct E as [[x n] [I D]].
  cbn [snd] in D. rewrite (AL x n (in_get _ _ _ ND (H _ I))) in D. discriminate.
Qed.
Lemma SS_same : forall a b, StronglySorted N.lt a -> StronglySorted N.lt b -> (forall x, In x a <-> In x b) -> a = b.
Proof.
  induction a as [|x a IH]; intros b SA SB H.
  - destruct b as [|y b]; [reflexivity|]. exfalso. apply (proj2 (H y)). left. reflexivity.
  - destruct b as [|y b]; [exfalso; apply (proj1 (H x)); left; reflexivity|]. inversion SA as [|? ? A1 A2]; subst. inversion SB as [|? ? B1 B2]; subst.
    rewrite Forall_forall in A2, B2. assert (x = y).
    { destruct (proj1 (H x) (or_introl eq_refl)) as [->|I]; [reflexivity|]. destruct (proj2 (H y) (or_introl eq_refl)) as [->|J]; [reflexivity|].
      specialize (A2 y J). specialize (B2 x I). lia. }
    subst y. f_equal. apply IH; [exact A1|exact B1|]. intros z. split; intros Z.
    + destruct (proj1 (H z) (or_intror Z)) as [->|I]; [|exact I]. specialize (A2 z Z). lia.
    + destruct (proj2 (H z) (or_intror Z)) as [->|I]; [|exact I]. specialize (B2 z Z). lia.
Qed.
Lemma walk_keys : forall ch, StronglySorted keys_lt ch -> StronglySorted N.lt (map fst ch).
Proof.
  intros ch H. induction H as [|a l H IH F]; cbn [map]; constructor; [exact IH|]. rewrite Forall_forall in *. intros x Hx. apply in_map_iff in Hx.
  destruct Hx as [q [<- Hq]]. apply (F q Hq).
Qed.

(** A squash of a tree without deleted checkpoints, up to the counters. *)
Definition kept_tree (l : nodes) (h x s nx : N) (rest st L sv : nodes) : Prop :=
  TI L s x nx /\ flags L = filter (fun q => mem (fst q) (map fst st)) (flags l) /\
  (forall y n, get y L = Some n -> exists m, In (y, m) st /\ same_node n m /\ (n_snap m = false -> n_prev n = n_prev m)) /\
  Forall2 (fun q p => fst q = fst p /\ same_node (snd q) (snd p)) sv rest.

Lemma kept_part : forall l h x nx s rest st l', TI l h x nx -> split_at l h x s rest st -> rest <> [] -> TI l' h x nx ->
  flags l' = filter (fun q => mem (fst q) (map fst (rest ++ st))) (flags l) ->
  (forall y n, In (y, n) (rest ++ st) -> exists n', get y l' = Some n' /\ n_prev n' = n_prev n /\ same_node n' n) ->
  kept_tree l h x s nx rest st (upd s (set_prev None) (filter (fun p => mem (fst p) (map fst st)) l')) (pick l' (map fst rest)).
Proof.
  intros l h x nx s rest st l' T SP NE T' F' G'. destruct (sp_s _ _ _ _ _ _ SP) as [sn [st' [EST [SS [SD SR]]]]]. destruct (SR NE) as [p [pn [P1 P2]]].
  pose proof (sorted_nodup _ (ti_sorted _ _ _ _ T')) as ND'. pose proof (sorted_nodup _ (ti_sorted _ _ _ _ T)) as ND.
  pose proof (SS_nodup _ (walk_keys _ (wk_sorted _ _ _ _ (sp_walk _ _ _ _ _ _ SP)))) as NDC. rewrite map_app in NDC.
  assert (DJ : forall y, In y (map fst rest) -> In y (map fst st) -> False).
  { clear - NDC. intros y H1 H2. induction (map fst rest) as [|z r IH]; [destruct H1|]. cbn [app] in NDC. inversion NDC as [|? ? N1 N2]; subst.
    destruct H1 as [->|H1]; [|auto]. apply N1. apply in_or_app. right. exact H2. }
  set (FL := filter (fun p => mem (fst p) (map fst st)) l').
  assert (GF : forall y, get y FL = if mem y (map fst st) then get y l' else None).
  { intros y. unfold FL. clear - ND'. induction l' as [|[i n] r IH]; cbn [filter get fst]; [destruct (mem y _); reflexivity|].
    cbn [keysn map fst] in ND'. inversion ND' as [|? ? N1 N2]; subst. specialize (IH N2). destruct (mem i (map fst st)) eqn:M; cbn [get].
    - destruct (N.eqb_spec i y) as [->|]; [rewrite M; reflexivity|exact IH].
    - destruct (N.eqb_spec i y) as [->|]; [|exact IH]. rewrite IH, M. reflexivity. }
  assert (GL : forall y, get y (upd s (set_prev None) FL) = if mem y (map fst st) then if y =? s then option_map (set_prev None) (get s l') else get y l' else None).
  { intros y. rewrite get_upd, !GF. assert (MS : mem s (map fst st) = true) by (apply mem_in; rewrite EST; left; reflexivity). rewrite MS.
    destruct (N.eqb_spec y s) as [->|]; [rewrite MS; reflexivity|]. destruct (mem y (map fst st)); reflexivity. }
  assert (INST : forall y, In y (map fst st) -> exists m, In (y, m) st).
  { intros y H. apply in_map_iff in H. destruct H as [[z m] [E H]]. cbn [fst] in E. subst z. eauto. }
  assert (GST : forall y m, In (y, m) st -> exists n', get y l' = Some n' /\ n_prev n' = n_prev m /\ same_node n' m).
  { intros y m H. apply G'. apply in_or_app. right. exact H. }
  assert (FLK : keysn FL = filter (fun i => mem i (map fst st)) (keysn l')) by (unfold keysn, FL; apply (map_fst_filter _ (fun i => mem i (map fst st)))).
  assert (INCH : forall y m, get y l' = Some m -> In y (map fst rest) \/ In y (map fst st)).
  { intros y m G. apply get_flag in G. rewrite F' in G. apply filter_In in G. destruct G as [_ G]. apply mem_in in G. cbn [flag fst] in G. rewrite map_app in G. apply in_app_or. exact G. }
  split; [|split; [|split]].
  - constructor.
    + unfold sorted. rewrite keys_upd, FLK. apply SS_filter. exact (ti_sorted _ _ _ _ T').
    + intros y H. rewrite keys_upd, FLK in H. apply filter_In in H. apply (ti_next _ _ _ _ T'). tauto.
    + destruct (GST s sn) as [n' [N1 [N2 [N3 [N4 [N5 N6]]]]]]; [rewrite EST; left; reflexivity|]. exists (set_prev None n'). rewrite GL, N.eqb_refl, N1.
      assert (MS : mem s (map fst st) = true) by (apply mem_in; rewrite EST; left; reflexivity). rewrite MS. cbn [option_map set_prev n_prev n_snap]. split; [reflexivity|]. split; [reflexivity|congruence].
    + pose proof (sp_x _ _ _ _ _ _ SP) as SX. destruct (INST x SX) as [m Hm]. destruct (GST x m Hm) as [n' [N1 _]]. rewrite GL, (proj2 (mem_in _ _) SX), N1.
      destruct (N.eqb_spec x s) as [<-|]; [rewrite N1; cbn [option_map]|]; eauto.
    + intros y n G YS. rewrite GL in G. destruct (mem y (map fst st)) eqn:M; [|discriminate]. destruct (N.eqb_spec y s); [congruence|]. apply mem_in in M.
      destruct (INST y M) as [m Hm]. destruct (GST y m Hm) as [n' [N1 [N2 _]]]. assert (n' = n) by congruence. subst n'.
      assert (Hm' : In (y, m) st') by (rewrite EST in Hm; destruct Hm as [Hm|Hm]; [injection Hm as -> _; congruence|exact Hm]).
      destruct (SD y m Hm') as [_ [q [Q1 Q2]]]. assert (YH : y <> h). { intros ->. destruct (sp_head' _ _ _ _ _ _ SP NE) as [hn [r ER]]. apply (DJ h); [rewrite ER; left; reflexivity|exact M]. }
      destruct (ti_prev _ _ _ _ T' y n G YH) as [q' [qn [R1 [R2 [R3 [R4 R5]]]]]]. assert (q' = q) by congruence. subst q'. exists q.
      destruct (N.eqb_spec q s) as [->|QS].
      * exists (set_prev None qn). split; [exact R1|]. rewrite GL, (proj2 (mem_in _ _) Q2), N.eqb_refl, R2. cbn [option_map set_prev n_tick n_nexts]. auto.
      * exists qn. split; [exact R1|]. rewrite GL, (proj2 (mem_in _ _) Q2). destruct (N.eqb_spec q s); [congruence|]. auto.
    + intros y n d G I. rewrite GL in G. destruct (mem y (map fst st)) eqn:M; [|discriminate]. apply mem_in in M.
      assert (X : exists n0, get y l' = Some n0 /\ n_nexts n0 = n_nexts n).
      { destruct (N.eqb_spec y s) as [->|]; [|eauto]. destruct (get s l') as [n0|]; [|discriminate]. injection G as <-. exists n0. auto. }
      destruct X as [n0 [X1 X2]]. rewrite <- X2 in I. destruct (ti_nexts _ _ _ _ T' y n0 d X1 I) as [dn [D1 D2]].
      assert (DS : d <> s).
      { intros ->. destruct (GST s sn) as [n' [N1 [N2 _]]]; [rewrite EST; left; reflexivity|]. assert (n' = dn) by congruence. subst n'.
        apply (DJ y); [|exact M]. assert (y = p) by congruence. subst y. apply (in_map fst) in P2. exact P2. }
      destruct (INCH d dn D1) as [DR|DT].
      * exfalso. apply in_map_iff in DR. destruct DR as [[z dm] [E DR]]. cbn [fst] in E. subst z.
        destruct (G' d dm) as [n' [N1 [N2 _]]]; [apply in_or_app; left; exact DR|]. assert (n' = dn) by congruence. subst n'.
        destruct (sp_rest _ _ _ _ _ _ SP d dm DR) as [->|[q [Q1 Q2]]].
        -- destruct (ti_head _ _ _ _ T') as [hn [H1 [H2 _]]]. congruence.
        -- apply (DJ y); [|exact M]. assert (y = q) by congruence. subst y. exact Q2.
      * exists dn. rewrite GL, (proj2 (mem_in _ _) DT). destruct (N.eqb_spec d s); [congruence|]. auto.
    + intros y n G. rewrite GL in G. destruct (mem y (map fst st)) eqn:M; [|discriminate]. destruct (N.eqb_spec y s) as [->|].
      * destruct (get s l') as [n0|] eqn:G0; [|discriminate]. injection G as <-. exact (ti_nodup _ _ _ _ T' s n0 G0).
      * exact (ti_nodup _ _ _ _ T' y n G).
  - rewrite flags_upd by (intros; reflexivity). unfold FL. transitivity (filter (fun q => mem (fst q) (map fst st)) (flags l')).
    + unfold flags. clear. induction l' as [|[i n] r IH]; cbn [filter map fst flag]; [reflexivity|]. destruct (mem i (map fst st)); cbn [map]; rewrite IH; reflexivity.
    + rewrite F', filter_filter. apply filter_ext_in'. intros q _. rewrite map_app. destruct (mem (fst q) (map fst st)) eqn:M; [|apply andb_false_r].
      rewrite andb_true_r. apply mem_in. apply in_or_app. right. apply mem_in. exact M.
  - intros y n G. rewrite GL in G. destruct (mem y (map fst st)) eqn:M; [|discriminate]. apply mem_in in M. destruct (INST y M) as [m Hm]. exists m. split; [exact Hm|].
    destruct (GST y m Hm) as [n' [N1 [N2 N3]]]. destruct (N.eqb_spec y s) as [->|].
    + rewrite N1 in G. injection G as <-. split; [exact N3|]. intros Z. exfalso.
      assert (m = sn). { rewrite EST in Hm. destruct Hm as [Hm|Hm]; [congruence|]. exfalso. rewrite EST in NDC. cbn [map fst] in NDC.
        apply NoDup_remove_2 in NDC. apply NDC. apply in_or_app. right. apply (in_map fst) in Hm. exact Hm. }
      congruence.
    + assert (n' = n) by congruence. subst n'. split; [exact N3|]. intros _. exact N2.
  - assert (GR : forall y m, In (y, m) rest -> exists n', get y l' = Some n' /\ same_node n' m).
    { intros y m H. destruct (G' y m) as [n' [N1 [_ N3]]]; [apply in_or_app; left; exact H|]. eauto. }
    clear - GR. induction rest as [|[y m] r IH]; cbn [map pick flat_map fst]; [constructor|].
    destruct (GR y m (or_introl eq_refl)) as [n' [N1 N2]]. unfold pick. cbn [map flat_map fst]. rewrite N1. cbn [app]. constructor; [cbn [fst snd]; auto|].
    apply IH. intros z mz Hz. apply GR. right. exact Hz.
Qed.

Lemma outside_ext : forall a b l, (forall x, In x a <-> In x b) -> outside a l = outside b l.
Proof.
  intros a b l H. unfold outside. apply filter_ext_in'. intros q _. f_equal. destruct (mem (fst q) b) eqn:M.
  - apply mem_in. apply H. apply mem_in. exact M.
  - apply mem_out. intros I. apply mem_out in M. apply M. apply H. exact I.
Qed.
(** Destroying everything away from the walk. *)
Lemma prune : forall l h x nx s rest st, TI l h x nx -> split_at l h x s rest st ->
  let gone := outside (map fst (rest ++ st)) l in
  exists l', erase_all (map fst gone) l = Done l' /\ TI l' h x nx /\ flags l' = filter (fun q => mem (fst q) (map fst (rest ++ st))) (flags l) /\
    forall y n, In (y, n) (rest ++ st) -> exists n', get y l' = Some n' /\ n_prev n' = n_prev n /\ same_node n' n.
Proof.
  intros l h x nx s rest st T SP gone. set (C := map fst (rest ++ st)) in *. pose proof (sp_walk _ _ _ _ _ _ SP) as W.
  assert (EG : map fst gone = filter (fun i => negb (mem i C)) (keysn l)) by (unfold gone, outside; apply (map_fst_filter _ (fun i => negb (mem i C)))).
  assert (HC : In h C). { destruct (wk_head _ _ _ _ W) as [hn [r E]]. unfold C. rewrite E. left. reflexivity. }
  assert (XC : In x C) by exact (wk_last _ _ _ _ W).
  assert (NG : forall y, In y C -> ~ In y (map fst gone)).
  { intros y I J. rewrite EG in J. apply filter_In in J. destruct J as [_ J]. rewrite (proj2 (mem_in y C) I) in J. discriminate. }
  destruct (erase_all_ok (map fst gone) l h x nx T) as [l' [E1 [E2 [E3 E4]]]].
  - rewrite EG. apply NoDup_filter. apply sorted_nodup. exact (ti_sorted _ _ _ _ T).
  - intros y I. rewrite EG in I. apply filter_In in I. tauto.
  - apply NG. exact HC.
  - apply NG. exact XC.
  - intros y n p G NY P. apply NG. assert (YC : In y C).
    { destruct (mem y C) eqn:M; [apply mem_in; exact M|]. exfalso. apply NY. rewrite EG. apply filter_In. split; [eapply get_key; exact G|rewrite M; reflexivity]. }
    unfold C in YC. apply in_map_iff in YC. destruct YC as [[z m] [E I]]. cbn [fst] in E. subst z. pose proof (wk_get _ _ _ _ W _ I) as Gm. cbn [fst snd] in Gm.
    assert (m = n) by congruence. subst m. destruct (wk_prev _ _ _ _ W y n I) as [->|[q [Q1 Q2]]].
    + destruct (ti_head _ _ _ _ T) as [hn [H1 [H2 _]]]. congruence.
    + assert (p = q) by congruence. subst q. exact Q2.
  - exists l'. split; [exact E1|]. split; [exact E2|]. split.
    + rewrite E3. apply filter_ext_in'. intros q Hq. rewrite EG. destruct (mem (fst q) C) eqn:M.
      * apply negb_true_iff. apply mem_out. rewrite <- EG. apply NG. apply mem_in. exact M.
      * apply negb_false_iff. apply mem_in. apply filter_In. split; [|rewrite M; reflexivity]. rewrite keys_flags. apply in_map. exact Hq.
    + intros y n I. pose proof (wk_get _ _ _ _ W _ I) as G. cbn [fst snd] in G. apply (E4 y n G). apply NG. apply (in_map fst) in I. exact I.
Qed.

Lemma squash_eq : forall k h c, k_head k = Some h -> k_cur k = Some c -> TI (k_nodes k) h c (k_next k) -> k_next k <= no_id -> all_live (k_nodes k) ->
  exists rest st s L sv, split_at (k_nodes k) h c s rest st /\ kept_tree (k_nodes k) h c s (k_next k) rest st L sv /\
    checkpoint_chain k (current_id k) = Done (rev (map fst (rest ++ st))) /\
    squash k = obind (uncounts (rest ++ outside (map fst (rest ++ st)) (k_nodes k)) (k_alive k, k_snaps k)) (fun ac => Done (with_map k L s ac, sv)).
Proof.
  intros k h c KH KC T NX AL. destruct (ti_cur _ _ _ _ T) as [cn GC].
  destruct (split_ok _ _ _ _ T (depth k) c cn) as [rest [st [s [E1 [E2 SP]]]]]; [unfold depth; apply below_le|exact GC|].
  destruct (prune _ _ _ _ _ _ _ T SP) as [l' [P1 [P2 [P3 P4]]]]. pose proof (sorted_nodup _ (ti_sorted _ _ _ _ T)) as ND.
  pose proof (sp_walk _ _ _ _ _ _ SP) as W.
  assert (EC : current_id k = c) by (unfold current_id; rewrite KC; apply (id_live k c cn GC (AL c cn GC))).
  assert (CH : checkpoint_chain k (current_id k) = Done (rev (map fst (rest ++ st)))).
  { unfold checkpoint_chain. rewrite KH, EC, GC, E1. cbn [obind]. rewrite <- map_rev. f_equal. apply map_ext_in. intros [y n] I. apply in_rev in I.
    pose proof (wk_get _ _ _ _ W _ I) as G. cbn [fst snd] in G. unfold shown. cbn [snd fst]. rewrite (AL y n G). reflexivity. }
  set (gone := outside (map fst (rest ++ st)) (k_nodes k)) in *.
  assert (LG : some_dead gone = false).
  { apply (live_some_dead (k_nodes k)); [exact ND|exact AL|]. intros q Hq. unfold gone, outside in Hq. apply filter_In in Hq. tauto. }
  assert (HEAD : forall L ac, (exists n, get s L = Some n /\ n_dead n = false) -> s < k_next k -> (head_id (with_map k L s ac) =? no_id) = false).
  { intros L ac [n [G D]] LT. unfold head_id, with_map. cbn [k_head]. rewrite (id_live _ s n); cbn [k_nodes]; [|exact G|exact D]. apply N.eqb_neq. lia. }
  destruct (sp_s _ _ _ _ _ _ SP) as [sn [st' [EST [SS [SD SR]]]]].
  assert (IS : In (s, sn) (rest ++ st)) by (apply in_or_app; right; rewrite EST; left; reflexivity).
  pose proof (wk_get _ _ _ _ W _ IS) as GS. cbn [fst snd] in GS. pose proof (ti_next _ _ _ _ T _ (get_key _ _ _ GS)) as LS.
  assert (NIL : rest = [] \/ rest <> []) by (destruct rest; [left; reflexivity|right; discriminate]). destruct NIL as [->|NE].
  - pose proof (sp_head _ _ _ _ _ _ SP eq_refl) as ->. exists [], st, h, l', []. split; [exact SP|].
    assert (KT : kept_tree (k_nodes k) h c h (k_next k) [] st l' []).
    { split; [exact P2|]. split; [exact P3|]. split; [|constructor]. intros y n G. pose proof (get_flag _ _ _ G) as I. rewrite P3 in I. apply filter_In in I.
      destruct I as [_ I]. apply mem_in in I. cbn [flag fst app] in I. apply in_map_iff in I. destruct I as [[z m] [E I]]. cbn [fst] in E. subst z.
      destruct (P4 y m I) as [n' [N1 [N2 N3]]]. exists m. assert (n' = n) by congruence. subst n'. auto. }
    split; [exact KT|]. split; [exact CH|]. unfold squash. rewrite KC, KH, CH. cbn [obind]. rewrite E2. cbn [obind app]. rewrite rev_length, Nat.eqb_refl.
    unfold squash_only. rewrite (outside_ext (rev (map fst st)) (map fst st)) by (intros; symmetry; apply in_rev). fold gone. cbn [app] in gone. fold gone. rewrite LG.
    destruct (uncounts gone (k_alive k, k_snaps k)) as [ac| | | |]; cbn [obind]; try reflexivity. rewrite P1. cbn [obind].
    destruct (P4 h sn IS) as [n' [N1 [N2 [N3 [N4 [N5 N6]]]]]]. rewrite (id_live k h sn GS (AL h sn GS)), N1. rewrite N5, SS. cbn [obind].
    rewrite HEAD; [reflexivity| |exact LS]. exists n'. split; [exact N1|]. rewrite N4. apply (AL h sn GS).
  - pose proof (kept_part _ _ _ _ _ _ _ _ T SP NE P2 P3 P4) as KT. eexists rest, st, s, _, _. split; [exact SP|]. split; [exact KT|]. split; [exact CH|].
    unfold squash. rewrite KC, KH, CH. cbn [obind]. rewrite E2. cbn [obind]. rewrite rev_length, !map_length, app_length.
    destruct (Nat.eqb_spec (length rest + length st) (length st)) as [E|_]; [exfalso; apply NE; apply length_zero_iff_nil; clear - E; lia|].
    unfold squash_part. rewrite rev_involutive, map_app. 
    assert (SG : forall y n, In (y, n) st' -> get y (k_nodes k) = Some n /\ n_snap n = false).
    { intros y n I. split; [|apply (SD y n I)]. apply (wk_get _ _ _ _ W (y, n)). apply in_or_app. right. rewrite EST. right. exact I. }
    pose proof (SS_nodup _ (walk_keys _ (wk_sorted _ _ _ _ W))) as NDC. rewrite map_app, EST in NDC. cbn [map fst] in NDC. apply NoDup_remove_2 in NDC.
    assert (PT : part k (map fst rest ++ map fst st) (map fst st) h (k_alive k, k_snaps k) =
      obind (uncounts rest (k_alive k, k_snaps k)) (fun ac => Done (map fst rest, map fst st, s, ac))).
    { rewrite EST. cbn [map fst]. rewrite part_saved; [|exact AL| |eauto].
      - destruct (uncounts rest (k_alive k, k_snaps k)) as [ac| | | |]; cbn [obind]; try reflexivity. cbn [part]. rewrite (id_live k s sn GS (AL s sn GS)), N.eqb_refl. cbn [negb].
        unfold deref. rewrite GS. cbn [obind]. rewrite SS. unfold check_head. destruct (SR NE) as [p [pn [Q1 Q2]]]. rewrite Q1. unfold deref.
        assert (GP : get p (k_nodes k) = Some pn) by (apply (wk_get _ _ _ _ W (p, pn)); apply in_or_app; left; exact Q2). rewrite GP. cbn [obind]. rewrite (AL p pn GP). cbn [obind].
        rewrite part_kept; [|exact AL|exact SG]. cbn [obind]. rewrite app_nil_r. reflexivity.
      - intros y n I. split; [apply (wk_get _ _ _ _ W (y, n)); apply in_or_app; left; exact I|]. intros ->. apply NDC. apply in_or_app. left. apply (in_map fst) in I. exact I. }
    rewrite PT, uncounts_app. destruct (uncounts rest (k_alive k, k_snaps k)) as [ac| | | |]; cbn [obind]; try reflexivity.
    rewrite <- map_app. fold gone. rewrite LG. destruct (uncounts gone ac) as [ac'| | | |]; cbn [obind]; try reflexivity. rewrite P1. cbn [obind].
    rewrite HEAD; [reflexivity| |exact LS]. destruct (ti_head _ _ _ _ (proj1 KT)) as [n [N1 _]]. exists n. split; [exact N1|].
    destruct (proj1 (proj2 (proj2 KT)) s n N1) as [m [M1 [[_ [M2 _]] _]]]. rewrite M2. apply (AL s m). apply (wk_get _ _ _ _ W (s, m)). apply in_or_app. right. exact M1.
Qed.
