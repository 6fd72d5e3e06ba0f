(** C80: squashing the current branch. *)
From Coq Require Import List NArith Arith Bool Lia Sorting.Sorted.
From Verif Require Import LayoutModel LayoutProofs ArchDataModel ArchDataProofs ArchDataProps StorageModel StorageProofs StorageArch StorageProps
  CkptModel CkptTree CkptOps CkptData CkptWorld CkptSteps CkptProps SquashModel SquashTree SquashProofs SquashWorld.
From Verif Require CherryModel CherrySpec.
Import ListNotations.
Open Scope N_scope.

(** The operations of a history other than squashes. *)
Definition sop_ok (o : sop) : Prop := match o with SCall c => op_ok c | SSquash => True end.
Lemma srun_inv : forall sh cs, Forall (wfc sh) cs -> capacity cs < 2 ^ 32 -> forall ops w w' bs, INV cs w -> Forall sop_ok ops -> srun sh w ops = Some (w', bs) ->
  INV cs w' /\ (forall id t fs, Keep cs id t fs w -> Keep cs id t fs w') /\ (w_sched w = None <-> w_sched w' = None).
Proof.
  intros sh cs Wf Cap. induction ops as [|[o|] ops IH]; intros w w' bs HI HO HR; cbn [srun] in HR; [injection HR as <- _; split; [exact HI|split; [auto|reflexivity]]| |];
    inversion HO as [|? ? O1 O2]; subst.
  - destruct (step_ok sh cs Wf Cap w o HI O1) as [E|[w1 [E [G1 [G2 [_ G4]]]]]]; rewrite E in HR; [eauto|].
    destruct (IH w1 w' bs G1 O2 HR) as [I1 [I2 I3]]. split; [exact I1|]. split; [auto|]. rewrite G4. exact I3.
  - destruct (squash (w_ck w)) as [[k sv]| | | |] eqn:Q; try discriminate; [|eauto].
    destruct (srun sh _ ops) as [[w1 bs1]|] eqn:E; [|discriminate]. injection HR as <- _. destruct (squash_inv cs w k sv HI Q) as [G1 [G2 _]].
    destruct (IH _ _ _ G1 O2 E) as [I1 [I2 I3]]. split; [exact I1|]. split; [auto|]. exact I3.
Qed.
Lemma sreach : forall sh cs w0 ops w bs, begun sh cs w0 -> Forall sop_ok ops -> srun sh w0 ops = Some (w, bs) ->
  Forall (wfc sh) cs /\ capacity cs < 2 ^ 32 /\ INV cs w.
Proof.
  intros sh cs w0 ops w bs HB HO HR. destruct (begun_ok _ _ _ HB) as [Wf [Cap HI]]. destruct (srun_inv sh cs Wf Cap ops w0 w bs HI HO HR) as [E _]. auto.
Qed.
Lemma split_last : forall l h x s rest st, split_at l h x s rest st -> exists r, map fst (rest ++ st) = r ++ [x].
Proof.
  intros l h x s rest st SP. pose proof (sp_walk _ _ _ _ _ _ SP) as W. pose proof (wk_last _ _ _ _ W) as I.
  assert (TP : forall y, In y (map fst (rest ++ st)) -> y <= x). { intros y Hy. apply in_map_iff in Hy. destruct Hy as [q [<- Hq]]. exact (wk_top _ _ _ _ W q Hq). }
  pose proof (walk_keys _ (wk_sorted _ _ _ _ W)) as SO. revert I TP SO. generalize (map fst (rest ++ st)). clear. induction l as [|y l IH]; intros I TP SO; [destruct I|].
  inversion SO as [|? ? S1 S2]; subst. destruct I as [->|I].
  - destruct l as [|z l]; [exists []; reflexivity|]. inversion S2 as [|? ? Z _]; subst. specialize (TP z (or_intror (or_introl eq_refl))). lia.
  - destruct (IH I) as [r ->]; [intros z Hz; apply TP; right; exact Hz|exact S1|]. exists (y :: r). reflexivity.
Qed.
(** The entry of a checkpoint: its identifier, tick, kind and recorded bytes. *)
Definition entry (k : ckpt) (x : N) : option (N * bool * vstore) := option_map (fun n => (n_tick n, n_snap n, n_data n)) (get x (k_nodes k)).

(** A squash that goes through divides the chain from the head to the current checkpoint, which is where it was before: the
    front part goes to the disk in order of creation, the rest stays. What stays is the last snapshot, as new head, and the
    deltas since. Nothing else stays, and the counts agree. Each checkpoint saved or kept has its tick, kind and bytes. *)
Theorem C80_squash : forall sh cs w0 ops w bs k' sv, begun sh cs w0 -> Forall sop_ok ops -> srun sh w0 ops = Some (w, bs) ->
  k_cur (w_ck w) <> None -> squash (w_ck w) = Done (k', sv) -> let k := w_ck w in let kept := get_checkpoints k' in
  checkpoint_chain k (current_id k) = Done (rev (map fst sv ++ kept)) /\ checkpoint_chain k' (current_id k') = Done (rev kept) /\
  current_id k' = current_id k /\ (exists r, kept = head_id k' :: r) /\ last kept no_id = current_id k /\
  (forall x, In x kept -> (snapshot k' x = true <-> x = head_id k')) /\
  (sv = [] -> head_id k' = head_id k) /\ (sv <> [] -> exists n r, sv = (head_id k, n) :: r /\ n_snap n = true) /\
  map fst (k_nodes k') = kept /\ num_checkpoints k' = N.of_nat (length kept) mod 2 ^ 32 /\ num_snapshots k' = 1 /\ num_dead k' = 0 /\
  k_total k' = k_total k /\ k_thresh k' = k_thresh k /\
  (forall x, In x kept -> entry k' x = entry k x /\ entry k x <> None) /\
  (forall x n, In (x, n) sv -> n_dead n = false /\ entry k x = Some (n_tick n, n_snap n, n_data n)).
Proof.
  intros sh cs w0 ops w bs k' sv HB HO HR CU Q k kept. destruct (sreach _ _ _ _ _ _ HB HO HR) as [Wf [Cap HI]].
  destruct HI as [[fs H]|[h [c [fs H]]]]; [exfalso; apply CU; exact (w0_cur _ _ _ H)|].
  destruct (squash_ok cs w h c fs k' sv H Q) as [rest [st [s [AL [SP [CH [H' [AL' [K [NX [TH [G' V']]]]]]]]]]]]. cbv zeta in *. fold k in AL, SP, CH, NX, TH.
  pose proof (wi_tree _ _ _ _ _ H) as T. fold k in T. pose proof (wi_tree _ _ _ _ _ H') as T'. unfold with_ck in T'. cbn [w_ck] in T'.
  pose proof (sp_walk _ _ _ _ _ _ SP) as W. pose proof (wi_head _ _ _ _ _ H') as KH'. pose proof (wi_cur _ _ _ _ _ H') as KC'. cbn [with_ck w_ck] in KH', KC'.
  pose proof (wi_head _ _ _ _ _ H) as KH. pose proof (wi_cur _ _ _ _ _ H) as KC. fold k in KH, KC.
  assert (EK : kept = map fst st).
  { unfold kept. rewrite get_checkpoints_alives, (proj1 (alives_live _ (ti_sorted _ _ _ _ T') AL')), <- keys_flags. exact K. }
  assert (LIVE : forall k0 x, all_live (k_nodes k0) -> (exists n, get x (k_nodes k0) = Some n) -> id_of k0 x = x).
  { intros k0 x A [n G]. apply (id_live k0 x n G (A x n G)). }
  destruct (ti_head _ _ _ _ T') as [sn' [GS' [PS' SS']]]. destruct (ti_head _ _ _ _ T) as [hn [GH [PH SH]]].
  assert (C1 : current_id k = c) by (unfold current_id; rewrite KC; apply LIVE; [exact AL|exact (ti_cur _ _ _ _ T)]).
  assert (C2 : current_id k' = c) by (unfold current_id; rewrite KC'; apply LIVE; [exact AL'|exact (ti_cur _ _ _ _ T')]).
  assert (C3 : head_id k' = s) by (unfold head_id; rewrite KH'; apply LIVE; [exact AL'|eauto]).
  assert (C4 : head_id k = h) by (unfold head_id; rewrite KH; apply LIVE; [exact AL|eauto]).
  assert (SV : map fst sv = map fst rest). { clear - V'. induction V' as [|q p a b [E _] V IH]; cbn [map]; [reflexivity|]. congruence. }
  assert (ESN : forall k0, map fst (k_nodes k0) = keysn (k_nodes k0)) by reflexivity.
  destruct (sp_s _ _ _ _ _ _ SP) as [sn [st' [EST [SS [SD SR]]]]].
  assert (GST : forall y m, In (y, m) st -> get y (k_nodes k) = Some m) by (intros y m I; apply (wk_get _ _ _ _ W (y, m)); apply in_or_app; right; exact I).
  assert (KST : forall y, In y kept -> exists n m, get y (k_nodes k') = Some n /\ In (y, m) st /\ same_node n m /\ (n_snap m = false -> n_prev n = n_prev m)).
  { intros y I. rewrite EK, <- K in I. destruct (key_get _ _ I) as [n G]. destruct (G' y n G) as [m [M1 [M2 M3]]]. eauto 6. }
  pose proof (SS_nodup _ (walk_keys _ (wk_sorted _ _ _ _ W))) as NDC. rewrite map_app in NDC.
  assert (DJ : forall y, In y (map fst rest) -> In y (map fst st) -> False).
  { clear - NDC. intros y H1 H2. induction (map fst rest) as [|z r IH]; [destruct H1|]. cbn [app] in NDC. inversion NDC as [|? ? N1 N2]; subst.
    destruct H1 as [->|H1]; [|auto]. apply N1. apply in_or_app. right. exact H2. }
  destruct (split_last _ _ _ _ _ _ SP) as [r0 R0].
  assert (LK : exists r, kept = r ++ [c]).
  { rewrite EK. pose proof (sp_x _ _ _ _ _ _ SP) as SX. rewrite map_app in R0. assert (NE : map fst st <> []) by (intros E; rewrite E in SX; destruct SX).
    destruct (exists_last NE) as [zs [z EZ]]. rewrite EZ in *. rewrite app_assoc in R0. apply app_inj_tail in R0. destruct R0 as [_ ->]. eauto. }
  destruct (wi_counts _ _ _ _ _ H') as [A1 [A2 A3]]. cbn [with_ck w_ck] in A1, A2, A3. destruct (alives_live _ (ti_sorted _ _ _ _ T') AL') as [AV DV].
  rewrite C1, C2, C3, C4. split; [|split; [|split; [|split; [|split; [|split; [|split; [|split; [|split; [|split; [|split; [|split; [|split; [|split; [|split]]]]]]]]]]]]]].
  - rewrite SV, EK, <- map_app. rewrite C1 in CH. exact CH.
  - destruct (ti_cur _ _ _ _ T') as [cn' GC']. destruct (split_ok _ _ _ _ T' (depth k') c cn') as [rest2 [st2 [s2 [E1 [E2 SP2]]]]]; [unfold depth; apply below_le|exact GC'|].
    pose proof (sp_walk _ _ _ _ _ _ SP2) as W2. unfold checkpoint_chain. rewrite KH', GC', E1. cbn [obind]. f_equal. transitivity (rev (map fst (rest2 ++ st2))).
    + rewrite <- map_rev. apply map_ext_in. intros [y n] I. apply in_rev in I. pose proof (wk_get _ _ _ _ W2 _ I) as G. cbn [fst snd] in G. unfold shown. cbn [snd fst]. rewrite (AL' y n G). reflexivity.
    + f_equal. rewrite EK. apply SS_same.
      * apply walk_keys. exact (wk_sorted _ _ _ _ W2).
      * pose proof (walk_keys _ (wk_sorted _ _ _ _ W)) as X. rewrite map_app in X. exact (SS_suffix _ _ _ _ X).
      * intros y. split; intros I.
        -- apply in_map_iff in I. destruct I as [q [<- I]]. pose proof (wk_get _ _ _ _ W2 q I) as G. rewrite <- K. eapply get_key. exact G.
        -- remember (N.to_nat (c - y)) as d eqn:ED. revert y I ED. induction d as [d IHd] using lt_wf_ind. intros y I ED.
           destruct (N.eq_dec y c) as [->|YC]; [exact (wk_last _ _ _ _ W2)|].
           destruct (wk_next _ _ _ _ W y) as [E|[z [m [Z1 Z2]]]]; [rewrite map_app; apply in_or_app; right; exact I|congruence|].
           assert (ZH : z <> h) by (intros ->; pose proof (wk_get _ _ _ _ W _ Z1) as G; cbn [fst snd] in G; congruence).
           assert (ZS : In (z, m) st').
           { apply in_app_or in Z1. destruct Z1 as [Z1|Z1].
             - exfalso. destruct (sp_rest _ _ _ _ _ _ SP z m Z1) as [->|[p [P1 P2]]]; [congruence|]. assert (p = y) by congruence. subst p. exact (DJ y P2 I).
             - rewrite EST in Z1. destruct Z1 as [Z1|Z1]; [|exact Z1]. exfalso. injection Z1 as <- <-.
               destruct rest as [|q0 rest0] eqn:ER; [apply ZH; exact (sp_head _ _ _ _ _ _ SP eq_refl)|]. destruct (SR ltac:(discriminate)) as [p [pn [P1 P2]]].
               assert (p = y) by congruence. subst p. apply (DJ y); [|exact I]. apply (in_map fst) in P2. exact P2. }
           assert (ZT : In (z, m) st) by (rewrite EST; right; exact ZS).
           assert (ZI : In z (map fst st)) by (apply (in_map fst) in ZT; exact ZT).
           destruct (ti_prev _ _ _ _ T z m (GST z m ZT) ZH) as [p [pn [P1 [_ [P3 _]]]]]. assert (p = y) by congruence. subst p.
           pose proof (wk_top _ _ _ _ W (z, m) (in_or_app _ _ _ (or_intror ZT))) as TP. cbn [fst] in TP.
           assert (IZ : In z (map fst (rest2 ++ st2))) by (apply (IHd (N.to_nat (c - z))); [lia|exact ZI|reflexivity]).
           assert (ZK : In z kept) by (rewrite EK; exact ZI). destruct (KST z ZK) as [n [m' [Gn [Im' [Sm Pm]]]]].
           assert (m' = m) by (pose proof (GST z m' Im'); pose proof (GST z m ZT); congruence). subst m'.
           apply in_map_iff in IZ. destruct IZ as [[z' n'] [E IZ]]. cbn [fst] in E. subst z'. pose proof (wk_get _ _ _ _ W2 _ IZ) as Gn'. cbn [fst snd] in Gn'. assert (n' = n) by congruence. subst n'.
           assert (PN : n_prev n = Some y) by (rewrite Pm; [exact Z2|apply (SD z m ZS)]).
           destruct (wk_prev _ _ _ _ W2 z n IZ) as [->|[q [Q1 Q2]]]; [|congruence]. congruence.
  - reflexivity.
  - rewrite EK, EST. cbn [map fst]. eauto.
  - destruct LK as [r ->]. apply last_last.
  - intros x I. destruct (KST x I) as [n [m [Gn [Im [[_ [_ [Sn _]]] _]]]]]. unfold snapshot. rewrite Gn, Sn. rewrite EST in Im. destruct Im as [Im|Im].
    + injection Im as <- <-. rewrite SS. split; auto.
    + rewrite (proj1 (SD x m Im)). split; [discriminate|]. intros ->. assert (m = sn) by (assert (In (s, m) st) by (rewrite EST; right; exact Im); assert (In (s, sn) st) by (rewrite EST; left; reflexivity);
        pose proof (GST s m ltac:(assumption)); pose proof (GST s sn ltac:(assumption)); congruence). subst m. destruct (SD s sn Im). congruence.
  - intros E. apply (sp_head _ _ _ _ _ _ SP). subst sv. inversion V'. reflexivity.
  - intros NE. assert (NR : rest <> []) by (intros E; apply NE; rewrite E in V'; inversion V'; reflexivity).
    destruct (sp_head' _ _ _ _ _ _ SP NR) as [hn' [r ER]]. rewrite ER in V'. inversion V' as [|[x n] p a b [E1 [_ [_ [E2 _]]]] _ EA EB]. cbn [fst snd] in E1, E2. rewrite <- EA in *.
    exists n, a. split; [congruence|]. rewrite E2. pose proof (wk_get _ _ _ _ W (h, hn') ltac:(rewrite ER; left; reflexivity)) as G. cbn [fst snd] in G. congruence.
  - rewrite EK. exact K.
  - unfold num_checkpoints. rewrite A1, AV. unfold flags. rewrite map_length. change (2 ^ 32) with 4294967296. rewrite EK, <- K. unfold keysn. rewrite map_length. reflexivity.
  - unfold num_snapshots. rewrite A2, AV, snaps_flags. assert (X : snaps (k_nodes k') = 1%nat); [|rewrite X; reflexivity].
    assert (Y : snaps (k_nodes k') = snaps st).
    { rewrite <- !snaps_flags. apply f_equal. unfold keysn in K. assert (FF : flags (k_nodes k') = flags st); [|rewrite FF; reflexivity].
      assert (P : forall y n, In (y, n) (k_nodes k') -> exists m, In (y, m) st /\ same_node n m).
      { intros y n I. destruct (G' y n (in_get _ _ _ (sorted_nodup _ (ti_sorted _ _ _ _ T')) I)) as [m [M1 [M2 _]]]. eauto. }
      pose proof (walk_keys _ (wk_sorted _ _ _ _ W)) as SO. rewrite map_app in SO. apply SS_suffix in SO. apply SS_nodup in SO. clear - K P SO.
      revert K P SO. generalize (k_nodes k'). induction st as [|[y m] st IH]; intros [|[z n] l] K P SO; cbn [map fst] in K; try discriminate; [reflexivity|]. injection K as -> K.
      cbn [map fst] in SO. inversion SO as [|? ? N1 N2]; subst. unfold flags. cbn [map]. f_equal.
      - destruct (P y n (or_introl eq_refl)) as [m' [[I|I] [E1 [E2 [E3 _]]]]]; [injection I as <-; unfold flag; cbn [fst snd]; congruence|]. exfalso. apply N1. apply (in_map fst) in I. exact I.
      - apply (IH l K); [|exact N2]. intros u v I. destruct (P u v (or_intror I)) as [m' [[J|J] S]]; [|eauto]. exfalso. injection J as <- _. apply N1. rewrite <- K. apply (in_map fst) in I. exact I. }
    rewrite Y, EST. unfold snaps. cbn [filter snd]. rewrite SS. cbn [length]. f_equal.
    assert (SD0 : forall y n, In (y, n) st' -> n_snap n = false) by (intros y n I; apply (SD y n I)). clear - SD0. induction st' as [|[y m] st' IH]; [reflexivity|]. cbn [filter snd].
    rewrite (SD0 y m (or_introl eq_refl)). apply IH. intros z n I. apply (SD0 z n). right. exact I.
  - unfold num_dead. rewrite A3, DV. reflexivity.
  - pose proof (wi_total _ _ _ _ _ H') as X. pose proof (wi_total _ _ _ _ _ H) as Y. cbn [with_ck w_ck] in X. fold k in Y. congruence.
  - exact TH.
  - intros x I. destruct (KST x I) as [n [m [Gn [Im [[S1 [S2 [S3 S4]]] _]]]]]. unfold entry. rewrite Gn, (GST x m Im). cbn [option_map]. split; [congruence|discriminate].
  - intros x n I. assert (X : exists m, In (x, m) rest /\ same_node n m).
    { clear - V' I. induction V' as [|[y a] [z b] sv rest [E1 E2] V IH]; [destruct I|]. cbn [fst snd] in E1, E2. destruct I as [I|I].
      - injection I as -> ->. subst z. exists b. split; [left; reflexivity|exact E2].
      - destruct (IH I) as [m [M1 M2]]. exists m. split; [right; exact M1|exact M2]. }
    destruct X as [m [M1 [S1 [S2 [S3 S4]]]]]. pose proof (wk_get _ _ _ _ W (x, m) (in_or_app _ _ _ (or_introl M1))) as G. cbn [fst snd] in G. unfold entry. rewrite G. cbn [option_map].
    split; [rewrite S2; apply (AL x m G)|congruence].
Qed.
Print Assumptions C80_squash.

(** A world after calls and squashes, from the two ArchDatas of C38. *)
Definition safter (ops : list sop) : option (world * list (list (N * node))) := match ex_w0 with Some w => srun ns w ops | None => None end.
Lemma safter_ok : forall ops w bs, safter ops = Some (w, bs) -> exists w0, begun ns ex_cs w0 /\ srun ns w0 ops = Some (w, bs).
Proof. intros ops w bs H. destruct ex_begun as [w0 [E B]]. unfold safter in H. rewrite E in H. eauto. Qed.
(** Much like the picture of FastCheckpointer.hpp 619-636: snapshots are 0, 3 and 7, branches 2-5, 6-8 and 9-10 start at 1, the current
    checkpoint is 8. *)
Definition tree : list sop := map SCall [CHead; CTick 1; CWrite 0 0 [1]; CCreate false; CTick 1; CWrite 0 1 [2]; CCreate false; CCreate true; CCreate false; CCreate false;
  CLoad 1; CTick 7; CWrite 1 2 [7]; CCreate false; CTick 1; CWrite 0 0 [8; 8]; CCreate true; CTick 1; CWrite 0 3 [5]; CCreate false; CLoad 1; CCreate false; CCreate false; CLoad 8].
(** As the source says: head, 1 and 6 are saved, snapshot 7 and delta 8 stay. *)
Example C80_squash_ex : exists w k' sv, safter tree = Some (w, []) /\ current_id (w_ck w) = 8 /\ get_checkpoints (w_ck w) = [0; 1; 2; 3; 4; 5; 6; 7; 8; 9; 10] /\
  squash (w_ck w) = Done (k', sv) /\ map (fun q => (fst q, n_tick (snd q), n_snap (snd q))) sv = [(0, 5, true); (1, 6, false); (6, 13, false)] /\
  get_checkpoints k' = [7; 8] /\ head_id k' = 7 /\ current_id k' = 8 /\ num_checkpoints k' = 2 /\ num_snapshots k' = 1.
Proof.
  eexists _, _, _. split; [vm_compute; reflexivity|]. split; [vm_compute; reflexivity|]. split; [vm_compute; reflexivity|]. split; [vm_compute; reflexivity|].
  split; [vm_compute; reflexivity|]. split; [vm_compute; reflexivity|]. split; [vm_compute; reflexivity|]. split; [vm_compute; reflexivity|]. split; vm_compute; reflexivity.
Qed.

(** With fewer than 2^32 checkpoints and one current, a squash goes through exactly if no checkpoint is deleted but kept. *)
Theorem C80_when : forall sh cs w0 ops w bs, begun sh cs w0 -> Forall sop_ok ops -> srun sh w0 ops = Some (w, bs) ->
  k_cur (w_ck w) <> None -> N.of_nat (length (k_nodes (w_ck w))) < 2 ^ 32 ->
  ((exists k' sv, squash (w_ck w) = Done (k', sv)) <-> num_dead (w_ck w) = 0).
Proof.
  intros sh cs w0 ops w bs HB HO HR CU LN. destruct (sreach _ _ _ _ _ _ HB HO HR) as [Wf [Cap HI]].
  destruct HI as [[fs H]|[h [c [fs H]]]]; [exfalso; apply CU; exact (w0_cur _ _ _ H)|]. pose proof (wi_tree _ _ _ _ _ H) as T.
  destruct (wi_counts _ _ _ _ _ H) as [_ [_ A3]]. unfold cd_ok in A3. unfold num_dead.
  assert (LD : N.of_nat (length (deads (k_nodes (w_ck w)))) < 4294967296).
  { apply N.le_lt_trans with (2 := LN). unfold deads. pose proof (filter_len_le _ fdead (flags (k_nodes (w_ck w)))) as X. unfold flags in X at 2. rewrite map_length in X. lia. }
  rewrite N.mod_small in A3 by exact LD. split.
  - intros [k' [sv Q]]. pose proof (squash_live _ c h _ (wi_cur _ _ _ _ _ H) T (wi_ids _ _ _ _ _ H) Q) as AL.
    rewrite A3, (proj2 (alives_live _ (ti_sorted _ _ _ _ T) AL)). reflexivity.
  - intros Z. apply (squash_when cs w h c fs H LN). intros x n G. destruct (n_dead n) eqn:D; [|reflexivity]. exfalso. rewrite A3 in Z.
    assert (I : In (flag (x, n)) (deads (k_nodes (w_ck w)))) by (apply filter_In; split; [apply get_flag; exact G|exact D]).
    destruct (deads (k_nodes (w_ck w))); [destruct I|cbn [length] in Z; lia].
Qed.
Print Assumptions C80_when.
(** Deleted checkpoints: the current one deleted refuses, one before the last snapshot is a null pointer, others assert. After
    1 is deleted with a later snapshot it is gone, and nothing goes wrong. *)
Example C80_when_ex :
  option_map (fun p => squash (w_ck (fst p))) (safter (map SCall [CHead; CCreate false; CDelete 1])) = Some Refused /\
  option_map (fun p => squash (w_ck (fst p))) (safter (map SCall [CHead; CCreate true; CCreate false; CDelete 0])) = Some Undefined /\
  option_map (fun p => squash (w_ck (fst p))) (safter (map SCall [CHead; CCreate false; CCreate false; CDelete 1])) = Some Asserted /\
  option_map (fun p => squash (w_ck (fst p))) (safter (map SCall [CHead; CCreate false; CCreate false; CLoad 0; CCreate true; CDelete 1])) = Some Asserted /\
  option_map (fun p => match squash (w_ck (fst p)) with Done (k, sv) => Some (map fst sv, get_checkpoints k) | _ => None end)
    (safter (map SCall [CHead; CCreate false; CCreate true; CDelete 1])) = Some (Some ([0], [2])).
Proof. repeat split; vm_compute; reflexivity. Qed.

(** The flag of C38, which a squash leaves alone. *)
Fixpoint sfresh (sh : overshift) (w : world) (fresh : bool) (ops : list sop) : bool :=
  match ops with
  | [] => fresh
  | SCall o :: r => match cstep sh w o with Done w' => sfresh sh w' (fresh_after w o fresh) r | _ => sfresh sh w fresh r end
  | SSquash :: r => match squash (w_ck w) with Done (k, _) => sfresh sh (mkW (w_dats w) (w_sched w) k) fresh r | _ => sfresh sh w fresh r end
  end.
Lemma sfresh_ok : forall sh cs, Forall (wfc sh) cs -> capacity cs < 2 ^ 32 -> forall ops w fresh w' bs, INV cs w -> Forall sop_ok ops ->
  (fresh = true -> FR cs w) -> srun sh w ops = Some (w', bs) -> sfresh sh w fresh ops = true -> FR cs w'.
Proof.
  intros sh cs Wf Cap. induction ops as [|[o|] ops IH]; intros w fresh w' bs HI HO HF HR HA; cbn [srun sfresh] in *; [injection HR as <- _; auto| |];
    inversion HO as [|? ? O1 O2]; subst.
  - destruct (step_ok sh cs Wf Cap w o HI O1) as [E|[w1 [E [G1 _]]]]; rewrite E in HR, HA.
    + eapply IH; [exact HI|exact O2|exact HF|exact HR|exact HA].
    + eapply IH; [exact G1|exact O2| |exact HR|exact HA]. intros Q. exact (fresh_ok sh cs Wf Cap w o fresh w1 HI O1 HF E Q).
  - destruct (squash (w_ck w)) as [[k sv]| | | |] eqn:Q; try discriminate; [|eauto].
    destruct (srun sh _ ops) as [[w1 bs1]|] eqn:E; [|discriminate]. injection HR as <- _. destruct (squash_inv cs w k sv HI Q) as [G1 [_ G3]].
    eapply IH; [exact G1|exact O2| |exact E|exact HA]. intros X. apply G3. auto.
Qed.
(** C38 with squashes anywhere before and after the checkpoint is taken: as long as it is listed it loads to the bytes and the
    tick it was taken at. "Partial" for the same conditions as C38. *)
Theorem C80_load_partial : forall sh cs w0 ops1 w1 bs1 o w2 id ops2 w3 bs2, begun sh cs w0 -> Forall sop_ok ops1 -> srun sh w0 ops1 = Some (w1, bs1) ->
  op_ok o -> may w1 o (sfresh sh w0 false ops1) -> cstep sh w1 o = Done w2 ->
  In id (get_checkpoints (w_ck w2)) -> ~ In id (get_checkpoints (w_ck w1)) ->
  Forall sop_ok ops2 -> srun sh w2 ops2 = Some (w3, bs2) -> In id (get_checkpoints (w_ck w3)) ->
  exists w4, cstep sh w3 (CLoad id) = Done w4 /\
    Forall2 (fun ca b => same_reads sh (fst ca) (snd ca) b) (combine cs (w_dats w2)) (w_dats w4) /\
    w_sched w4 = w_sched w2 /\ current_id (w_ck w4) = id.
Proof.
  intros sh cs w0 ops1 w1 bs1 o w2 id ops2 w3 bs2 HB O1 R1 Oo HM HS I2 I1 O2 R2 I3.
  destruct (begun_ok _ _ _ HB) as [Wf [Cap HI0]].
  assert (HF : sfresh sh w0 false ops1 = true -> FR cs w1) by (intros Q; refine (sfresh_ok sh cs Wf Cap ops1 w0 false w1 bs1 HI0 O1 _ R1 Q); discriminate).
  destruct (sreach _ _ _ _ _ _ HB O1 R1) as [_ [_ HI1]].
  destruct (step_ok sh cs Wf Cap w1 o HI1 Oo) as [E|[w' [E [HI2 [_ [_ S1]]]]]]; [congruence|]. assert (w' = w2) by congruence. subst w'.
  destruct (new_ok sh cs Wf Cap w1 o _ w2 id HI1 Oo HF HM HS I2 I1) as [fs [HD HK]].
  destruct (srun_inv sh cs Wf Cap ops2 w2 w3 bs2 HI2 O2 R2) as [HI3 [F3 SCH]]. destruct (F3 _ _ _ HK) as [K1 [K2 K3]].
  pose proof (INV_sorted cs w3 HI3) as SO. assert (L3 : live_at (k_nodes (w_ck w3)) id) by (apply (live_listed _ SO); exact I3).
  destruct L3 as [n [G DN]]. destruct HI3 as [[gs HI3]|[h [c [gs HI3]]]]; [rewrite (w0_nodes _ _ _ HI3) in G; discriminate|].
  destruct (ckload_ok sh cs Wf Cap w3 h c gs id n HI3 G) as [w4 [fs' [E1 [E2 [E3 [E4 [E5 [E6 [E7 [E8 E9]]]]]]]]]].
  exists w4. split; [exact E1|]. split; [|split].
  - apply (D_same sh cs Wf _ fs); [exact HD|]. apply E3. apply K3. exists n. auto.
  - rewrite E5. rewrite (K2 n G). unfold now. destruct (w_sched w2) as [t|] eqn:Q2; destruct (w_sched w3) as [u|] eqn:Q3; try reflexivity.
    + discriminate (proj2 SCH eq_refl).
    + discriminate (proj1 SCH eq_refl).
  - unfold current_id. rewrite (wi_cur _ _ _ _ _ E2). unfold id_of.
    assert (L4 : live_at (k_nodes (w_ck w4)) id).
    { apply (live_in_alives _ _ (ti_sorted _ _ _ _ (wi_tree _ _ _ _ _ E2))). rewrite E6. apply (live_in_alives _ _ SO). exists n. auto. }
    destruct L4 as [m [M1 M2]]. rewrite M1. unfold shown. cbn [snd fst]. rewrite M2. reflexivity.
Qed.
Print Assumptions C80_load_partial.
(** 11 is taken after a squash, a delta on 8, which is one on 7; after another squash it loads. *)
Example C80_load_ex : exists w0 w1 w2 w3 bs1 bs2 w4, let ops1 := tree ++ [SSquash; SCall (CWrite 0 0 [9])] in
  ex_w0 = Some w0 /\ srun ns w0 ops1 = Some (w1, bs1) /\ may w1 (CCreate false) (sfresh ns w0 false ops1) /\ cstep ns w1 (CCreate false) = Done w2 /\
  look w1 = ([Done [9; 8; 204; 5]; Done [205; 171; 7; 171]], Some 15, [7; 8]) /\ look w2 = ([Done [9; 8; 204; 5]; Done [205; 171; 7; 171]], Some 15, [7; 8; 11]) /\
  srun ns w2 [SCall (CTick 4); SCall (CWrite 1 0 [3; 3]); SCall (CCreate false); SSquash] = Some (w3, bs2) /\ map (map fst) (bs1 ++ bs2) = [[0; 1; 6]] /\
  look w3 = ([Done [9; 8; 204; 5]; Done [3; 3; 7; 171]], Some 19, [7; 8; 11; 12]) /\
  cstep ns w3 (CLoad 11) = Done w4 /\ look w4 = ([Done [9; 8; 204; 5]; Done [205; 171; 7; 171]], Some 15, [7; 8; 11; 12]).
Proof.
  eexists _, _, _, _, _, _, _. cbv zeta. split; [vm_compute; reflexivity|]. split; [vm_compute; reflexivity|]. split; [vm_compute; auto|]. split; [vm_compute; reflexivity|].
  split; [vm_compute; reflexivity|]. split; [vm_compute; reflexivity|]. split; [vm_compute; reflexivity|]. split; [vm_compute; reflexivity|]. split; [vm_compute; reflexivity|].
  split; vm_compute; reflexivity.
Qed.

(** Calls keep the head. *)
Lemma cleanup_loop_head : forall f k d k', cleanup_loop f k d = Done k' -> k_head k' = k_head k.
Proof.
  induction f as [|f IH]; intros k d k' H; cbn [cleanup_loop] in H; [discriminate|]. destruct d as [x|]; [|injection H as <-; reflexivity].
  destruct (is (k_head k) x); [injection H as <-; reflexivity|]. destruct (deref x (k_nodes k)) as [n| | | |]; cbn [obind] in H; try discriminate.
  destruct (negb (n_dead n)); [injection H as <-; reflexivity|]. destruct (is (k_cur k) x); [injection H as <-; reflexivity|].
  destruct (can_delete (depth k) (k_nodes k) x) as [[]| | | |]; cbn [obind] in H; try discriminate; [|apply IH in H; exact H].
  destruct (erase x (k_nodes k)) as [l| | | |]; cbn [obind] in H; try discriminate. apply IH in H. exact H.
Qed.
Lemma cleanup_head : forall k x k', cleanup k x = Done k' -> k_head k' = k_head k.
Proof.
  intros k x k' H. unfold cleanup in H. destruct (is (k_head k) x); [injection H as <-; reflexivity|].
  destruct (if is (k_cur k) x then Done true else find_alive (depth k) (k_cur k) (k_nodes k) x) as [b| | | |]; cbn [obind] in H; try discriminate.
  destruct (deref x (k_nodes k)) as [n| | | |]; cbn [obind] in H; try discriminate. destruct b; [destruct (n_snap n)|].
  - eapply cleanup_loop_head; exact H.
  - injection H as <-. reflexivity.
  - eapply cleanup_loop_head; exact H.
Qed.
Lemma step_head : forall sh w o w' h, cstep sh w o = Done w' -> k_head (w_ck w) = Some h -> k_head (w_ck w') = Some h.
Proof.
  intros sh w o w' h H KH. destruct o as [i addr buf|i|n| |force|id|id| |n]; cbn [cstep] in H.
  - destruct (nth_error (w_dats w) i); [|discriminate]. destruct (mem_write sh a addr buf) as [a' []]; try discriminate; injection H as <-; exact KH.
  - destruct (nth_error (w_dats w) i); [|discriminate]. destruct (mem_clean sh a) as [a' []]; try discriminate; injection H as <-; exact KH.
  - injection H as <-. exact KH.
  - unfold ck_head in H. rewrite KH in H. discriminate.
  - unfold ck_create in H. rewrite KH in H. unfold ck_create_ in H. rewrite KH in H. destruct (k_next (w_ck w) =? no_id); [discriminate|].
    destruct (deref h (k_nodes (w_ck w))) as [hn| | | |]; cbn [obind] in H; try discriminate. destruct (match w_sched w with Some t => t <? n_tick hn | None => false end); [discriminate|].
    destruct (match k_cur (w_ck w) with None => _ | Some c => _ end) as [[prev far]| | | |]; cbn [obind] in H; try discriminate.
    destruct (add_next prev _ _) as [l| | | |]; cbn [obind] in H; try discriminate. destruct (save_dats _ _ _ _) as [[d s]| | | |]; cbn [obind] in H; try discriminate.
    destruct (force || far).
    + match type of H with context [cleanup ?kk ?i] => destruct (cleanup kk i) as [k2| | | |] eqn:E end; cbn [obind] in H; try discriminate.
      injection H as <-. cbn [w_ck]. apply cleanup_head in E. rewrite E. reflexivity.
    + cbn [obind] in H. injection H as <-. reflexivity.
  - unfold ck_load in H. destruct (get id (k_nodes (w_ck w))); [|discriminate]. destruct (restore_chain _ _ _) as [c| | | |]; cbn [obind] in H; try discriminate.
    destruct (load_chain _ _ _ _) as [d| | | |]; cbn [obind] in H; try discriminate. destruct (k_cur (w_ck w)) as [rmv|]; [|discriminate].
    destruct (cleanup (with_cur (w_ck w) (Some id)) rmv) as [k'| | | |] eqn:E; cbn [obind] in H; try discriminate. injection H as <-. cbn [w_ck]. apply cleanup_head in E. rewrite E. exact KH.
  - destruct (ck_delete (w_ck w) id) as [k'| | | |] eqn:E; cbn [obind] in H; try discriminate. injection H as <-. cbn [w_ck]. unfold ck_delete in E.
    destruct (get id (k_nodes (w_ck w))) as [n|]; [|discriminate]. apply cleanup_head in E. rewrite E. destruct (n_dead n); exact KH.
  - injection H as <-. cbn [w_ck]. unfold ck_forget. rewrite KH. exact KH.
  - injection H as <-. exact KH.
Qed.
Lemma head_least : forall l h c nx x n hn, TI l h c nx -> get h l = Some hn -> get x l = Some n -> h <= x /\ n_tick hn <= n_tick n.
Proof.
  intros l h c nx x n hn T GH G. destruct (walk_ok _ _ _ _ T (S (length l)) x n) as [ch [_ [W [ch' E]]]]; [apply below_le|exact G|].
  destruct (wk_head _ _ _ _ W) as [hn' [r ER]]. pose proof (wk_sorted _ _ _ _ W) as SO. pose proof (wk_get _ _ _ _ W (h, hn')) as GG. rewrite ER in GG. specialize (GG (or_introl eq_refl)).
  cbn [fst snd] in GG. assert (hn' = hn) by congruence. subst hn'. rewrite E in ER. destruct ch' as [|q ch']; cbn [app] in ER; injection ER as E1 E2.
  - subst x. assert (n = hn) by congruence. subst n. lia.
  - subst q. rewrite E in SO. cbn [app] in SO. inversion SO as [|? ? _ F]; subst. rewrite Forall_forall in F. destruct (F (x, n)) as [F1 F2]; [apply in_or_app; right; left; reflexivity|].
    cbn [fst snd] in F1, F2. lia.
Qed.
Lemma head_tick : forall sh cs w o w' h hn, Forall (wfc sh) cs -> capacity cs < 2 ^ 32 -> INV cs w -> op_ok o -> cstep sh w o = Done w' -> k_head (w_ck w) = Some h ->
  get h (k_nodes (w_ck w)) = Some hn -> exists hn', get h (k_nodes (w_ck w')) = Some hn' /\ n_tick hn' = n_tick hn.
Proof.
  intros sh cs w o w' h hn Wf Cap HI HO HS KH GH. pose proof (step_head _ _ _ _ _ HS KH) as KH'. destruct (step_ok sh cs Wf Cap w o HI HO) as [E|[w1 [E [G1 [G2 _]]]]]; [congruence|].
  assert (w1 = w') by congruence. subst w1. destruct HI as [[fs H]|[h0 [c [fs H]]]]; [rewrite (w0_head _ _ _ H) in KH; discriminate|].
  assert (h0 = h) by (pose proof (wi_head _ _ _ _ _ H); congruence). subst h0. pose proof (wi_tree _ _ _ _ _ H) as T.
  destruct (restores_some cs Cap _ _ _ _ T (wi_held _ _ _ _ _ H) (S (length (k_nodes (w_ck w)))) h hn) as [gs R]; [apply below_le|exact GH|].
  assert (K : Keep cs h (n_tick hn) gs w).
  { split; [exact (ti_next _ _ _ _ T h (get_key _ _ _ GH))|]. split; [intros n G; congruence|]. intros _. exact R. }
  destruct (G2 _ _ _ K) as [_ [K2 _]]. destruct G1 as [[fs' H1]|[h1 [c1 [fs' H1]]]]; [rewrite (w0_head _ _ _ H1) in KH'; discriminate|].
  assert (h1 = h) by (pose proof (wi_head _ _ _ _ _ H1); congruence). subst h1. destruct (ti_head _ _ _ _ (wi_tree _ _ _ _ _ H1)) as [n [G _]]. exists n. split; [exact G|]. apply K2. exact G.
Qed.
Lemma SS_app : forall (A : Type) (R : A -> A -> Prop) a b, StronglySorted R a -> StronglySorted R b -> (forall x y, In x a -> In y b -> R x y) -> StronglySorted R (a ++ b).
Proof.
  intros A R a b H. induction H as [|x a H IH F]; intros B X; cbn [app]; [exact B|]. constructor.
  - apply IH; [exact B|]. intros u v Hu Hv. apply X; [right; exact Hu|exact Hv].
  - rewrite Forall_forall in *. intros y Hy. apply in_app_or in Hy. destruct Hy as [Hy|Hy]; [auto|]. apply X; [left; reflexivity|exact Hy].
Qed.
Definition starts_snap (b : nodes) : Prop := exists x n r, b = (x, n) :: r /\ n_snap n = true.
Lemma batches_ok : forall sh cs, Forall (wfc sh) cs -> capacity cs < 2 ^ 32 -> forall ops w w' bs, INV cs w -> Forall sop_ok ops -> srun sh w ops = Some (w', bs) ->
  StronglySorted keys_lt (concat bs) /\ Forall starts_snap bs /\ Forall (fun q => n_dead (snd q) = false /\ fst q < no_id) (concat bs) /\
  (forall q x n, In q (concat bs) -> get x (k_nodes (w_ck w')) = Some n -> keys_lt q (x, n)) /\
  (forall h hn, k_head (w_ck w) = Some h -> get h (k_nodes (w_ck w)) = Some hn ->
    (forall q, In q (concat bs) -> h <= fst q /\ n_tick hn <= n_tick (snd q)) /\ (forall x n, get x (k_nodes (w_ck w')) = Some n -> h <= x /\ n_tick hn <= n_tick n)).
Proof.
  intros sh cs Wf Cap. induction ops as [|[o|] ops IH]; intros w w' bs HI HO HR; cbn [srun] in HR.
  - injection HR as <- <-. cbn [concat]. split; [constructor|]. split; [constructor|]. split; [constructor|]. split; [intros q x n []|]. intros h hn KH GH. split; [intros q []|].
    intros x n G. destruct HI as [[fs H]|[h0 [c [fs H]]]]; [rewrite (w0_head _ _ _ H) in KH; discriminate|]. assert (h0 = h) by (pose proof (wi_head _ _ _ _ _ H); congruence). subst h0.
    eapply head_least; [exact (wi_tree _ _ _ _ _ H)|exact GH|exact G].
  - inversion HO as [|? ? O1 O2]; subst. destruct (step_ok sh cs Wf Cap w o HI O1) as [E|[w1 [E [G1 _]]]]; rewrite E in HR; [eauto|].
    destruct (IH w1 w' bs G1 O2 HR) as [I1 [I2 [I3 [I4 I5]]]]. split; [exact I1|]. split; [exact I2|]. split; [exact I3|]. split; [exact I4|]. intros h hn KH GH.
    destruct (head_tick sh cs w o w1 h hn Wf Cap HI O1 E KH GH) as [hn' [GH' ET]]. rewrite <- ET. exact (I5 h hn' (step_head _ _ _ _ _ E KH) GH').
  - inversion HO as [|? ? O1 O2]; subst. destruct (squash (w_ck w)) as [[k sv]| | | |] eqn:Q; try discriminate; [|eauto].
    destruct (srun sh _ ops) as [[w1 bs1]|] eqn:E; [|discriminate]. injection HR as <- EB. destruct (squash_inv cs w k sv HI Q) as [G1 _].
    destruct (IH _ _ _ G1 O2 E) as [I1 [I2 [I3 [I4 I5]]]]. cbn [w_ck] in I5.
    assert (CC : concat bs = sv ++ concat bs1) by (subst bs; destruct sv; reflexivity). rewrite CC. clear E IH HO O1 O2.
    destruct HI as [[fs H]|[h [c [fs H]]]].
    { unfold squash in Q. rewrite (w0_cur _ _ _ H) in Q. injection Q as <- <-. cbn [app]. subst bs. split; [exact I1|]. split; [exact I2|]. split; [exact I3|]. split; [exact I4|].
      intros h hn KH. rewrite (w0_head _ _ _ H) in KH. discriminate. }
    destruct (squash_ok cs w h c fs k sv H Q) as [rest [st [s [AL [SP [_ [H' [AL' [K [_ [_ [G' V']]]]]]]]]]]]. cbv zeta in *. pose proof (sp_walk _ _ _ _ _ _ SP) as W.
    pose proof (wi_tree _ _ _ _ _ H) as T. pose proof (wi_tree _ _ _ _ _ H') as T'. pose proof (wi_head _ _ _ _ _ H') as KS. cbn [with_ck w_ck] in T', KS.
    destruct (ti_head _ _ _ _ T') as [sn' [GS' _]]. destruct (I5 s sn' KS GS') as [J1 J2]. destruct (sp_s _ _ _ _ _ _ SP) as [sn [st' [EST [SS [SD SR]]]]].
    assert (ES : n_tick sn' = n_tick sn).
    { destruct (G' s sn' GS') as [m [M1 [[M2 _] _]]]. rewrite M2. f_equal. pose proof (wk_get _ _ _ _ W (s, m) (in_or_app _ _ _ (or_intror M1))) as X.
      assert (IS : In (s, sn) (rest ++ st)) by (apply in_or_app; right; rewrite EST; left; reflexivity). pose proof (wk_get _ _ _ _ W _ IS) as Y. cbn [fst snd] in X, Y. congruence. }
    assert (SVR : forall q, In q sv -> exists p, In p rest /\ fst q = fst p /\ same_node (snd q) (snd p)).
    { clear - V'. induction V' as [|q p a b E V IHV]; intros z I; [destruct I|]. destruct I as [<-|I]; [exists p; split; [left; reflexivity|exact E]|]. destruct (IHV z I) as [p' [P1 P2]]. exists p'. split; [right; exact P1|exact P2]. }
    assert (LS : forall q, In q sv -> fst q < s /\ n_tick (snd q) <= n_tick sn').
    { intros q I. destruct (SVR q I) as [p [P1 [P2 [P3 _]]]]. pose proof (wk_sorted _ _ _ _ W) as SO. rewrite P2, P3, ES. clear - P1 SO EST. subst st. induction rest as [|z rest IH]; [destruct P1|].
      cbn [app] in SO. inversion SO as [|? ? S1 S2]; subst. destruct P1 as [->|P1]; [|auto]. rewrite Forall_forall in S2. apply (S2 (s, sn)). apply in_or_app. right. left. reflexivity. }
    assert (SSV : StronglySorted keys_lt sv).
    { pose proof (wk_sorted _ _ _ _ W) as SO. assert (SR0 : StronglySorted keys_lt rest).
      { clear - SO. induction rest as [|z rest IH]; [constructor|]. cbn [app] in SO. inversion SO as [|? ? S1 S2]; subst. constructor; [auto|]. rewrite Forall_forall in *. intros y Hy. apply S2. apply in_or_app. left. exact Hy. }
      clear - V' SR0. induction V' as [|q p a b [E1 [E2 _]] V IH]; [constructor|]. inversion SR0 as [|? ? S1 S2]; subst. constructor; [auto|]. rewrite Forall_forall in *. intros y Hy.
      assert (X : exists z, In z b /\ fst y = fst z /\ n_tick (snd y) = n_tick (snd z)).
      { clear - V Hy. induction V as [|q p a b [E1 [E2 _]] V IH]; [destruct Hy|]. destruct Hy as [<-|Hy]; [exists p; split; [left; reflexivity|auto]|]. destruct (IH Hy) as [z [Z1 Z2]]. exists z. split; [right; exact Z1|exact Z2]. }
      destruct X as [z [Z1 [Z2 Z3]]]. unfold keys_lt. rewrite E1, E2, Z2, Z3. apply (S2 z Z1). }
    split; [|split; [|split; [|split]]].
    + apply SS_app; [exact SSV|exact I1|]. intros x y Hx Hy. unfold keys_lt. destruct (LS x Hx). destruct (J1 y Hy). lia.
    + subst bs. destruct sv as [|q sv]; [exact I2|]. constructor; [|exact I2]. inversion V' as [|? p a b [E1 [E2 [E3 [E4 E5]]]] VV X Y]. subst. destruct q as [x n]. exists x, n, sv. split; [reflexivity|]. cbn [snd] in *.
      destruct (sp_head' _ _ _ _ _ _ SP ltac:(discriminate)) as [hn [r ER]]. injection ER as -> _. rewrite E4. cbn [snd]. destruct (ti_head _ _ _ _ T) as [hn0 [H1 [_ H2]]].
      pose proof (wk_get _ _ _ _ W (h, hn) (or_introl eq_refl)) as G. cbn [fst snd] in G. congruence.
    + apply Forall_app. split; [|exact I3]. rewrite Forall_forall. intros q I. destruct (SVR q I) as [[y m] [P1 [P2 [P3 [P4 _]]]]]. cbn [fst snd] in *.
      pose proof (wk_get _ _ _ _ W (y, m) (in_or_app _ _ _ (or_introl P1))) as G. cbn [fst snd] in G. split; [rewrite P4; apply (AL y m G)|]. rewrite P2.
      pose proof (ti_next _ _ _ _ T y (get_key _ _ _ G)). pose proof (wi_ids _ _ _ _ _ H). lia.
    + intros q x n I G. apply in_app_or in I. destruct I as [I|I]; [|exact (I4 q x n I G)]. destruct (LS q I). destruct (J2 x n G). unfold keys_lt. cbn [fst snd]. lia.
    + intros h0 hn KH GH. assert (h0 = h) by (pose proof (wi_head _ _ _ _ _ H); congruence). subst h0.
      destruct (head_least _ _ _ _ s sn hn T GH) as [B1 B2]; [apply (wk_get _ _ _ _ W (s, sn)); apply in_or_app; right; rewrite EST; left; reflexivity|]. split.
      * intros q I. apply in_app_or in I. destruct I as [I|I].
        -- destruct (SVR q I) as [[y m] [P1 [P2 [P3 _]]]]. cbn [fst snd] in *. rewrite P2, P3. apply (head_least _ _ _ _ y m hn T GH). apply (wk_get _ _ _ _ W (y, m)). apply in_or_app. left. exact P1.
        -- destruct (J1 q I). lia.
      * intros x n G. destruct (J2 x n G). lia.
Qed.

(** A saved checkpoint as the disk sees it: its identifier, tick and kind, and what loading it does to the ArchDatas. *)
Definition disk_chk (sh : overshift) (q : N * node) : CherryModel.chk (list adata) :=
  CherryModel.mkC (shown q) (n_tick (snd q)) (n_snap (snd q)) (fun d => match load_state sh (snd q) d with Done d' => d' | _ => d end).
(** Over a whole history everything handed to the disk comes in order: identifiers increase, ticks never go back, also from
    one squash to the next, and what is in memory comes later still. Every batch is one the disk accepts (C78): it starts with
    a snapshot and has no deleted checkpoint. *)
Theorem C80_batches : forall sh cs w0 ops w bs, begun sh cs w0 -> Forall sop_ok ops -> srun sh w0 ops = Some (w, bs) ->
  StronglySorted (fun a b => fst a < fst b /\ n_tick (snd a) <= n_tick (snd b)) (concat bs) /\
  (forall q x, In q (concat bs) -> In x (get_checkpoints (w_ck w)) -> fst q < x) /\
  Forall (fun b => b <> [] /\ CherrySpec.batch_ok (map (disk_chk sh) b) /\ Sorted N.le (map (@CherryModel.c_tick _) (map (disk_chk sh) b))) bs.
Proof.
  intros sh cs w0 ops w bs HB HO HR. destruct (begun_ok _ _ _ HB) as [Wf [Cap HI0]]. destruct (batches_ok sh cs Wf Cap ops w0 w bs HI0 HO HR) as [I1 [I2 [I3 [I4 _]]]].
  destruct (sreach _ _ _ _ _ _ HB HO HR) as [_ [_ HI]]. split; [exact I1|]. split.
  - intros q x Iq Ix. apply (live_listed _ (INV_sorted cs w HI)) in Ix. destruct Ix as [n [G _]]. apply (I4 q x n Iq G).
  - clear - I1 I2 I3. induction bs as [|b bs IH]; [constructor|]. cbn [concat] in I1, I3. apply Forall_app in I3. destruct I3 as [I3 I3']. inversion I2 as [|? ? [x [n [r [E SN]]]] I2']; subst.
    constructor; [|apply IH; [exact (SS_suffix _ _ _ _ I1)|exact I2'|exact I3']]. set (b := (x, n) :: r) in *. split; [discriminate|]. split.
    + split; [exact SN|]. rewrite Forall_forall. intros c Hc. apply in_map_iff in Hc. destruct Hc as [q [<- Hq]]. rewrite Forall_forall in I3. destruct (I3 q Hq) as [D L].
      cbn [disk_chk CherryModel.c_id]. unfold shown. rewrite D. unfold CherryModel.unidentified. unfold no_id in L. lia.
    + apply StronglySorted_Sorted. rewrite map_map. cbn [disk_chk CherryModel.c_tick]. assert (SB : StronglySorted keys_lt b).
      { clear - I1. induction b as [|z b IH]; [constructor|]. cbn [app] in I1. inversion I1 as [|? ? S1 S2]; subst. constructor; [auto|]. rewrite Forall_forall in *. intros y Hy. apply S2. apply in_or_app. left. exact Hy. }
      clear - SB. induction SB as [|z b SB IH F]; cbn [map]; constructor; [exact IH|]. rewrite Forall_forall in *. intros t Ht. apply in_map_iff in Ht. destruct Ht as [q [<- Hq]]. apply (F q Hq).
Qed.
Print Assumptions C80_batches.
(** Two squashes that save something and one that does not. *)
Example C80_batches_ex : exists w bs, safter (tree ++ [SSquash; SSquash; SCall (CTick 2); SCall (CCreate true); SCall (CCreate false); SSquash]) = Some (w, bs) /\
  map (map (fun q => (fst q, n_tick (snd q), n_snap (snd q)))) bs = [[(0, 5, true); (1, 6, false); (6, 13, false)]; [(7, 14, true); (8, 15, false)]] /\
  get_checkpoints (w_ck w) = [11; 12] /\ head_id (w_ck w) = 11.
Proof. eexists _, _. split; [vm_compute; reflexivity|]. split; [vm_compute; reflexivity|]. split; vm_compute; reflexivity. Qed.

(** A user who deletes a checkpoint and later squashes can end the program: with the head deleted a null pointer is followed,
    with a delta in the way deleted an assertion fails, though every call before went well. *)
Theorem C80_after_delete_refuted : exists ops1 ops2 w1 w2, Forall op_ok ops1 /\ Forall op_ok ops2 /\ after ops1 = Some w1 /\ after ops2 = Some w2 /\
  current_id (w_ck w1) <> no_id /\ current_id (w_ck w2) <> no_id /\ squash (w_ck w1) = Undefined /\ squash (w_ck w2) = Asserted.
Proof.
  exists [CHead; CCreate true; CCreate false; CDelete 0], [CHead; CCreate false; CCreate false; CDelete 1]. eexists _, _. split; [repeat constructor|]. split; [repeat constructor|].
  split; [vm_compute; reflexivity|]. split; [vm_compute; reflexivity|]. split; [vm_compute; discriminate|]. split; [vm_compute; discriminate|]. split; vm_compute; reflexivity.
Qed.
Print Assumptions C80_after_delete_refuted.
(** A squash with a new head does not count down the checkpoints of other branches it drops: one checkpoint is left, the counters say three
    and two. *)
Theorem C80_new_head_count_refuted : exists ops w w' sv, Forall op_ok ops /\ after ops = Some w /\ squash_new_head w = Done (w', sv) /\
  map fst sv = [0; 3] /\ get_checkpoints (w_ck w') = [4] /\ num_checkpoints (w_ck w') = 3 /\ num_snapshots (w_ck w') = 2.
Proof.
  exists [CHead; CCreate false; CCreate true; CLoad 0; CCreate false]. eexists _, _, _. split; [repeat constructor|]. split; [vm_compute; reflexivity|].
  split; [vm_compute; reflexivity|]. split; [vm_compute; reflexivity|]. split; [vm_compute; reflexivity|]. split; vm_compute; reflexivity.
Qed.
Print Assumptions C80_new_head_count_refuted.

Lemma take_ok : forall k ids ac sv ac', take k ids ac = Done (sv, ac') -> map fst sv = ids /\ Forall (fun q => get (fst q) (k_nodes k) = Some (snd q)) sv.
Proof.
  intros k. induction ids as [|id r IH]; intros ac sv ac' H; cbn [take] in H; [injection H as <- _; split; [reflexivity|constructor]|].
  destruct (get id (k_nodes k)) as [n|] eqn:G; [|discriminate]. destruct (uncount (n_snap n) ac) as [a| | | |]; try discriminate. cbn [obind] in H.
  destruct (take k r a) as [[l a']| | | |] eqn:E; try discriminate. cbn [obind] in H. injection H as <- _. destruct (IH _ _ _ E) as [I1 I2].
  split; [cbn [map fst]; rewrite I1; reflexivity|]. constructor; [exact G|exact I2].
Qed.

(** A squash with a new head saves the whole branch, oldest first, and leaves one checkpoint: a snapshot of the present state, current and head, with
    the next number. Nothing the user reads changes, and loading it brings this state and tick back, whatever the ArchDatas hold by then. *)
Theorem C80_new_head : forall sh cs w0 ops w bs w' sv, begun sh cs w0 -> Forall sop_ok ops -> srun sh w0 ops = Some (w, bs) ->
  k_cur (w_ck w) <> None -> squash_new_head w = Done (w', sv) ->
  let id := k_next (w_ck w) in
  (exists chain, checkpoint_chain (w_ck w) (current_id (w_ck w)) = Done chain /\ map fst sv = rev chain) /\
  Forall (fun q => get (fst q) (k_nodes (w_ck w)) = Some (snd q)) sv /\
  get_checkpoints (w_ck w') = [id] /\ get_checkpoints_at (w_ck w') (now w) = [id] /\ head_id (w_ck w') = id /\ current_id (w_ck w') = id /\
  k_next (w_ck w') = id + 1 /\ k_thresh (w_ck w') = k_thresh (w_ck w) /\ k_deadn (w_ck w') = k_deadn (w_ck w) /\ k_total (w_ck w') = k_total (w_ck w) /\
  w_sched w' = w_sched w /\ Forall2 (fun ca b => same_reads sh (fst ca) (snd ca) b) (combine cs (w_dats w)) (w_dats w') /\
  forall ops2 wx bsx, Forall sop_ok ops2 -> srun sh w0 ops2 = Some (wx, bsx) ->
    exists w4, cstep sh (mkW (w_dats wx) (w_sched wx) (w_ck w')) (CLoad id) = Done w4 /\
      Forall2 (fun ca b => same_reads sh (fst ca) (snd ca) b) (combine cs (w_dats w)) (w_dats w4) /\
      w_sched w4 = (match w_sched wx with Some _ => Some (now w) | None => None end) /\ get_checkpoints (w_ck w4) = [id] /\ current_id (w_ck w4) = id.
Proof.
  intros sh cs w0 ops w bs w' sv HB HO HR HC HS id. destruct (sreach _ _ _ _ _ _ HB HO HR) as [Wf [Cap HI]].
  assert (HD : exists fs, D cs (w_dats w) fs).
  { destruct HI as [[fs HI]|[h [c [fs HI]]]]; exists fs; [exact (w0_dats _ _ _ HI)|exact (wi_dats _ _ _ _ _ HI)]. }
  destruct HD as [fs HD]. unfold squash_new_head in HS. destruct (k_cur (w_ck w)) as [c|] eqn:EC; [|congruence].
  destruct (checkpoint_chain (w_ck w) (current_id (w_ck w))) as [chain| | | |] eqn:ECH; try discriminate. cbn [obind] in HS.
  destruct (take (w_ck w) (rev chain) (k_alive (w_ck w), k_snaps (w_ck w))) as [[sv0 ac]| | | |] eqn:ET; try discriminate. cbn [obind] in HS.
  destruct (some_dead (outside chain (k_nodes (w_ck w)))); [discriminate|].
  destruct (save_ok sh cs Wf Cap true (w_dats w) fs HD) as [d [s [segs [E1 [E2 [E3 [E4 _]]]]]]]. rewrite E1 in HS. cbn [obind] in HS.
  injection HS as <- <-. destruct (take_ok _ _ _ _ _ ET) as [T1 T2]. cbn [w_ck w_dats w_sched k_nodes k_next k_thresh k_deadn k_total].
  assert (HID : forall n, get_checkpoints (mkCk [(id, mkNode n false None [] true s)] (Some id) (Some id) (id + 1) (inc (fst ac)) (inc (snd ac))
                     (k_deadn (w_ck w)) (k_thresh (w_ck w)) (k_total (w_ck w))) = [id]) by reflexivity.
  split; [exists chain; auto|]. split; [exact T2|]. split; [apply HID|].
  split; [unfold get_checkpoints_at; cbn [k_nodes filter snd n_tick n_dead negb]; rewrite N.eqb_refl; reflexivity|].
  split; [unfold head_id, id_of; cbn [k_head k_nodes get]; rewrite N.eqb_refl; reflexivity|].
  split; [unfold current_id, id_of; cbn [k_cur k_nodes get]; rewrite N.eqb_refl; reflexivity|].
  do 4 (split; [reflexivity|]). split; [reflexivity|]. split; [apply (D_same sh cs Wf _ fs); assumption|].
  intros ops2 wx bsx O2 R2. destruct (sreach _ _ _ _ _ _ HB O2 R2) as [_ [_ HX]].
  assert (HDX : exists gs, D cs (w_dats wx) gs).
  { destruct HX as [[gs HX]|[h [c' [gs HX]]]]; exists gs; [exact (w0_dats _ _ _ HX)|exact (wi_dats _ _ _ _ _ HX)]. }
  destruct HDX as [gs HDX]. cbn [cstep]. unfold ck_load. cbn [w_ck k_nodes get]. rewrite N.eqb_refl.
  set (n := mkNode (now w) false None [] true s). unfold depth. cbn [k_nodes length restore_chain]. unfold deref. cbn [get]. rewrite N.eqb_refl. cbn [obind n n_snap].
  cbn [load_chain]. unfold deref. cbn [get w_dats]. rewrite N.eqb_refl. cbn [obind].
  assert (RS : restores cs [(id, n)] id fs).
  { apply (rs_snap cs [(id, n)] id n segs fs fs); [cbn [get]; rewrite N.eqb_refl; reflexivity|reflexivity|exact E3|exact (proj1 (D_len _ _ _ HD))|exact (E4 eq_refl)]. }
  assert (T : TI [(id, n)] id id (id + 1)).
  { assert (G : get id [(id, n)] = Some n) by (cbn [get]; rewrite N.eqb_refl; reflexivity).
    assert (G1 : forall x m, get x [(id, n)] = Some m -> x = id /\ m = n).
    { intros x m. cbn [get]. destruct (N.eqb_spec id x) as [<-|]; [|discriminate]. intros Q. injection Q as <-. auto. }
    constructor.
    - repeat constructor.
    - intros x [<-|[]]. cbn [fst]. lia.
    - eauto.
    - eauto.
    - intros x m Gx XH. destruct (G1 x m Gx). congruence.
    - intros x m d' Gx I. destruct (G1 x m Gx) as [_ ->]. destruct I.
    - intros x m Gx. destruct (G1 x m Gx) as [_ ->]. constructor. }
  destruct (load_ok sh cs Wf Cap _ _ _ _ T id fs RS 2%nat (below_le _ _)) as [ch [C1 C2]].
  cbn [restore_chain] in C1. unfold deref in C1. cbn [get] in C1. rewrite N.eqb_refl in C1. cbn [obind n n_snap] in C1. injection C1 as <-.
  destruct (C2 _ _ HDX) as [d' [L1 L2]]. cbn [load_chain] in L1. unfold deref in L1. cbn [get] in L1. rewrite N.eqb_refl in L1. cbn [obind] in L1.
  fold n. destruct (load_state sh n (w_dats wx)) as [d1| | | |]; try discriminate. cbn [obind] in L1 |- *. injection L1 as ->. cbn [k_cur obind].
  unfold cleanup. cbn [with_cur k_head is]. rewrite N.eqb_refl. cbn [obind]. eexists. split; [reflexivity|]. cbn [w_dats w_sched w_ck].
  split; [apply (D_same sh cs Wf _ fs); assumption|]. split; [reflexivity|]. split; [reflexivity|].
  unfold current_id, id_of. cbn [k_cur k_nodes get]. cbn [with_cur k_cur k_nodes get]. rewrite N.eqb_refl. reflexivity.
Qed.
Print Assumptions C80_new_head.
(** After the tree of the other examples. *)
Example C80_new_head_ex : exists w bs w' sv, safter tree = Some (w, bs) /\ squash_new_head w = Done (w', sv) /\
  (2 < length sv)%nat /\ get_checkpoints (w_ck w') = [k_next (w_ck w)] /\ length (get_checkpoints (w_ck w)) <> 1%nat.
Proof. eexists _, _, _, _. split; [vm_compute; reflexivity|]. split; [vm_compute; reflexivity|]. split; [vm_compute; repeat constructor|]. split; [vm_compute; reflexivity|vm_compute; discriminate]. Qed.
