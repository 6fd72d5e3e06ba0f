(** Squashing keeps what the checkpointer guarantees. *)
From Coq Require Import List NArith Arith Bool Lia Sorting.Sorted.
From Verif Require Import LayoutModel ArchDataModel StorageModel StorageArch CkptModel CkptTree CkptOps CkptData CkptWorld CkptSteps SquashModel SquashTree SquashProofs.
Import ListNotations.
Open Scope N_scope.

(** A squash goes through without deleted checkpoints only. *)
Lemma prev_chain_get : forall l f d ch, prev_chain f l d = Done ch -> forall q, In q ch -> get (fst q) l = Some (snd q).
Proof.
  intros l. induction f as [|f IH]; intros d ch H q I; cbn [prev_chain] in H; [discriminate|]. destruct d as [x|]; [|injection H as <-; destruct I].
  unfold deref in H. destruct (get x l) as [n|] eqn:G; cbn [obind] in H; [|discriminate]. destruct (prev_chain f l (n_prev n)) as [c| | | |] eqn:E; cbn [obind] in H; try discriminate.
  injection H as <-. destruct I as [<-|I]; [exact G|]. eapply IH; eauto.
Qed.
Lemma part_in : forall k ids st h ac sv kp h' ac', part k ids st h ac = Done (sv, kp, h', ac') -> forall x, In x (sv ++ kp) -> In x ids.
Proof.
  intros k. induction ids as [|id r IH]; intros st h ac sv kp h' ac' H x I; cbn [part] in H; [injection H as <- <- _ _; destruct I|].
  destruct st as [|t st]; [injection H as <- <- _ _; destruct I|]. destruct (N.eqb_spec id (id_of k t)) as [E|NE]; cbn [negb] in H.
  - destruct (deref t (k_nodes k)) as [tn| | | |]; cbn [obind] in H; try discriminate.
    destruct (if n_snap tn then _ else _) as [hd| | | |]; cbn [obind] in H; try discriminate.
    destruct (part k r st hd ac) as [[[[a b] c] d]| | | |] eqn:EP; cbn [obind] in H; try discriminate. injection H as <- <- _ _.
    apply in_app_or in I. destruct I as [I|[I|I]]; [right; eapply IH; [exact EP|]; apply in_or_app; left; exact I|left; congruence|right; eapply IH; [exact EP|]; apply in_or_app; right; exact I].
  - destruct (get id (k_nodes k)) as [n|]; [|discriminate]. destruct (uncount (n_snap n) ac) as [ac0| | | |]; cbn [obind] in H; try discriminate.
    destruct (part k r (t :: st) h ac0) as [[[[a b] c] d]| | | |] eqn:EP; cbn [obind] in H; try discriminate. injection H as <- <- _ _.
    destruct I as [I|I]; [left; exact I|right; eapply IH; [exact EP|exact I]].
Qed.
Lemma squash_live : forall k c h r, k_cur k = Some c -> TI (k_nodes k) h c (k_next k) -> k_next k <= no_id -> squash k = Done r -> all_live (k_nodes k).
Proof.
  intros k c h r KC T NX H d dn G. destruct (n_dead dn) eqn:D; [|reflexivity]. exfalso. unfold squash in H. rewrite KC in H. destruct (k_head k) as [hd|] eqn:KH; [|discriminate].
  destruct (checkpoint_chain k (current_id k)) as [chain| | | |] eqn:EC; cbn [obind] in H; try discriminate.
  assert (ND : ~ In d chain).
  { unfold checkpoint_chain in EC. rewrite KH in EC. destruct (get (current_id k) (k_nodes k)); [|discriminate].
    destruct (prev_chain _ _ _) as [ch| | | |] eqn:EP; cbn [obind] in EC; try discriminate. injection EC as <-. intros I. apply in_map_iff in I.
    destruct I as [q [E I]]. pose proof (prev_chain_get _ _ _ _ EP q I) as Gq. unfold shown in E. pose proof (ti_next _ _ _ _ T d (get_key _ _ _ G)).
    destruct (n_dead (snd q)) eqn:Dq; [lia|]. subst d. congruence. }
  assert (SD : forall ids, (forall x, In x ids -> In x chain) -> some_dead (outside ids (k_nodes k)) = true).
  { intros ids HI. unfold some_dead. apply existsb_exists. exists (d, dn). split; [|exact D]. unfold outside. apply filter_In. split; [apply get_in; exact G|].
    cbn [fst]. apply negb_true_iff. apply mem_out. intros I. apply ND. apply HI. exact I. }
  destruct (restore_chain (depth k) (k_nodes k) c) as [st| | | |]; cbn [obind] in H; try discriminate.
  destruct (Nat.eqb (length chain) (length st)).
  - unfold squash_only in H. rewrite (SD chain (fun x I => I)) in H. discriminate.
  - unfold squash_part in H. destruct (part k (rev chain) st hd (k_alive k, k_snaps k)) as [[[[sv kp] h'] ac']| | | |] eqn:EP; cbn [obind] in H; try discriminate.
    rewrite SD in H; [discriminate|]. intros x I. apply in_rev. eapply part_in; [exact EP|exact I].
Qed.

(** Counting. *)
Lemma same_keys : forall l (a b : nodes), map fst a = map fst b -> (forall q, In q a -> get (fst q) l = Some (snd q)) -> (forall q, In q b -> get (fst q) l = Some (snd q)) -> a = b.
Proof.
  induction a as [|[x n] a IH]; intros [|[y m] b] E HA HB; cbn [map fst] in E; try discriminate; [reflexivity|]. injection E as -> E.
  pose proof (HA (y, n) (or_introl eq_refl)) as A. pose proof (HB (y, m) (or_introl eq_refl)) as B. cbn [fst snd] in A, B. f_equal; [congruence|].
  apply IH; [exact E|intros q Hq; apply HA; right; exact Hq|intros q Hq; apply HB; right; exact Hq].
Qed.
Lemma filter_keys : forall l ch, sorted l -> StronglySorted N.lt (map fst ch) -> (forall q, In q ch -> get (fst q) l = Some (snd q)) ->
  filter (fun q => mem (fst q) (map fst ch)) l = ch.
Proof.
  intros l ch S0 S1 H. apply (same_keys l); [|intros [x n] I; apply filter_In in I; apply in_get; [apply sorted_nodup; exact S0|tauto]|exact H].
  rewrite (map_fst_filter _ (fun i => mem i (map fst ch))). apply SS_same; [apply SS_filter; exact S0|exact S1|]. intros x. rewrite filter_In, mem_in. split; [tauto|].
  intros I. split; [|exact I]. apply in_map_iff in I. destruct I as [q [<- I]]. eapply get_key. apply H. exact I.
Qed.
Lemma SS_suffix : forall (A : Type) (R : A -> A -> Prop) a b, StronglySorted R (a ++ b) -> StronglySorted R b.
Proof. intros A R. induction a as [|x a IH]; intros b H; [exact H|]. inversion H; auto. Qed.
Lemma count_split : forall (f : N * node -> bool) C l, length (filter f l) = (length (filter f (filter (fun q => mem (fst q) C) l)) + length (filter f (outside C l)))%nat.
Proof.
  intros f C l. unfold outside. induction l as [|q l IH]; cbn [filter]; [reflexivity|]. destruct (mem (fst q) C); cbn [negb filter]; destruct (f q); cbn [length]; lia.
Qed.
Lemma alives_live : forall l, sorted l -> all_live l -> alives l = flags l /\ deads l = [].
Proof.
  intros l S0 AL. assert (H : forall q, In q (flags l) -> fdead q = false).
  { intros q I. destruct (flag_get q l (sorted_nodup _ S0) I) as [n [G E]]. rewrite E. apply (AL _ _ G). }
  unfold alives, deads. clear - H. induction (flags l) as [|q r IH]; [split; reflexivity|]. cbn [filter]. rewrite (H q (or_introl eq_refl)). cbn [negb].
  destruct IH as [I1 I2]; [intros z Hz; apply H; right; exact Hz|]. rewrite I1, I2. split; reflexivity.
Qed.
Lemma snaps_flags : forall l, length (filter fsnap (flags l)) = snaps l.
Proof. intros l. unfold snaps, flags. induction l as [|q l IH]; [reflexivity|]. cbn [map filter]. change (fsnap (flag q)) with (n_snap (snd q)). destruct (n_snap (snd q)); cbn [length]; congruence. Qed.
Lemma mod_sub : forall t g, g <= (t + g) mod 4294967296 -> (t + g) mod 4294967296 - g = t mod 4294967296.
Proof.
  intros t g H. pose proof (N.div_mod (t + g) 4294967296 ltac:(discriminate)) as D. pose proof (N.mod_lt (t + g) 4294967296 ltac:(discriminate)) as L.
  apply (N.mod_unique t 4294967296 ((t + g) / 4294967296)); lia.
Qed.
Lemma count_ok : forall l h x s rest st, sorted l -> split_at l h x s rest st -> let g := rest ++ outside (map fst (rest ++ st)) l in
  length l = (length st + length g)%nat /\ snaps l = (snaps st + snaps g)%nat.
Proof.
  intros l h x s rest st S0 SP g. pose proof (sp_walk _ _ _ _ _ _ SP) as W.
  assert (E : filter (fun q => mem (fst q) (map fst (rest ++ st))) l = rest ++ st).
  { apply filter_keys; [exact S0|apply walk_keys; exact (wk_sorted _ _ _ _ W)|exact (wk_get _ _ _ _ W)]. }
  split.
  - pose proof (count_split (fun _ => true) (map fst (rest ++ st)) l) as H. rewrite E in H.
    assert (X : forall m : nodes, filter (fun _ => true) m = m) by (induction m as [|q m IH]; cbn [filter]; congruence). rewrite !X in H.
    unfold g. rewrite app_length. rewrite app_length in H. lia.
  - pose proof (count_split (fun p => n_snap (snd p)) (map fst (rest ++ st)) l) as H. rewrite E in H. unfold snaps, g. rewrite H, !filter_app, !app_length. lia.
Qed.

Section Fixed.
  Variables (sh : overshift) (cs : list cfg).
  Notation restores := (restores cs).

  Definition with_ck (w : world) (k : ckpt) : world := mkW (w_dats w) (w_sched w) k.
  (** What a squash does, from any state the checkpointer gets into. *)
  Lemma squash_ok : forall w h c fs k' sv, WI cs w h c fs -> squash (w_ck w) = Done (k', sv) -> let k := w_ck w in
    exists rest st s, all_live (k_nodes k) /\ split_at (k_nodes k) h c s rest st /\ checkpoint_chain k (current_id k) = Done (rev (map fst (rest ++ st))) /\
      WI cs (with_ck w k') s c fs /\ all_live (k_nodes k') /\ keysn (k_nodes k') = map fst st /\ k_next k' = k_next k /\ k_thresh k' = k_thresh k /\
      (forall y n, get y (k_nodes k') = Some n -> exists m, In (y, m) st /\ same_node n m /\ (n_snap m = false -> n_prev n = n_prev m)) /\
      Forall2 (fun q p => fst q = fst p /\ same_node (snd q) (snd p)) sv rest.
  Proof.
    intros w h c fs k' sv H Q k. pose proof (wi_tree _ _ _ _ _ H) as T. fold k in T. pose proof (squash_live k c h _ (wi_cur _ _ _ _ _ H) T (wi_ids _ _ _ _ _ H) Q) as AL.
    destruct (squash_eq k h c (wi_head _ _ _ _ _ H) (wi_cur _ _ _ _ _ H) T (wi_ids _ _ _ _ _ H) AL) as [rest [st [s [L [sv' [SP [KT [CH E]]]]]]]].
    pose proof (sp_walk _ _ _ _ _ _ SP) as W. pose proof (ti_sorted _ _ _ _ T) as S0.
    pose proof (count_ok _ _ _ _ _ _ S0 SP) as [C1 C2]. set (g := rest ++ outside (map fst (rest ++ st)) (k_nodes k)) in *.
    change (squash k = Done (k', sv)) in Q. rewrite Q in E. destruct (wi_counts _ _ _ _ _ H) as [A1 [A2 A3]]. fold k in A1, A2, A3.
    destruct (alives_live _ S0 AL) as [AV DV]. rewrite AV in A1, A2. unfold flags in A1 at 1. rewrite map_length, C1, Nat2N.inj_add in A1. rewrite snaps_flags, C2, Nat2N.inj_add in A2.
    assert (B1 : k_alive k < 4294967296) by (rewrite A1; apply N.mod_lt; discriminate). assert (B2 : k_snaps k < 4294967296) by (rewrite A2; apply N.mod_lt; discriminate).
    rewrite uncounts_spec in E by assumption. destruct (N.leb_spec (N.of_nat (length g)) (k_alive k)) as [L1|_]; [|discriminate].
    destruct (N.leb_spec (N.of_nat (snaps g)) (k_snaps k)) as [L2|_]; [|discriminate]. cbn [andb obind] in E. injection E as -> ->.
    destruct KT as [T' [F' [G' V']]].
    assert (SST : StronglySorted N.lt (map fst st)). { pose proof (walk_keys _ (wk_sorted _ _ _ _ W)) as X. rewrite map_app in X. exact (SS_suffix _ _ _ _ X). }
    assert (EST : filter (fun q => mem (fst q) (map fst st)) (k_nodes k) = st).
    { apply filter_keys; [exact S0|exact SST|]. intros q I. apply (wk_get _ _ _ _ W). apply in_or_app. right. exact I. }
    assert (FST : flags L = flags st).
    { rewrite F'. transitivity (flags (filter (fun q => mem (fst q) (map fst st)) (k_nodes k))); [|rewrite EST; reflexivity]. unfold flags. clear. induction (k_nodes k) as [|[i n] r IH]; cbn [filter map fst flag]; [reflexivity|].
      destruct (mem i (map fst st)); cbn [map]; rewrite IH; reflexivity. }
    assert (AL' : all_live L).
    { intros y n G. destruct (G' y n G) as [m [M1 [[_ [M2 _]] _]]]. rewrite M2. apply (AL y m). apply (wk_get _ _ _ _ W (y, m)). apply in_or_app. right. exact M1. }
    exists rest, st, s. split; [exact AL|]. split; [exact SP|]. split; [exact CH|]. split; [|split; [exact AL'|split; [|split; [reflexivity|split; [reflexivity|split; [exact G'|exact V']]]]]].
    - constructor; unfold with_ck; cbn [w_ck w_dats w_sched with_map k_head k_cur k_nodes k_next k_total].
      + reflexivity.
      + exact (wi_cur _ _ _ _ _ H).
      + exact T'.
      + unfold counts, cd_ok. cbn [with_map k_alive k_snaps k_deadn k_nodes fst snd]. destruct (alives_live _ (ti_sorted _ _ _ _ T') AL') as [AV' DV']. rewrite AV', DV', FST.
        unfold flags at 1. rewrite map_length, snaps_flags. split; [|split].
        * rewrite A1. apply mod_sub. rewrite A1 in L1. exact L1.
        * rewrite A2. apply mod_sub. rewrite A2 in L2. exact L2.
        * unfold cd_ok in A3. rewrite DV in A3. exact A3.
      + exact (wi_ids _ _ _ _ _ H).
      + intros y n G. destruct (G' y n G) as [m [M1 [[_ [_ [_ M2]]] _]]]. rewrite M2. apply (wi_held _ _ _ _ _ H y m). apply (wk_get _ _ _ _ W (y, m)). apply in_or_app. right. exact M1.
      + exact (wi_dats _ _ _ _ _ H).
      + intros NS y n G. cbn [w_ck with_map k_nodes] in G. destruct (G' y n G) as [m [M1 [[M2 _] _]]]. rewrite M2. apply (wi_ticks _ _ _ _ _ H NS y m).
        apply (wk_get _ _ _ _ W (y, m)). apply in_or_app. right. exact M1.
      + exact (wi_total _ _ _ _ _ H).
    - cbn [with_map k_nodes]. rewrite keys_flags, FST, <- keys_flags. reflexivity.
  Qed.
  Lemma squash_restores : forall w h c fs k' sv, WI cs w h c fs -> squash (w_ck w) = Done (k', sv) ->
    forall y gs, restores (k_nodes (w_ck w)) y gs -> In y (keysn (k_nodes k')) -> restores (k_nodes k') y gs.
  Proof.
    intros w h c fs k' sv H Q. destruct (squash_ok w h c fs k' sv H Q) as [rest [st [s [AL [SP [_ [H' [_ [K [_ [_ [G' _]]]]]]]]]]]]. cbv zeta in *.
    set (l := k_nodes (w_ck w)) in *. pose proof (sp_walk _ _ _ _ _ _ SP) as W.
    assert (GG : forall y m, In y (keysn (k_nodes k')) -> get y l = Some m -> exists n, get y (k_nodes k') = Some n /\ In (y, m) st /\ same_node n m /\ (n_snap m = false -> n_prev n = n_prev m)).
    { intros y m I G. destruct (key_get _ _ I) as [n Gn]. destruct (G' y n Gn) as [m' [M1 [M2 M3]]].
      assert (X : get y l = Some m') by (apply (wk_get _ _ _ _ W (y, m')); apply in_or_app; right; exact M1). assert (m' = m) by congruence. subst m'. eauto. }
    intros y gs R. induction R as [y m segs gs0 gs G SN HL LG FE|y m p segs gs0 gs G SN P R IH HL FE]; intros I; destruct (GG y m I G) as [n [N1 [N2 [[N3 [N4 [N5 N6]]] N7]]]].
    - apply (rs_snap cs (k_nodes k') y n segs gs0 gs); auto; congruence.
    - apply (rs_delta cs (k_nodes k') y n p segs gs0 gs); auto; try congruence; [rewrite N7; assumption|]. apply IH. rewrite K.
      destruct (sp_s _ _ _ _ _ _ SP) as [sn [st' [EST [SS [SD _]]]]]. rewrite EST in N2. destruct N2 as [N2|N2]; [injection N2 as <- <-; congruence|].
      destruct (SD y m N2) as [_ [q [Q1 Q2]]]. assert (q = p) by congruence. subst q. exact Q2.
  Qed.
  Lemma squash_inv : forall w k' sv, INV cs w -> squash (w_ck w) = Done (k', sv) ->
    INV cs (with_ck w k') /\ (forall id t fs, Keep cs id t fs w -> Keep cs id t fs (with_ck w k')) /\ (FR cs w -> FR cs (with_ck w k')).
  Proof.
    intros w k' sv [[fs H]|[h [c [fs H]]]] Q.
    - unfold squash in Q. rewrite (w0_cur _ _ _ H) in Q. injection Q as <- _. destruct w as [d sc k]. unfold with_ck. cbn [w_dats w_sched w_ck]. split; [left; eauto|]. auto.
    - destruct (squash_ok w h c fs k' sv H Q) as [rest [st [s [AL [SP [_ [H' [AL' [K [NX [_ [G' _]]]]]]]]]]]]. cbv zeta in *. pose proof (sp_walk _ _ _ _ _ _ SP) as W.
      split; [right; eauto|]. split.
      + intros id t gs [K1 [K2 K3]]. unfold with_ck. split; [cbn [w_ck]; lia|]. cbn [w_ck]. split.
        * intros n G. destruct (G' id n G) as [m [M1 [[M2 _] _]]]. rewrite M2. apply K2. apply (wk_get _ _ _ _ W (id, m)). apply in_or_app. right. exact M1.
        * intros [n [G D]]. apply (squash_restores w h c fs k' sv H Q); [|eapply get_key; exact G]. apply K3. destruct (G' id n G) as [m [M1 [[_ [M2 _]] _]]]. exists m. split; [|congruence].
          apply (wk_get _ _ _ _ W (id, m)). apply in_or_app. right. exact M1.
      + intros [h0 [c0 [fs0 [gs [H0 [R DD]]]]]]. assert (c0 = c) by (pose proof (wi_cur _ _ _ _ _ H0); pose proof (wi_cur _ _ _ _ _ H); congruence). subst c0.
        assert (H0' : WI cs (with_ck w k') s c fs0).
        { destruct H' as [a1 a2 a3 a4 a5 a6 a7 a8 a9]. constructor; try assumption. exact (wi_dats _ _ _ _ _ H0). }
        exists s, c, fs0, gs. split; [exact H0'|]. split; [|exact DD]. apply (squash_restores w h c fs k' sv H Q c gs R). rewrite K. exact (sp_x _ _ _ _ _ _ SP).
  Qed.
  (** When it goes through. *)
  Lemma squash_when : forall w h c fs, WI cs w h c fs -> N.of_nat (length (k_nodes (w_ck w))) < 2 ^ 32 -> all_live (k_nodes (w_ck w)) -> exists k' sv, squash (w_ck w) = Done (k', sv).
  Proof.
    intros w h c fs H LN AL. set (k := w_ck w) in *. pose proof (wi_tree _ _ _ _ _ H) as T. fold k in T.
    destruct (squash_eq k h c (wi_head _ _ _ _ _ H) (wi_cur _ _ _ _ _ H) T (wi_ids _ _ _ _ _ H) AL) as [rest [st [s [L [sv' [SP [KT [CH E]]]]]]]].
    pose proof (ti_sorted _ _ _ _ T) as S0. pose proof (count_ok _ _ _ _ _ _ S0 SP) as [C1 C2]. set (g := rest ++ outside (map fst (rest ++ st)) (k_nodes k)) in *.
    destruct (wi_counts _ _ _ _ _ H) as [A1 [A2 _]]. fold k in A1, A2. destruct (alives_live _ S0 AL) as [AV _]. rewrite AV in A1, A2. unfold flags in A1 at 1. rewrite map_length in A1.
    rewrite snaps_flags in A2. change (2 ^ 32) with 4294967296 in LN. assert (SL : (snaps (k_nodes k) <= length (k_nodes k))%nat) by apply filter_len_le.
    rewrite N.mod_small in A1 by exact LN. rewrite N.mod_small in A2 by lia. rewrite uncounts_spec in E by lia.
    destruct (N.leb_spec (N.of_nat (length g)) (k_alive k)) as [_|C]; [|exfalso; clear - C A1 C1; lia].
    destruct (N.leb_spec (N.of_nat (snaps g)) (k_snaps k)) as [_|C]; [|exfalso; clear - C A2 C2; lia]. cbn [andb obind] in E. eauto.
  Qed.
End Fixed.
