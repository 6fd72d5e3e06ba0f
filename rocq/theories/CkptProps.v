(** C38 and C40: the checkpointer. *)
From Coq Require Import List NArith Arith Bool Lia Sorting.Sorted.
From Verif Require Import LayoutModel LayoutProofs ArchDataModel ArchDataProofs ArchDataProps StorageModel StorageProofs StorageArch StorageProps
  CkptModel CkptTree CkptOps CkptData CkptWorld CkptSteps.
Import ListNotations.
Open Scope N_scope.

(** A checkpointer over ArchDatas of the shapes [cs], each after any writes, reads and cleans. A checkpoint numbers its lines
    in 32 bits. *)
Definition begun (sh : overshift) (cs : list cfg) (w : world) : Prop :=
  Forall2 (fun c a => exists ops, made sh (c, ops) a) cs (w_dats w) /\ w_ck w = ck_new /\ capacity cs < 2 ^ 32.

Lemma begun_ok : forall sh cs w, begun sh cs w -> Forall (wfc sh) cs /\ capacity cs < 2 ^ 32 /\ INV cs w.
Proof.
  intros sh cs w [H1 [H2 H3]]. split; [|split; [exact H3|]].
  - clear - H1. induction H1 as [|c a cs l [ops H] H1 IH]; constructor; [apply (made_AI _ _ _ H)|exact IH].
  - left. assert (X : exists fs, D cs (w_dats w) fs).
    { clear - H1. induction H1 as [|c a cs l [ops H] H1 [fs IH]]; [exists []; constructor|]. destruct (made_AI _ _ _ H) as [_ [f Hf]].
      exists (f :: fs). constructor; [exact Hf|exact IH]. }
    destruct X as [fs X]. exists fs. constructor; rewrite ?H2; auto.
Qed.
Lemma run_inv : forall sh cs, Forall (wfc sh) cs -> capacity cs < 2 ^ 32 -> forall ops w, INV cs w -> Forall op_ok ops ->
  exists w', crun sh w ops = Some w' /\ INV cs w' /\ forall id t fs, Keep cs id t fs w -> Keep cs id t fs w'.
Proof.
  intros sh cs Wf Cap. induction ops as [|o ops IH]; intros w HI HO; cbn [crun]; [eauto|]. inversion HO as [|? ? O1 O2]; subst.
  destruct (step_ok sh cs Wf Cap w o HI O1) as [E|[w1 [E [G1 [G2 _]]]]]; rewrite E.
  - apply IH; assumption.
  - destruct (IH w1 G1 O2) as [w' [F1 [F2 F3]]]. exists w'. split; [exact F1|]. split; [exact F2|]. auto.
Qed.
Lemma reach : forall sh cs w0 ops w, begun sh cs w0 -> Forall op_ok ops -> crun sh w0 ops = Some w ->
  Forall (wfc sh) cs /\ capacity cs < 2 ^ 32 /\ INV cs w.
Proof.
  intros sh cs w0 ops w HB HO HR. destruct (begun_ok _ _ _ HB) as [Wf [Cap HI]]. destruct (run_inv sh cs Wf Cap ops w0 HI HO) as [w' [E1 [E2 _]]].
  assert (w' = w) by congruence. subst w'. auto.
Qed.

(** The flag at the end of a history: starts false, changed by every call that is not refused. *)
Fixpoint freshness (sh : overshift) (w : world) (fresh : bool) (ops : list cop) : bool :=
  match ops with
  | [] => fresh
  | o :: r => match cstep sh w o with Done w' => freshness sh w' (fresh_after w o fresh) r | _ => freshness sh w fresh r end
  end.
Lemma freshness_ok : forall sh cs, Forall (wfc sh) cs -> capacity cs < 2 ^ 32 -> forall ops w fresh w', INV cs w -> Forall op_ok ops ->
  (fresh = true -> FR cs w) -> crun sh w ops = Some w' -> freshness sh w fresh ops = true -> FR cs w'.
Proof.
  intros sh cs Wf Cap. induction ops as [|o ops IH]; intros w fresh w' HI HO HF HR HA; cbn [crun freshness] in *; [injection HR as <-; auto|].
  inversion HO as [|? ? O1 O2]; subst. destruct (step_ok sh cs Wf Cap w o HI O1) as [E|[w1 [E [G1 _]]]]; rewrite E in HR, HA.
  - eapply IH; [exact HI|exact O2| |exact HR|exact HA]. exact HF.
  - eapply IH; [exact G1|exact O2| |exact HR|exact HA]. intros Q. exact (fresh_ok sh cs Wf Cap w o fresh w1 HI O1 HF E Q).
Qed.

Lemma D_same : forall sh cs, Forall (wfc sh) cs -> forall l fs l', D cs l fs -> D cs l' fs ->
  Forall2 (fun ca b => same_reads sh (fst ca) (snd ca) b) (combine cs l) l'.
Proof.
  intros sh cs Wf. induction Wf as [|c cs W1 W2 IH]; intros l fs l' H K; inversion H; subst; inversion K; subst; cbn [combine]; constructor; eauto.
  cbn [fst snd]. eapply AI_same; eauto.
Qed.

(** A checkpoint that came into being at some call of a history (its predecessor [w1], its successor [w2]), by a call that
    forced a snapshot or when the flag was set, and that is still listed after any further calls whatsoever, can be loaded,
    and then every ArchData reads as it did when the checkpoint was taken, the scheduler is back at the tick it had then and
    the checkpoint is the current one. "Partial": the condition on the call (see the refutations), the bounds of C37 and the
    32-bit line count. *)
Theorem C38_load_partial : forall sh cs w0 ops1 w1 o w2 id ops2 w3, begun sh cs w0 -> Forall op_ok ops1 -> crun sh w0 ops1 = Some w1 ->
  op_ok o -> may w1 o (freshness sh w0 false ops1) -> cstep sh w1 o = Done w2 ->
  In id (get_checkpoints (w_ck w2)) -> ~ In id (get_checkpoints (w_ck w1)) ->
  Forall op_ok ops2 -> crun sh w2 ops2 = Some w3 -> In id (get_checkpoints (w_ck w3)) ->
  exists w4, cstep sh w3 (CLoad id) = Done w4 /\
    Forall2 (fun ca b => same_reads sh (fst ca) (snd ca) b) (combine cs (w_dats w2)) (w_dats w4) /\
    w_sched w4 = w_sched w2 /\ current_id (w_ck w4) = id.
Proof.
  intros sh cs w0 ops1 w1 o w2 id ops2 w3 HB O1 R1 Oo HM HS I2 I1 O2 R2 I3.
  destruct (begun_ok _ _ _ HB) as [Wf [Cap HI0]].
  assert (HF : freshness sh w0 false ops1 = true -> FR cs w1) by (intros Q; refine (freshness_ok sh cs Wf Cap ops1 w0 false w1 HI0 O1 _ R1 Q); discriminate).
  destruct (reach _ _ _ _ _ HB O1 R1) as [_ [_ HI1]].
  destruct (step_ok sh cs Wf Cap w1 o HI1 Oo) as [E|[w' [E [HI2 [_ [_ S1]]]]]]; [congruence|]. assert (w' = w2) by congruence. subst w'.
  destruct (new_ok sh cs Wf Cap w1 o _ w2 id HI1 Oo HF HM HS I2 I1) as [fs [HD HK]].
  destruct (run_inv sh cs Wf Cap ops2 w2 HI2 O2) as [w' [F1 [HI3 F3]]]. assert (w' = w3) by congruence. subst w'.
  destruct (F3 _ _ _ HK) as [K1 [K2 K3]].
  assert (SCH : w_sched w2 = None <-> w_sched w3 = None).
  { clear - Wf Cap HI2 O2 R2. revert w2 HI2 R2. induction O2 as [|o ops Q1 Q2 IH]; intros w2 HI2 R2; cbn [crun] in R2; [injection R2 as <-; reflexivity|].
    destruct (step_ok sh cs Wf Cap w2 o HI2 Q1) as [E|[w [E [G1 [_ [_ G4]]]]]]; rewrite E in R2; [auto|]. rewrite G4. auto. }
  pose proof (INV_sorted cs w3 HI3) as SO. assert (L3 : live_at (k_nodes (w_ck w3)) id) by (apply (live_listed _ SO); exact I3).
  destruct L3 as [n [G DN]]. destruct HI3 as [[gs HI3]|[h [c [gs HI3]]]]; [rewrite (w0_nodes _ _ _ HI3) in G; discriminate|].
  destruct (ckload_ok sh cs Wf Cap w3 h c gs id n HI3 G) as [w4 [fs' [E1 [E2 [E3 [E4 [E5 [E6 [E7 [E8 E9]]]]]]]]]].
  exists w4. split; [exact E1|]. split; [|split].
  - apply (D_same sh cs Wf _ fs); [exact HD|]. apply E3. apply K3. exists n. auto.
  - rewrite E5. rewrite (K2 n G). unfold now. destruct (w_sched w2) as [t|] eqn:Q2; destruct (w_sched w3) as [u|] eqn:Q3; try reflexivity.
    + discriminate (proj2 SCH eq_refl). + discriminate (proj1 SCH eq_refl).
  - unfold current_id. rewrite (wi_cur _ _ _ _ _ E2). unfold id_of.
    assert (L4 : live_at (k_nodes (w_ck w4)) id).
    { apply (live_in_alives _ _ (ti_sorted _ _ _ _ (wi_tree _ _ _ _ _ E2))). rewrite E6. apply (live_in_alives _ _ SO). exists n. auto. }
    destruct L4 as [m [M1 M2]]. rewrite M1. unfold shown. cbn [snd fst]. rewrite M2. reflexivity.
Qed.
Print Assumptions C38_load_partial.
(** A forced snapshot needs nothing of the history before it. *)
Theorem C38_snapshot_partial : forall sh cs w0 ops1 w1 w2 ops2 w3, begun sh cs w0 -> Forall op_ok ops1 -> crun sh w0 ops1 = Some w1 ->
  cstep sh w1 (CCreate true) = Done w2 -> let id := current_id (w_ck w2) in
  Forall op_ok ops2 -> crun sh w2 ops2 = Some w3 -> In id (get_checkpoints (w_ck w3)) ->
  exists w4, cstep sh w3 (CLoad id) = Done w4 /\
    Forall2 (fun ca b => same_reads sh (fst ca) (snd ca) b) (combine cs (w_dats w2)) (w_dats w4) /\
    w_sched w4 = w_sched w2 /\ current_id (w_ck w4) = id.
Proof.
  intros sh cs w0 ops1 w1 w2 ops2 w3 HB O1 R1 HS id O2 R2 I3. destruct (reach _ _ _ _ _ HB O1 R1) as [Wf [Cap HI1]].
  assert (X : In id (get_checkpoints (w_ck w2)) /\ ~ In id (get_checkpoints (w_ck w1))).
  { assert (Y : exists h c fs, WI cs w2 h c fs /\ live_at (k_nodes (w_ck w2)) c /\ ~ In c (get_checkpoints (w_ck w1))).
    { cbn [cstep] in HS. unfold ck_create in HS. destruct HI1 as [[fs H]|[h [c [fs H]]]].
      - rewrite (w0_head _ _ _ H) in HS. destruct (head_ok sh cs Wf Cap w1 fs H) as [w' [E1 [E2 [E3 [E4 [E5 [E6 [E7 [n [E8 E9]]]]]]]]]].
        rewrite E1 in HS. cbn [obind] in HS. pose proof (create_ok sh cs Wf Cap w' 0 0 fs true n E2 E8) as Q. cbv zeta in Q.
        destruct (_ || _); [congruence|]. destruct Q as [w'' [snap [F1 [F2 [_ [_ [_ [_ [F7 _]]]]]]]]]. assert (w'' = w2) by congruence. subst w''.
        exists 0, (k_next (w_ck w')), fs. split; [exact F2|]. split; [exact F7|]. unfold get_checkpoints. rewrite (w0_nodes _ _ _ H). intros [].
      - rewrite (wi_head _ _ _ _ _ H) in HS. destruct (ti_cur _ _ _ _ (wi_tree _ _ _ _ _ H)) as [cn GC].
        pose proof (create_ok sh cs Wf Cap w1 h c fs true cn H GC) as Q. cbv zeta in Q.
        destruct (_ || _); [congruence|]. destruct Q as [w'' [snap [F1 [F2 [_ [_ [_ [_ [F7 _]]]]]]]]]. assert (w'' = w2) by congruence. subst w''.
        exists h, (k_next (w_ck w1)), fs. split; [exact F2|]. split; [exact F7|]. intros Q.
        apply (live_listed _ (ti_sorted _ _ _ _ (wi_tree _ _ _ _ _ H))) in Q. destruct Q as [m [M1 _]].
        pose proof (ti_next _ _ _ _ (wi_tree _ _ _ _ _ H) _ (get_key _ _ _ M1)). lia. }
    destruct Y as [h [c [fs [Y1 [Y2 Y3]]]]]. assert (EI : id = c).
    { unfold id, current_id. rewrite (wi_cur _ _ _ _ _ Y1). unfold id_of. destruct Y2 as [m [M1 M2]]. rewrite M1. unfold shown. cbn [snd fst]. rewrite M2. reflexivity. }
    rewrite EI. split; [|exact Y3]. apply (live_listed _ (ti_sorted _ _ _ _ (wi_tree _ _ _ _ _ Y1))). exact Y2. }
  destruct X as [X1 X2]. eapply (C38_load_partial sh cs w0 ops1 w1 (CCreate true) w2 id ops2 w3); eauto; exact Logic.I.
Qed.
Print Assumptions C38_snapshot_partial.

(** Two ArchDatas, one that frees lines and one that does not, and a scheduler at tick 5. *)
Definition ns : overshift := fun _ => None.
Definition ex_cs : list cfg := [mkCfg 2 16 204 1 true; mkCfg 3 32 43981 2 false].
Definition ex_w0 : option world :=
  match mem_make 2 16 204 1 true, mem_make 3 32 43981 2 false with
  | Done a, Done b => Some (mkW [a; b] (Some 5) ck_new)
  | _, _ => None
  end.
Lemma ex_begun : exists w, ex_w0 = Some w /\ begun ns ex_cs w.
Proof.
  assert (M : forall c a, c_total c < 2 ^ 64 -> c_fill c < 2 ^ 64 -> (c_fsz c <= 2)%nat ->
    mem_make (c_k c) (c_total c) (c_fill c) (c_fsz c) (c_free c) = Done a -> exists ops, made ns (c, ops) a).
  { intros c a H1 H2 H3 H4. exists []. split; [exact H1|]. split; [exact H2|]. split; [left; exact H3|]. split; [constructor|]. eexists. split; [exact H4|reflexivity]. }
  eexists. split; [vm_compute; reflexivity|]. split; [|split; [reflexivity|vm_compute; reflexivity]].
  constructor; [|constructor; [|constructor]]; (apply M; [vm_compute; reflexivity|vm_compute; reflexivity|cbn; lia|vm_compute; reflexivity]).
Qed.
(** After [ops]: bytes 0 to 3 of both ArchDatas, the scheduler, the listing. *)
Definition look (w : world) : list (outcome (list N)) * option N * list N :=
  (map (fun a => mem_read ns a 0 4) (w_dats w), w_sched w, get_checkpoints (w_ck w)).
Definition after (ops : list cop) : option world := match ex_w0 with Some w => crun ns w ops | None => None end.
Definition seen (ops : list cop) := option_map look (after ops).
(** A delta (2) on a delta (1) on the head (0); a branch (3); checkpoints below and beside it are deleted and the state changes. *)
Definition ex1 : list cop := [CWrite 0 0 [1; 2]; CHead; CTick 3; CWrite 0 1 [7]; CCreate false; CTick 2; CWrite 1 2 [9; 9]].
Definition ex2 : list cop := [CWrite 0 0 [5; 5; 5]; CLoad 0; CTick 9; CWrite 1 0 [8]; CCreate true; CDelete 1; CDelete 0; CReset 0; CDelete 3; CForget; CCreate false].
Example C38_load_ex : exists w0 w1 w2 w3 w4, ex_w0 = Some w0 /\ crun ns w0 ex1 = Some w1 /\ may w1 (CCreate false) (freshness ns w0 false ex1) /\
  cstep ns w1 (CCreate false) = Done w2 /\ look w2 = ([Done [1; 7; 204; 204]; Done [205; 171; 9; 9]], Some 10, [0; 1; 2]) /\
  crun ns w2 ex2 = Some w3 /\ look w3 = ([Done [204; 204; 204; 204]; Done [8; 171; 205; 171]], Some 14, [2; 4]) /\
  cstep ns w3 (CLoad 2) = Done w4 /\ look w4 = ([Done [1; 7; 204; 204]; Done [205; 171; 9; 9]], Some 10, [2; 4]).
Proof.
  eexists _, _, _, _, _. split; [vm_compute; reflexivity|]. split; [vm_compute; reflexivity|]. split; [vm_compute; auto|].
  split; [vm_compute; reflexivity|]. split; [vm_compute; reflexivity|]. split; [vm_compute; reflexivity|].
  split; [vm_compute; reflexivity|]. split; vm_compute; reflexivity.
Qed.

(** Where the condition matters. Here 3 is current, a delta on 1, and deleted; deleting 2 then also drops 1, which 3 needs.
    4 is a delta on 3, so it lacks byte 0. *)
Theorem C38_delta_after_delete_refuted : exists ops w1 w2 w3, after ops = Some w1 /\ cstep ns w1 (CCreate false) = Done w2 /\
  crun ns w2 [CLoad 0; CLoad (current_id (w_ck w2))] = Some w3 /\ In (current_id (w_ck w2)) (get_checkpoints (w_ck w3)) /\
  map (fun a => mem_read ns a 0 2) (w_dats w2) <> map (fun a => mem_read ns a 0 2) (w_dats w3) /\
  Forall (fun o => match o with CReset _ | CForget => False | _ => True end) ops.
Proof.
  exists [CHead; CWrite 0 0 [7]; CCreate false; CCreate false; CLoad 1; CCreate false; CDelete 1; CDelete 3; CDelete 2; CWrite 0 5 [9]].
  eexists _, _, _. split; [vm_compute; reflexivity|]. split; [vm_compute; reflexivity|]. split; [vm_compute; reflexivity|].
  split; [vm_compute; auto|]. split; [vm_compute; discriminate|]. repeat constructor.
Qed.
Print Assumptions C38_delta_after_delete_refuted.
(** ArchData::reset leaves no dirty line behind, so the next delta does not record it. *)
Theorem C38_delta_after_reset_refuted : exists w1 w2 w3, after [CWrite 0 0 [7]; CHead; CReset 0] = Some w1 /\ cstep ns w1 (CCreate false) = Done w2 /\
  crun ns w2 [CLoad 1] = Some w3 /\ map (fun a => mem_read ns a 0 1) (w_dats w2) = [Done [204]; Done [205]] /\
  map (fun a => mem_read ns a 0 1) (w_dats w3) = [Done [7]; Done [205]].
Proof. eexists _, _, _. repeat (split; [vm_compute; reflexivity|]). vm_compute. reflexivity. Qed.
Print Assumptions C38_delta_after_reset_refuted.
(** After forgetCurrent a delta is taken against the head, without what the forgotten checkpoint recorded. *)
Theorem C38_delta_after_forget_refuted : exists w1 w2 w3, after [CHead; CWrite 0 0 [7]; CCreate false; CForget] = Some w1 /\
  cstep ns w1 (CCreate false) = Done w2 /\ crun ns w2 [CLoad 2] = Some w3 /\
  map (fun a => mem_read ns a 0 1) (w_dats w2) = [Done [7]; Done [205]] /\ map (fun a => mem_read ns a 0 1) (w_dats w3) = [Done [204]; Done [205]].
Proof. eexists _, _, _. repeat (split; [vm_compute; reflexivity|]). vm_compute. reflexivity. Qed.
Print Assumptions C38_delta_after_forget_refuted.

(** C40. No history of calls goes wrong: every call succeeds or throws without effect. *)
Theorem C40_always_runs_partial : forall sh cs w0 ops, begun sh cs w0 -> Forall op_ok ops -> exists w, crun sh w0 ops = Some w.
Proof.
  intros sh cs w0 ops HB HO. destruct (begun_ok _ _ _ HB) as [Wf [Cap HI]]. destruct (run_inv sh cs Wf Cap ops w0 HI HO) as [w [E _]]. eauto.
Qed.
Print Assumptions C40_always_runs_partial.
Example C40_always_runs_ex : seen (ex1 ++ [CLoad 9; CHead; CCreate false; CDelete 0; CDelete 7; CLoad 1; CDelete 1; CTick 1; CCreate true] ++ ex2) =
  Some ([Done [204; 204; 204; 204]; Done [8; 171; 205; 171]], Some 14, [2; 4; 5]).
Proof. vm_compute. reflexivity. Qed.

(** What a client can keep in a notebook: the number of checkpoints created and, in order, each one alive with its tick.
    Calls that throw are not noted. *)
Fixpoint notebook (sh : overshift) (w : world) (ops : list cop) (s : N * list (N * N)) : N * list (N * N) :=
  match ops with
  | [] => s
  | o :: r => match cstep sh w o with Done w' => notebook sh w' r (sapply w o s) | _ => notebook sh w r s end
  end.
Lemma notebook_ok : forall sh cs, Forall (wfc sh) cs -> capacity cs < 2 ^ 32 -> forall ops w w', INV cs w -> Forall op_ok ops -> crun sh w ops = Some w' ->
  notebook sh w ops (k_total (w_ck w), listing w) = (k_total (w_ck w'), listing w').
Proof.
  intros sh cs Wf Cap. induction ops as [|o ops IH]; intros w w' HI HO HR; cbn [crun notebook] in *; [congruence|].
  inversion HO as [|? ? O1 O2]; subst. destruct (step_ok sh cs Wf Cap w o HI O1) as [E|[w1 [E [G1 [_ [G3 _]]]]]]; rewrite E in *; [auto|].
  rewrite <- G3. auto.
Qed.
Lemma SS_map_filter : forall (A : Type) (p : A -> N) (f : A -> bool) l, StronglySorted N.lt (map p l) -> StronglySorted N.lt (map p (filter f l)).
Proof.
  intros A p f. induction l as [|a l IH]; intros H; cbn [filter map] in *; [constructor|]. inversion H as [|? ? H1 H2]; subst.
  destruct (f a); [|auto]. cbn [map]. constructor; [auto|]. rewrite Forall_forall in *. intros x Hx. apply in_map_iff in Hx.
  destruct Hx as [q [<- Hq]]. apply H2. apply in_map. apply filter_In in Hq. tauto.
Qed.
(** The checkpointer agrees with the notebook. In particular identifiers are unique and increasing, every checkpoint in the
    notebook is found by its identifier, and a deleted one is not listed. The number of checkpoints alive is a uint32_t. *)
Theorem C40_notebook_partial : forall sh cs w0 ops w n l, begun sh cs w0 -> Forall op_ok ops -> crun sh w0 ops = Some w ->
  notebook sh w0 ops (0, []) = (n, l) ->
  k_total (w_ck w) = n /\ get_checkpoints (w_ck w) = map fst l /\
  (forall t, get_checkpoints_at (w_ck w) t = map fst (filter (fun p => snd p =? t) l)) /\
  num_checkpoints (w_ck w) = N.of_nat (length l) mod 2 ^ 32 /\
  StronglySorted N.lt (map fst l) /\ (forall id, In id (map fst l) -> id < n /\ has_checkpoint (w_ck w) id = true) /\ n <= no_id.
Proof.
  intros sh cs w0 ops w n l HB HO HR HN. destruct (reach _ _ _ _ _ HB HO HR) as [Wf [Cap HI]]. destruct (begun_ok _ _ _ HB) as [_ [_ HI0]].
  pose proof (notebook_ok sh cs Wf Cap ops w0 w HI0 HO HR) as Q. replace (k_total (w_ck w0), listing w0) with (0, @nil (N * N)) in Q
    by (unfold listing; rewrite (proj1 (proj2 HB)); reflexivity). rewrite Q in HN. injection HN as <- <-.
  pose proof (INV_sorted cs w HI) as SO.
  assert (FL : map fst (listing w) = map fst (alives (k_nodes (w_ck w)))) by (unfold listing; rewrite map_map; reflexivity).
  split; [reflexivity|]. split; [rewrite get_checkpoints_alives, FL; reflexivity|]. split; [|split; [|split; [|split]]].
  - intros t. unfold get_checkpoints_at, listing, alives, flags. clear. induction (k_nodes (w_ck w)) as [|[i m] r IH]; cbn [map filter snd]; [reflexivity|].
    change (fdead (flag (i, m))) with (n_dead m). destruct (n_dead m) eqn:E; cbn [negb map filter]; rewrite ?andb_false_r, ?andb_true_r; [exact IH|].
    cbn [snd]. change (ftick (flag (i, m))) with (n_tick m). destruct (n_tick m =? t); cbn [map]; [|exact IH]. f_equal; [|exact IH].
    unfold shown. cbn [snd fst]. rewrite E. reflexivity.
  - unfold num_checkpoints. assert (LN : length (listing w) = length (alives (k_nodes (w_ck w)))) by apply map_length. rewrite LN.
    change (2 ^ 32) with 4294967296. destruct HI as [[fs H]|[h [c [fs H]]]]; [|exact (proj1 (wi_counts _ _ _ _ _ H))].
    rewrite (proj1 (w0_counts _ _ _ H)), (w0_nodes _ _ _ H). reflexivity.
  - rewrite FL. unfold alives. apply SS_map_filter. rewrite <- keys_flags. exact SO.
  - intros id Hid. rewrite FL in Hid. apply (live_in_alives _ _ SO) in Hid. destruct Hid as [m [M1 _]]. split.
    + destruct HI as [[fs H]|[h [c [fs H]]]]; [rewrite (w0_nodes _ _ _ H) in M1; discriminate|]. rewrite (wi_total _ _ _ _ _ H).
      exact (ti_next _ _ _ _ (wi_tree _ _ _ _ _ H) id (get_key _ _ _ M1)).
    + unfold has_checkpoint. rewrite M1. reflexivity.
  - destruct HI as [[fs H]|[h [c [fs H]]]]; [rewrite (w0_total _ _ _ H); apply N.le_0_l|]. rewrite (wi_total _ _ _ _ _ H). exact (wi_ids _ _ _ _ _ H).
Qed.
Print Assumptions C40_notebook_partial.
Definition ex3 : list cop := ex1 ++ [CCreate false; CDelete 1; CDelete 1; CHead; CDelete 8; CLoad 0; CCreate true; CTick 5; CCreate false].
Example C40_notebook_ex : exists w0 w, ex_w0 = Some w0 /\ crun ns w0 ex3 = Some w /\
  notebook ns w0 ex3 (0, []) = (5, [(0, 5); (2, 10); (3, 5); (4, 10)]) /\ get_checkpoints_at (w_ck w) 10 = [2; 4] /\ num_checkpoints (w_ck w) = 4.
Proof. eexists _, _. repeat (split; [vm_compute; reflexivity|]). vm_compute. reflexivity. Qed.

(** Whether a checkpoint is a snapshot (isSnapshot). *)
Definition snapshot (k : ckpt) (id : N) : bool := match get id (k_nodes k) with Some n => n_snap n | None => false end.
(** The counts that the checkpointer reports are those of the listed checkpoints. *)
Theorem C40_counts_partial : forall sh cs w0 ops w, begun sh cs w0 -> Forall op_ok ops -> crun sh w0 ops = Some w ->
  let k := w_ck w in let l := get_checkpoints k in
  num_snapshots k = N.of_nat (length (filter (snapshot k) l)) mod 2 ^ 32 /\
  num_deltas k = N.of_nat (length (filter (fun id => negb (snapshot k id)) l)) mod 2 ^ 32 /\
  num_dead k = N.of_nat (length (k_nodes k) - length l) mod 2 ^ 32.
Proof.
  intros sh cs w0 ops w HB HO HR k l. destruct (reach _ _ _ _ _ HB HO HR) as [Wf [Cap HI]]. change (2 ^ 32) with 4294967296.
  assert (C : counts k).
  { unfold k. destruct HI as [[fs H]|[h [c [fs H]]]]; [|exact (wi_counts _ _ _ _ _ H)]. destruct (w0_counts _ _ _ H) as [Q1 [Q2 Q3]]. pose proof (w0_nodes _ _ _ H) as Q4.
    unfold counts, cd_ok. rewrite Q1, Q2, Q3, Q4. repeat split; reflexivity. }
  pose proof (INV_sorted cs w HI) as SO. fold k in SO. apply sorted_nodup in SO. destruct C as [C1 [C2 C3]]. unfold cd_ok in C3.
  assert (GN : forall x n, In (x, n) (k_nodes k) -> get x (k_nodes k) = Some n).
  { clear - SO. induction (k_nodes k) as [|[i m] r IH]; intros x n I; [destruct I|]. cbn [keysn map fst] in SO. inversion SO as [|? ? N1 N2]; subst. cbn [get].
    destruct I as [I|I]; [injection I as -> ->; rewrite N.eqb_refl; reflexivity|]. destruct (N.eqb_spec i x) as [->|]; [|apply IH; auto].
    exfalso. apply N1. change x with (fst (x, n)). apply in_map. exact I. }
  assert (FA : forall P, (forall q, In q (k_nodes k) -> n_dead (snd q) = false -> P (fst q) = fsnap (flag q)) ->
    length (filter P l) = length (filter fsnap (alives (k_nodes k)))).
  { unfold l, get_checkpoints, alives, flags. clear. induction (k_nodes k) as [|q r IH]; intros P H; [reflexivity|].
    cbn [filter map]. change (fdead (flag q)) with (n_dead (snd q)). specialize (IH P (fun z Hz => H z (or_intror Hz))).
    destruct (n_dead (snd q)) eqn:ED; cbn [negb]; [exact IH|]. cbn [map filter]. unfold shown at 1. rewrite ED, (H q (or_introl eq_refl) ED).
    destruct (fsnap (flag q)); cbn [length]; rewrite IH; reflexivity. }
  assert (LA : length l = length (alives (k_nodes k))).
  { unfold l, get_checkpoints, alives, flags. rewrite map_length. clear. induction (k_nodes k) as [|q r IH]; [reflexivity|]. cbn [filter map].
    change (fdead (flag q)) with (n_dead (snd q)). destruct (n_dead (snd q)); cbn [negb length]; auto. }
  assert (SN : length (filter (snapshot k) l) = length (filter fsnap (alives (k_nodes k)))).
  { apply FA. intros [x n] I ED. unfold snapshot. cbn [fst]. rewrite (GN x n I). reflexivity. }
  assert (SP : (length (filter (snapshot k) l) + length (filter (fun id => negb (snapshot k id)) l) = length l)%nat).
  { clear. induction l as [|x r IH]; [reflexivity|]. cbn [filter]. destruct (snapshot k x); cbn [negb length]; lia. }
  assert (DE : (length (deads (k_nodes k)) = length (k_nodes k) - length l)%nat).
  { rewrite LA. unfold alives, deads. rewrite <- (map_length flag (k_nodes k)). fold (flags (k_nodes k)). clear. induction (flags (k_nodes k)) as [|q r IH]; [reflexivity|].
    assert (length (filter (fun q => negb (fdead q)) r) <= length r)%nat by (clear; induction r as [|z r IH]; cbn [filter length]; [lia|destruct (negb (fdead z)); cbn [length]; lia]). cbn [filter]. destruct (fdead q); cbn [negb length] in *; lia. }
  split; [unfold num_snapshots; rewrite C2, SN; reflexivity|]. split; [|unfold num_dead; rewrite C3, DE; reflexivity].
  unfold num_deltas. rewrite C1, C2, <- LA, <- SN, <- SP. clear. generalize (length (filter (snapshot k) l)) (length (filter (fun id => negb (snapshot k id)) l)). intros a b.
  rewrite Nat2N.inj_add. generalize (N.of_nat a) (N.of_nat b). clear. intros x y.
  pose proof (N.div_mod x 4294967296 ltac:(discriminate)) as D1. pose proof (N.mod_lt x 4294967296 ltac:(discriminate)) as L1.
  pose proof (N.div_mod (x + y) 4294967296 ltac:(discriminate)) as D2. pose proof (N.mod_lt (x + y) 4294967296 ltac:(discriminate)) as L2.
  pose proof (N.div_mod y 4294967296 ltac:(discriminate)) as D3. pose proof (N.mod_lt y 4294967296 ltac:(discriminate)) as L3.
  symmetry. rewrite <- (N.mod_add _ (x / 4294967296 + (if x mod 4294967296 <=? (x + y) mod 4294967296 then 1 else 0)) 4294967296) by discriminate.
  destruct (N.leb_spec (x mod 4294967296) ((x + y) mod 4294967296)).
  - rewrite <- (N.mod_add ((x + y) mod 4294967296 + 4294967296 - x mod 4294967296) ((x + y) / 4294967296) 4294967296) by discriminate. f_equal. lia.
  - rewrite <- (N.mod_add ((x + y) mod 4294967296 + 4294967296 - x mod 4294967296) ((x + y) / 4294967296) 4294967296) by discriminate. 
    rewrite <- (N.mod_add (y + (x / 4294967296 + 0) * 4294967296) 1 4294967296) by discriminate. f_equal. lia.
Qed.
Print Assumptions C40_counts_partial.

(** The number of deltas from a checkpoint back to the last snapshot. *)
Inductive since (k : ckpt) : N -> N -> Prop :=
| since0 : forall x n, get x (k_nodes k) = Some n -> n_snap n = true -> since k x 0
| sinceS : forall x n p d, get x (k_nodes k) = Some n -> n_snap n = false -> n_prev n = Some p -> since k p d -> since k x (d + 1).
(** A new checkpoint is a snapshot exactly if that is asked for or if the current one is at least as many deltas away from
    its snapshot as the threshold says (the distance being a uint32_t). *)
Theorem C40_snapshot_rule_partial : forall sh cs w0 ops w force w', begun sh cs w0 -> Forall op_ok ops -> crun sh w0 ops = Some w ->
  k_total (w_ck w) <> 0 -> cstep sh w (CCreate force) = Done w' ->
  exists c d, k_cur (w_ck w) = Some c /\ since (w_ck w) c d /\ snapshot (w_ck w') (current_id (w_ck w')) = force || (k_thresh (w_ck w) <=? d mod 2 ^ 32).
Proof.
  intros sh cs w0 ops w force w' HB HO HR NZ HS. destruct (reach _ _ _ _ _ HB HO HR) as [Wf [Cap HI]].
  destruct HI as [[fs H]|[h [c [fs H]]]]; [exfalso; apply NZ; apply (w0_total _ _ _ H)|].
  destruct (ti_cur _ _ _ _ (wi_tree _ _ _ _ _ H)) as [cn GC]. pose proof (create_ok sh cs Wf Cap w h c fs force cn H GC) as Q. cbv zeta in Q.
  cbn [cstep] in HS. unfold ck_create in HS. rewrite (wi_head _ _ _ _ _ H) in HS.
  destruct ((k_next (w_ck w) =? no_id) || _); [rewrite Q in HS; discriminate|]. destruct Q as [w2 [snap [E1 [E2 [[dd [E3 E3']] [E4 [E5 [E6 [E7 [[n [E8 E8']] _]]]]]]]]]].
  assert (w2 = w') by congruence. subst w2. exists c.
  assert (DS : forall fuel x d, distance fuel (k_nodes (w_ck w)) x = Done d -> exists d', since (w_ck w) x d' /\ d = d' mod 2 ^ 32).
  { induction fuel as [|f IH]; intros x d Hd; cbn [distance] in Hd; [discriminate|]. unfold deref in Hd. destruct (get x (k_nodes (w_ck w))) as [m|] eqn:G; [|discriminate]. cbn [obind] in Hd.
    destruct (n_snap m) eqn:SN; [injection Hd as <-; exists 0; split; [eapply since0; eauto|reflexivity]|]. destruct (n_prev m) as [p|] eqn:PV; [|discriminate].
    destruct (distance f _ p) as [d0| | | |] eqn:E0; try discriminate. cbn [obind] in Hd. injection Hd as <-. destruct (IH p d0 E0) as [d' [S1 S2]]. exists (d' + 1).
    split; [eapply sinceS; eauto|]. unfold inc. rewrite S2. change (2 ^ 32) with 4294967296. rewrite N.add_mod_idemp_l by discriminate. reflexivity. }
  destruct (DS _ _ _ E3) as [d [S1 S2]]. exists d. split; [exact (wi_cur _ _ _ _ _ H)|]. split; [exact S1|]. rewrite <- S2, <- E3'.
  unfold current_id. rewrite (wi_cur _ _ _ _ _ E2). destruct E7 as [m [M1 M2]]. assert (m = n) by congruence. subst m. unfold id_of, shown. rewrite M1. cbn [snd fst]. rewrite M2.
  unfold snapshot. rewrite M1. pose proof (live_in _ _ _ M1 M2) as I. rewrite E4 in I. apply in_app_or in I. destruct I as [I|[I|[]]].
  - exfalso. apply filter_In in I. destruct I as [I _]. apply in_map_iff in I. destruct I as [[y m] [Y1 Y2]]. injection Y1 as Y1 _ _ _. cbn [fst] in Y1. subst y.
    pose proof (ti_next _ _ _ _ (wi_tree _ _ _ _ _ H) (k_next (w_ck w))) as X. specialize (X (in_map fst _ _ Y2)). lia.
  - injection I as I1 I2 I3. congruence.
Qed.
Print Assumptions C40_snapshot_rule_partial.
(** With threshold 2: head, two deltas, then a snapshot; deleting the first delta leaves it as needed. *)
Example C40_counts_ex : exists w, after [CHead; CThresh 2; CCreate false; CCreate false; CCreate false; CCreate false; CDelete 1] = Some w /\
  get_checkpoints (w_ck w) = [0; 2; 3; 4] /\ num_snapshots (w_ck w) = 2 /\ num_deltas (w_ck w) = 2 /\ num_dead (w_ck w) = 1 /\
  map (snapshot (w_ck w)) [0; 1; 2; 3; 4] = [true; false; false; true; false].
Proof. eexists. repeat (split; [vm_compute; reflexivity|]). vm_compute. reflexivity. Qed.

(** Exactly when calls throw. *)
Theorem C40_refusals_partial : forall sh cs w0 ops w, begun sh cs w0 -> Forall op_ok ops -> crun sh w0 ops = Some w ->
  (forall id, cstep sh w (CLoad id) = Refused <-> has_checkpoint (w_ck w) id = false) /\
  (forall id, cstep sh w (CDelete id) = Refused <-> has_checkpoint (w_ck w) id = false) /\
  (cstep sh w CHead = Refused <-> k_total (w_ck w) <> 0) /\
  (forall force, cstep sh w (CCreate force) = Refused <->
     k_total (w_ck w) = 2 ^ 64 - 1 \/ exists t, w_sched w = Some t /\ t < current_tick (w_ck w)).
Proof.
  intros sh cs w0 ops w HB HO HR. destruct (reach _ _ _ _ _ HB HO HR) as [Wf [Cap HI]]. split; [|split; [|split]].
  - intros id. unfold has_checkpoint. cbn [cstep]. destruct (get id (k_nodes (w_ck w))) as [n|] eqn:G.
    + split; [|discriminate]. intros Q. exfalso. destruct HI as [[fs H]|[h [c [fs H]]]]; [rewrite (w0_nodes _ _ _ H) in G; discriminate|].
      destruct (ckload_ok sh cs Wf Cap w h c fs id n H G) as [w' [fs' [E _]]]. congruence.
    + split; [reflexivity|]. intros _. apply load_none. exact G.
  - intros id. unfold has_checkpoint. cbn [cstep]. destruct (get id (k_nodes (w_ck w))) as [n|] eqn:G.
    + split; [|discriminate]. intros Q. exfalso. destruct HI as [[fs H]|[h [c [fs H]]]]; [rewrite (w0_nodes _ _ _ H) in G; discriminate|].
      destruct (delete_ok cs w h c fs id n H G) as [k' [E _]]. rewrite E in Q. discriminate.
    + split; [reflexivity|]. intros _. rewrite (delete_none _ _ G). reflexivity.
  - cbn [cstep]. destruct HI as [[fs H]|[h [c [fs H]]]].
    + destruct (head_ok sh cs Wf Cap w fs H) as [w' [E _]]. rewrite E, (w0_total _ _ _ H). split; [discriminate|congruence].
    + unfold ck_head. rewrite (wi_head _ _ _ _ _ H). split; [|reflexivity]. intros _. exact (next_pos cs Cap w h c fs H).
  - intros force. cbn [cstep]. unfold ck_create. destruct HI as [[fs H]|[h [c [fs H]]]].
    + rewrite (w0_head _ _ _ H). destruct (head_ok sh cs Wf Cap w fs H) as [w1 [E1 [E2 [E3 [E4 [E5 [E6 [E7 [n [E8 E9]]]]]]]]]]. rewrite E1. cbn [obind].
      pose proof (create_ok sh cs Wf Cap w1 0 0 fs force n E2 E8) as Q. cbv zeta in Q. rewrite E6 in Q. change (1 =? no_id) with false in Q. cbn [orb] in Q.
      assert (LT : match w_sched w1 with Some t => t <? n_tick n | None => false end = false).
      { rewrite E5, E9. unfold now. destruct (w_sched w); [apply N.ltb_irrefl|reflexivity]. }
      rewrite LT in Q. destruct Q as [w' [snap [Q1 _]]]. rewrite Q1, (w0_total _ _ _ H). unfold current_tick. rewrite (w0_cur _ _ _ H).
      split; [discriminate|]. intros [Z|[t [_ Z]]]; [discriminate|lia].
    + rewrite (wi_head _ _ _ _ _ H). destruct (ti_cur _ _ _ _ (wi_tree _ _ _ _ _ H)) as [cn GC].
      pose proof (create_ok sh cs Wf Cap w h c fs force cn H GC) as Q. cbv zeta in Q. rewrite (wi_total _ _ _ _ _ H). unfold current_tick. rewrite (wi_cur _ _ _ _ _ H), GC.
      change (2 ^ 64 - 1) with no_id. destruct (N.eqb_spec (k_next (w_ck w)) no_id) as [E|E]; cbn [orb] in Q; [rewrite Q; split; auto|].
      destruct (w_sched w) as [t|] eqn:ES.
      * destruct (N.ltb_spec t (n_tick cn)) as [L|L].
        -- rewrite Q. split; [|reflexivity]. intros _. right. eauto.
        -- destruct Q as [w' [snap [Q _]]]. rewrite Q. split; [discriminate|]. intros [Z|[u [U1 U2]]]; [contradiction|]. injection U1 as <-. lia.
      * destruct Q as [w' [snap [Q _]]]. rewrite Q. split; [discriminate|]. intros [Z|[u [U1 U2]]]; [contradiction|discriminate].
Qed.
Print Assumptions C40_refusals_partial.
Example C40_refusals_ex : exists w, after [CHead; CTick 4; CCreate false; CLoad 0; CTick 1; CCreate true; CDelete 1] = Some w /\
  cstep ns w (CLoad 1) = Refused /\ cstep ns w CHead = Refused /\ (exists w', cstep ns w (CLoad 2) = Done w') /\ current_tick (w_ck w) = 6.
Proof. eexists. split; [vm_compute; reflexivity|]. split; [vm_compute; reflexivity|]. split; [vm_compute; reflexivity|]. split; [eexists|]; vm_compute; reflexivity. Qed.

(** Walking back from a checkpoint. *)
Lemma prev_chain_ok : forall l h c nx, TI l h c nx -> forall fuel x n, (below x l < fuel)%nat -> get x l = Some n ->
  exists r, prev_chain (S fuel) l (Some x) = Done ((x, n) :: r) /\
    Forall (fun p => get (fst p) l = Some (snd p) /\ fst p < x /\ n_tick (snd p) <= n_tick n) r /\
    StronglySorted (fun p q => fst q < fst p /\ n_tick (snd q) <= n_tick (snd p)) ((x, n) :: r) /\ fst (last r (x, n)) = h.
Proof.
  intros l h c nx T. induction fuel as [|fuel IH]; intros x n B G; [lia|].
  assert (DX : deref x l = Done n) by (unfold deref; rewrite G; reflexivity).
  remember (S fuel) as f1 eqn:EF1. cbn [prev_chain]. rewrite DX. cbn [obind]. subst f1. destruct (N.eq_dec x h) as [->|XH].
  - destruct (ti_head _ _ _ _ T) as [hn [H1 [H2 _]]]. assert (hn = n) by congruence. subst hn. rewrite H2. cbn [prev_chain obind].
    exists []. split; [reflexivity|]. split; [constructor|]. split; [repeat constructor|reflexivity].
  - destruct (ti_prev _ _ _ _ T x n G XH) as [p [pn [P1 [P2 [P3 [P4 _]]]]]]. rewrite P1. pose proof (below_lt p x l P3 (get_key _ _ _ P2)) as BL.
    destruct (IH p pn) as [r [R1 [R2 [R3 R4]]]]; [lia|exact P2|]. rewrite R1. cbn [obind]. exists ((p, pn) :: r). split; [reflexivity|].
    assert (FA : Forall (fun p => get (fst p) l = Some (snd p) /\ fst p < x /\ n_tick (snd p) <= n_tick n) ((p, pn) :: r)).
    { constructor; [cbn [fst snd]; auto|]. rewrite Forall_forall in *. intros q Hq. destruct (R2 q Hq) as [Q1 [Q2 Q3]]. split; [exact Q1|]. lia. }
    split; [exact FA|]. split.
    + constructor; [exact R3|]. rewrite Forall_forall in *. intros q Hq. destruct (FA q Hq) as [_ Z]. exact Z.
    + assert (LQ : forall (r : list (N * node)) q a b, last (q :: r) a = last (q :: r) b).
      { clear. induction r as [|q2 r IH]; intros q a b; [reflexivity|]. exact (IH q2 a b). }
      destruct r as [|q r]; [exact R4|]. change (last ((p, pn) :: q :: r) (x, n)) with (last (q :: r) (x, n)). rewrite (LQ r q _ (p, pn)). exact R4.
Qed.
Lemma in_at : forall k x t, sorted (k_nodes k) -> In x (get_checkpoints_at k t) -> exists n, get x (k_nodes k) = Some n /\ n_dead n = false /\ n_tick n = t.
Proof.
  intros k x t SO H. unfold get_checkpoints_at in H. apply in_map_iff in H. destruct H as [[i n] [E H]]. apply filter_In in H. destruct H as [H1 H2].
  cbn [snd] in H2. apply andb_prop in H2. destruct H2 as [H2 H3]. apply N.eqb_eq in H2. destruct (n_dead n) eqn:DN; [discriminate|]. unfold shown in E. cbn [snd fst] in E.
  rewrite DN in E. subst i. exists n. split; [|auto]. apply in_get; [apply sorted_nodup; exact SO|exact H1].
Qed.

(** getCheckpointChain starts with the checkpoint asked for and ends with the head; along it identifiers decrease and ticks
    never increase. Deleted checkpoints still in the chain read as UNIDENTIFIED_CHECKPOINT. *)
Theorem C40_chain_partial : forall sh cs w0 ops w id, begun sh cs w0 -> Forall op_ok ops -> crun sh w0 ops = Some w ->
  In id (get_checkpoints (w_ck w)) ->
  exists r, checkpoint_chain (w_ck w) id = Done (id :: r) /\ last r id = head_id (w_ck w) /\
    (forall i, In i r -> i = no_id \/ In i (get_checkpoints (w_ck w))) /\
    (forall r1 a r2 b r3 ta tb, id :: r = r1 ++ a :: r2 ++ b :: r3 -> In a (get_checkpoints_at (w_ck w) ta) -> In b (get_checkpoints_at (w_ck w) tb) ->
       b < a /\ tb <= ta).
Proof.
  intros sh cs w0 ops w id HB HO HR HL. destruct (reach _ _ _ _ _ HB HO HR) as [Wf [Cap HI]]. pose proof (INV_sorted cs w HI) as SO.
  apply (live_listed _ SO) in HL. destruct HL as [n [G DN]]. destruct HI as [[fs H]|[h [c [fs H]]]]; [rewrite (w0_nodes _ _ _ H) in G; discriminate|].
  unfold checkpoint_chain. rewrite (wi_head _ _ _ _ _ H), G.
  destruct (prev_chain_ok _ _ _ _ (wi_tree _ _ _ _ _ H) (depth (w_ck w)) id n) as [r [R1 [R2 [R3 R4]]]]; [unfold depth; pose proof (below_le id (k_nodes (w_ck w))); lia|exact G|].
  rewrite R1. cbn [obind map]. unfold shown at 1. cbn [snd fst]. rewrite DN. exists (map shown r). split; [reflexivity|]. split; [|split].
  - unfold head_id. rewrite (wi_head _ _ _ _ _ H), <- R4. unfold id_of.
    assert (LS : forall (r : list (N * node)) p, In (last r p) (p :: r) /\ last (map shown r) (shown p) = shown (last r p)).
    { clear. induction r as [|q r IH]; intros p; [split; [left; reflexivity|reflexivity]|]. destruct r as [|q2 r]; [split; [right; left|]; reflexivity|].
      destruct (IH p) as [I1 I2]. split; [|exact I2]. change (last (q :: q2 :: r) p) with (last (q2 :: r) p).
      destruct I1 as [I1|I1]; [left; exact I1|right; right; exact I1]. }
    destruct (LS r (id, n)) as [L1 L2]. assert (X : get (fst (last r (id, n))) (k_nodes (w_ck w)) = Some (snd (last r (id, n)))).
    { destruct L1 as [<-|Hz]; [exact G|]. rewrite Forall_forall in R2. apply (R2 _ Hz). }
    rewrite X. unfold shown at 2 in L2. cbn [snd fst] in L2. rewrite DN in L2. rewrite L2. destruct (last r (id, n)); reflexivity.
  - intros i Hi. apply in_map_iff in Hi. destruct Hi as [[x m] [<- Hm]]. rewrite Forall_forall in R2. destruct (R2 _ Hm) as [M1 _]. cbn [fst snd] in M1.
    unfold shown. cbn [snd fst]. destruct (n_dead m) eqn:E; [left; reflexivity|]. right. apply (live_listed _ SO). exists m. auto.
  - intros r1 a r2 b r3 ta tb E Ia Ib. destruct (in_at _ _ _ SO Ia) as [an [A1 [A2 A3]]]. destruct (in_at _ _ _ SO Ib) as [bn [B1 [B2 B3]]].
    assert (E' : map shown ((id, n) :: r) = r1 ++ a :: r2 ++ b :: r3).
    { rewrite <- E. cbn [map]. unfold shown at 1. cbn [snd fst]. rewrite DN. reflexivity. }
    apply map_eq_app in E'. destruct E' as [s1 [s2 [S1 [_ S3]]]]. destruct s2 as [|pa s2]; [discriminate|]. cbn [map] in S3. injection S3 as Pa S3.
    apply map_eq_app in S3. destruct S3 as [s3 [s4 [S4 [_ S5]]]]. destruct s4 as [|pb s4]; [discriminate|]. cbn [map] in S5. injection S5 as Pb _.
    assert (AL : forall p, In p ((id, n) :: r) -> get (fst p) (k_nodes (w_ck w)) = Some (snd p)).
    { intros p [<-|Hp]; [exact G|]. rewrite Forall_forall in R2. apply (R2 p Hp). }
    assert (SH : forall p x m, In p ((id, n) :: r) -> shown p = x -> get x (k_nodes (w_ck w)) = Some m -> fst p = x /\ snd p = m).
    { intros p x m Hp E1 E2. specialize (AL p Hp). unfold shown in E1. destruct (n_dead (snd p)) eqn:DD; [|split; congruence].
      exfalso. subst x. pose proof (ti_next _ _ _ _ (wi_tree _ _ _ _ _ H) _ (get_key _ _ _ E2)). pose proof (wi_ids _ _ _ _ _ H). lia. }
    assert (Ha : In pa ((id, n) :: r)) by (rewrite S1; apply in_or_app; right; left; reflexivity).
    assert (Hb : In pb ((id, n) :: r)) by (rewrite S1, S4; apply in_or_app; right; right; apply in_or_app; right; left; reflexivity).
    destruct (SH pa a an Ha Pa A1) as [<- Ea]. destruct (SH pb b bn Hb Pb B1) as [<- Eb]. subst an bn ta tb.
    rewrite S1 in R3. clear - R3 S4. induction s1 as [|q s1 IH]; cbn [app] in R3; inversion R3 as [|? ? Q1 Q2]; subst; [|auto].
    rewrite Forall_forall in Q2. apply Q2. apply in_or_app. right. left. reflexivity.
Qed.
Print Assumptions C40_chain_partial.
Example C40_chain_ex : exists w, after (ex1 ++ [CCreate false; CTick 2; CCreate false; CDelete 2]) = Some w /\ In 3 (get_checkpoints (w_ck w)) /\
  checkpoint_chain (w_ck w) 3 = Done [3; no_id; 1; 0] /\ get_checkpoints_at (w_ck w) 12 = [3] /\ get_checkpoints_at (w_ck w) 8 = [1].
Proof. eexists. split; [vm_compute; reflexivity|]. split; [vm_compute; auto|]. repeat (split; [vm_compute; reflexivity|]). vm_compute. reflexivity. Qed.

(** findLatestCheckpointAtOrBefore gives the first checkpoint of the chain whose tick is small enough, and none if there is none. *)
Theorem C40_find_latest_partial : forall sh cs w0 ops w from tick, begun sh cs w0 -> Forall op_ok ops -> crun sh w0 ops = Some w ->
  In from (get_checkpoints (w_ck w)) ->
  exists ch res, checkpoint_chain (w_ck w) from = Done ch /\ find_latest (w_ck w) tick from = Done res /\
    match res with
    | None => forall i t, In i ch -> In i (get_checkpoints_at (w_ck w) t) -> tick < t
    | Some x => exists r1 r2, ch = r1 ++ id_of (w_ck w) x :: r2 /\
        (forall t, In (id_of (w_ck w) x) (get_checkpoints_at (w_ck w) t) -> t <= tick) /\
        (forall i t, In i r1 -> In i (get_checkpoints_at (w_ck w) t) -> tick < t)
    end.
Proof.
  intros sh cs w0 ops w from tick HB HO HR HL. destruct (reach _ _ _ _ _ HB HO HR) as [Wf [Cap HI]]. pose proof (INV_sorted cs w HI) as SO.
  apply (live_listed _ SO) in HL. destruct HL as [n [G DN]]. destruct HI as [[fs H]|[h [c [fs H]]]]; [rewrite (w0_nodes _ _ _ H) in G; discriminate|].
  unfold checkpoint_chain, find_latest. rewrite (wi_head _ _ _ _ _ H), G.
  destruct (prev_chain_ok _ _ _ _ (wi_tree _ _ _ _ _ H) (depth (w_ck w)) from n) as [r [R1 [R2 [R3 R4]]]]; [unfold depth; pose proof (below_le from (k_nodes (w_ck w))); lia|exact G|].
  rewrite R1. cbn [obind]. assert (AL : forall p, In p ((from, n) :: r) -> get (fst p) (k_nodes (w_ck w)) = Some (snd p)).
  { intros p [<-|Hp]; [exact G|]. rewrite Forall_forall in R2. apply (R2 p Hp). }
  assert (TK : forall p t, get (fst p) (k_nodes (w_ck w)) = Some (snd p) -> In (shown p) (get_checkpoints_at (w_ck w) t) -> t = n_tick (snd p)).
  { intros p t E1 E2. destruct (in_at _ _ _ SO E2) as [m [M1 [M2 M3]]]. unfold shown in M1. destruct (n_dead (snd p)); [|congruence].
    exfalso. pose proof (ti_next _ _ _ _ (wi_tree _ _ _ _ _ H) _ (get_key _ _ _ M1)). pose proof (wi_ids _ _ _ _ _ H). lia. }
  eexists _, _. split; [reflexivity|]. split; [reflexivity|]. clear R1 R2 R3 R4. induction ((from, n) :: r) as [|p l IH]; [intros i t []|].
  cbn [find]. destruct (N.leb_spec (n_tick (snd p)) tick) as [L|L].
  - cbn [option_map]. exists [], (map shown l). assert (Gp := AL p (or_introl eq_refl)).
    assert (E : id_of (w_ck w) (fst p) = shown p) by (unfold id_of; rewrite Gp; destruct p; reflexivity). rewrite E. split; [reflexivity|].
    split; [|intros i t []]. intros t Ht. rewrite (TK p t Gp Ht). exact L.
  - specialize (IH (fun q Hq => AL q (or_intror Hq))). destruct (find _ l) as [q|]; cbn [option_map] in *.
    + destruct IH as [r1 [r2 [I1 [I2 I3]]]]. exists (shown p :: r1), r2. split; [cbn [map app]; rewrite I1; reflexivity|]. split; [exact I2|].
      intros i t [<-|Hi] Ht; [|eauto]. rewrite (TK p t (AL p (or_introl eq_refl)) Ht). exact L.
    + intros i t Hi Ht. cbn [map] in Hi. destruct Hi as [<-|Hi]; [|eauto]. rewrite (TK p t (AL p (or_introl eq_refl)) Ht). exact L.
Qed.
Print Assumptions C40_find_latest_partial.
Example C40_find_latest_ex : exists w, after (ex1 ++ [CCreate false; CTick 2; CCreate false]) = Some w /\ In 3 (get_checkpoints (w_ck w)) /\
  find_latest (w_ck w) 11 3 = Done (Some 2) /\ find_latest (w_ck w) 4 3 = Done None.
Proof. eexists. split; [vm_compute; reflexivity|]. split; [vm_compute; auto|]. split; vm_compute; reflexivity. Qed.

(** A deleted checkpoint that a live one depends on is still found, and can be loaded and deleted again. *)
Theorem C40_deleted_available_refuted : exists w w', after [CHead; CWrite 0 0 [1]; CCreate false; CWrite 0 0 [2]; CCreate false; CDelete 1] = Some w /\
  get_checkpoints (w_ck w) = [0; 2] /\ has_checkpoint (w_ck w) 1 = true /\ cstep ns w (CLoad 1) = Done w' /\
  map (fun a => mem_read ns a 0 1) (w_dats w') = [Done [1]; Done [205]] /\ current_id (w_ck w') = no_id.
Proof. eexists _, _. repeat (split; [vm_compute; reflexivity|]). vm_compute. reflexivity. Qed.
Print Assumptions C40_deleted_available_refuted.
(** The head can be deleted (documented to throw); getHeadID, documented to be valid from then on, is then unidentified. *)
Theorem C40_head_delete_refuted : exists w w', after [CHead] = Some w /\ head_id (w_ck w) = 0 /\ cstep ns w (CDelete 0) = Done w' /\
  head_id (w_ck w') = no_id /\ get_checkpoints (w_ck w') = [].
Proof. eexists _, _. repeat (split; [vm_compute; reflexivity|]). vm_compute. reflexivity. Qed.
Print Assumptions C40_head_delete_refuted.
(** Deleting the current checkpoint leaves it current; it is documented to move back to one that is not deleted. *)
Theorem C40_current_moves_refuted : exists w w', after [CHead; CTick 7; CCreate false] = Some w /\ current_id (w_ck w) = 1 /\
  cstep ns w (CDelete 1) = Done w' /\ get_checkpoints (w_ck w') = [0] /\ current_id (w_ck w') = no_id /\ current_tick (w_ck w') = 12.
Proof. eexists _, _. repeat (split; [vm_compute; reflexivity|]). vm_compute. reflexivity. Qed.
Print Assumptions C40_current_moves_refuted.
(** getCheckpointChain is documented to have the head in front. *)
Theorem C40_chain_order_refuted : exists w, after [CHead; CCreate false] = Some w /\ head_id (w_ck w) = 0 /\ checkpoint_chain (w_ck w) 1 = Done [1; 0].
Proof. eexists. repeat (split; [vm_compute; reflexivity|]). vm_compute. reflexivity. Qed.
Print Assumptions C40_chain_order_refuted.
(** findLatestCheckpointAtOrBefore can give a deleted checkpoint. *)
Theorem C40_find_latest_deleted_refuted : exists w x, after [CHead; CTick 1; CCreate false; CTick 1; CCreate false; CDelete 1] = Some w /\
  find_latest (w_ck w) 6 2 = Done (Some x) /\ id_of (w_ck w) x = no_id.
Proof. eexists _, _. repeat (split; [vm_compute; reflexivity|]). vm_compute. reflexivity. Qed.
Print Assumptions C40_find_latest_deleted_refuted.
