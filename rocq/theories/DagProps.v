(** Properties C06-C09: the precedence graph, and its effect on firing order. *)
From Coq Require Import List NArith Arith Bool Lia Relations.
From Verif Require Import DagModel DagProofs.
From Verif Require SchedModel SchedProps.
Import ListNotations.

(* ---- Specification vocabulary ---- *)
(* The links a call establishes. Vertices 0..6 are the phase markers, the others belong to events. *)
Definition adds (o : dop) (x y : vertex) : Prop :=
  match o with
  | DLink v w => x = v /\ y = w /\ v <> w
  | DUnlink _ _ => False
  | DPhase v p => 7 <= v /\ p < 7 /\ ((S x = p /\ y = v) \/ (x = v /\ y = p))
  end.
(* The link an unlink call removes. *)
Definition removes (o : dop) (x y : vertex) : Prop :=
  match o with DUnlink v w => 7 <= v /\ 7 <= w /\ x = v /\ y = w | _ => False end.
(* Links present after a sequence of calls: the fixed chain of phases, and every link
   established and not removed since. *)
Definition linked (ops : list dop) (x y : vertex) : Prop :=
  (x < 6 /\ y = S x) \/
  exists a o b, ops = a ++ o :: b /\ adds o x y /\ (forall r, In r b -> ~ removes r x y).
Definition cyclic (ops : list dop) : Prop := exists x, clos_trans vertex (linked ops) x x.
Definition mentioned (ops : list dop) (x : vertex) : Prop := exists y, linked ops x y \/ linked ops y x.

(* ---- The model's graph holds exactly these links ---- *)
Lemma linked_snoc : forall ops o x y,
  linked (ops ++ [o]) x y <-> adds o x y \/ (linked ops x y /\ ~ removes o x y).
Proof.
  intros ops o x y. unfold linked. split.
  - intros [H|(a & q & b & E & H1 & H2)].
    + right. split; auto. intros K. destruct o; simpl in K; try easy. lia.
    + destruct b as [|b0 b] using rev_ind.
      * apply app_inj_tail in E. destruct E as [_ <-]. auto.
      * right. rewrite app_comm_cons, app_assoc in E. apply app_inj_tail in E. destruct E as [-> ->]. split.
        -- right. exists a, q, b. split; auto. split; auto. intros r Hr. apply H2. apply in_or_app. auto.
        -- apply H2. apply in_or_app. simpl; auto.
  - intros [H|[[H|(a & q & b & -> & H1 & H2)] H3]].
    + right. exists ops, o, []. split; auto.
    + auto.
    + right. exists a, q, (b ++ [o]). split; [rewrite <- app_assoc; reflexivity|]. split; auto.
      intros r Hr. apply in_app_or in Hr. destruct Hr as [Hr|[<-|[]]]; auto.
Qed.

Lemma init_edges : forall x y, In y (d_out d_init x) <-> x < 6 /\ y = S x.
Proof.
  intros x y. do 6 (destruct x as [|x]; [simpl; split; [intros [<-|[]]; lia|intros [_ ->]; auto]|]).
  simpl. split; [easy|lia].
Qed.

Lemma build_snoc : forall ops o, build (ops ++ [o]) = dop_step (build ops) o.
Proof. intros. unfold build. rewrite fold_left_app. reflexivity. Qed.

Lemma build_edges : forall ops x y, In y (d_out (build ops) x) <-> linked ops x y.
Proof.
  induction ops as [|o ops IH] using rev_ind; intros x y.
  - change (build []) with d_init. rewrite init_edges. unfold linked. split; auto.
    intros [H|(a & o & b & E & _)]; auto. destruct a; discriminate.
  - rewrite build_snoc, linked_snoc. pose proof (build_wf ops) as W. destruct o as [v w|v w|v p]; simpl.
    + rewrite link_edges by auto. rewrite IH. split; [intros [K|(-> & -> & K)]; auto|intros [(-> & -> & K)|[K _]]; auto].
    + destruct (Nat.ltb_spec v num_phases) as [L|L]; simpl.
      { rewrite IH. unfold num_phases in L. split; [intros K; right; split; auto; lia|tauto]. }
      destruct (Nat.ltb_spec w num_phases) as [L'|L']; simpl.
      { rewrite IH. unfold num_phases in L'. split; [intros K; right; split; auto; lia|tauto]. }
      destruct (unlink_wf _ v w W) as (d' & b & -> & _ & _ & HE). rewrite HE, IH. unfold num_phases in *.
      split; [intros [K1 K2]; right; split; auto; intros K; apply K2; tauto|].
      intros [[]|[K1 K2]]. split; [exact K1|]. intros [Ex Ey]. apply K2. auto.
    + destruct (Nat.ltb_spec p num_phases) as [L|L]; simpl.
      2:{ rewrite IH. unfold num_phases in L. split; [intros K; right; auto|intros [K|[K _]]; auto; lia]. }
      destruct (Nat.ltb_spec v num_phases) as [L'|L']; simpl.
      { rewrite IH. unfold num_phases in L'. split; [intros K; right; auto|intros [K|[K _]]; auto; lia]. }
      unfold num_phases in *. unfold phase_links. destruct p.
      * rewrite link_edges by auto. rewrite IH. split.
        -- intros [K|(-> & -> & K)]; [right; split; auto|]. left. split; [exact L'|]. split; [exact L|auto].
        -- intros [(_ & _ & [[K _]|[-> ->]])|[K _]]; auto; [discriminate|]. right. lia.
      * rewrite link_edges by (apply link_wf; auto). rewrite link_edges by auto. rewrite IH. split.
        -- intros [[K|(-> & -> & K)]|(-> & -> & K)]; [right; split; auto| |]; left; (split; [exact L'|]); (split; [exact L|auto]).
        -- intros [(_ & _ & [[K ->]|[-> ->]])|[K _]]; auto.
           ++ injection K as ->. left. right. split; auto. split; auto. lia.
           ++ right. split; auto. split; auto. lia.
Qed.

Lemma linked_cycle : forall ops x y, clos_trans vertex (linked ops) x y <-> reach (d_out (build ops)) x y.
Proof.
  intros. unfold reach. split; intros H; induction H; try (eapply t_trans; eauto; fail); apply t_step; apply build_edges; auto.
Qed.

(* ================= C06 ================= *)
Theorem C06_links_respected : forall ops gid g,
  sort (build ops) = Sorted gid g ->
  (forall a b, linked ops a b -> gid a < gid b) /\
  (forall a, mentioned ops a -> 1 <= gid a <= g).
Proof.
  intros ops gid g H. pose proof (build_wf ops) as W. unfold sort in H.
  destruct (kahn_spec _ W _ _ _ _ (kahn_init _ W)) as [(gid' & g' & P & E & K)|(P & k & vc & E & _)]; [|congruence].
  rewrite E in H. injection H as <- <-. destruct K. simpl in *.
  assert (All : forall v, In v (d_verts (build ops)) -> In v P).
  { rewrite app_nil_r in *. intros v. apply NoDup_length_incl; auto. lia. }
  split.
  - intros a b Hab. apply build_edges in Hab. apply K_gid; auto. apply All. apply (wf_edge _ W a b Hab).
  - intros a (b & Hab). split; auto. apply K_grp. apply All.
    destruct Hab as [Hab|Hab]; apply build_edges in Hab; apply (wf_edge _ W _ _ Hab).
Qed.
(* Events 10, 11, 12 with 10 -> 11 -> 12, a link 10 -> 12, and a removed link 12 -> 10. *)
Definition ops_ex : list dop :=
  [DLink 12 10; DLink 10 11; DLink 11 12; DLink 10 12; DUnlink 12 10; DPhase 10 5; DPhase 13 4].
Example C06_ex : exists gid g, sort (build ops_ex) = Sorted gid g /\
  map gid [10; 11; 12; 13] = [7; 8; 9; 5] /\ g = 9 /\ linked ops_ex 10 11 /\ ~ linked ops_ex 12 10.
Proof.
  destruct (sort (build ops_ex)) eqn:E; vm_compute in E; try discriminate. exists gid, groups. split; auto.
  injection E as <- <-. split; [vm_compute; reflexivity|]. split; [reflexivity|]. split.
  - apply build_edges. vm_compute. auto.
  - intros K. apply build_edges in K. vm_compute in K. easy.
Qed.
Print Assumptions C06_links_respected.

(* Consequence for the user: with the scheduler configured from the sorted graph, when a -> b is
   linked and both fire in the same tick, b never fires before a. Events that are not in the graph
   keep group 0. *)
Definition sched_cfg (ops : list dop) (gid : vertex -> nat) (g : nat) (uniq : nat -> bool) : SchedModel.cfg :=
  SchedModel.mkCfg g (fun n => if mem (7 + n) (d_verts (build ops)) then gid (7 + n) else 0) uniq.

Lemma verts_linked : forall ops a b, linked ops a b -> mem a (d_verts (build ops)) = true /\ mem b (d_verts (build ops)) = true.
Proof.
  intros ops a b H. apply build_edges in H. apply (wf_edge _ (build_wf ops)) in H. rewrite !mem_In. tauto.
Qed.

Theorem C06_precedence_observed : forall ops gid g uniq a b acts x y z i j ga gb t,
  sort (build ops) = Sorted gid g -> linked ops (7 + a) (7 + b) ->
  SchedProps.trace (sched_cfg ops gid g uniq) acts =
    x ++ SchedModel.OFire i (SchedModel.User b) t gb :: y ++ SchedModel.OFire j (SchedModel.User a) t ga :: z ->
  SchedProps.no_restart y -> False.
Proof.
  intros ops gid g uniq a b acts x y z i j ga gb t HS HL HT HR.
  destruct (C06_links_respected _ _ _ HS) as [H1 H2].
  pose proof (H1 _ _ HL) as Hlt.
  assert (Ha : 1 <= gid (7 + a) <= g) by (apply H2; exists (7 + b); auto).
  assert (Hb : 1 <= gid (7 + b) <= g) by (apply H2; exists (7 + a); auto).
  destruct (SchedProps.C01_firing_order _ _ _ _ _ _ _ _ _ _ _ _ _ HT HR) as (G1 & G2 & O).
  destruct (verts_linked _ _ _ HL) as [Va Vb].
  unfold SchedModel.ev_group, SchedModel.firing_group, SchedModel.ev_gid, sched_cfg in G1, G2.
  cbv beta iota delta [SchedModel.c_gid] in G1, G2. rewrite Va in G2. rewrite Vb in G1.
  destruct (Nat.eqb_spec (gid (7 + a)) 0); [lia|]. destruct (Nat.eqb_spec (gid (7 + b)) 0); [lia|].
  destruct O as [O|[[_ O]|[_ [O _]]]]; lia.
Qed.
(* 10 -> 11 as events 3 and 4: event 4 is scheduled first, event 3 fires first. *)
Example C06_observed_ex : linked ops_ex (7 + 3) (7 + 4) /\
  exists gid g, sort (build ops_ex) = Sorted gid g /\
  SchedProps.trace (sched_cfg ops_ex gid g (fun _ => false))
    ([SchedModel.ACmd (SchedModel.CSchedule 4 1 true); SchedModel.ACmd (SchedModel.CSchedule 3 1 true);
      SchedModel.ARun None true] ++ repeat SchedModel.AStep 30) =
  [SchedModel.OSched 0 (SchedModel.User 4) 1 9; SchedModel.OSched 1 (SchedModel.User 3) 1 8;
   SchedModel.OFire 1 (SchedModel.User 3) 1 8; SchedModel.OFire 0 (SchedModel.User 4) 1 9].
Proof.
  split; [apply build_edges; vm_compute; auto|].
  destruct (sort (build ops_ex)) eqn:E; vm_compute in E; try discriminate. exists gid, groups. split; auto.
  injection E as <- <-. vm_compute. reflexivity.
Qed.
Print Assumptions C06_precedence_observed.

(* The group numbers always fit the scheduler's firing groups: the hypothesis of C04. *)
Theorem C06_groups_fit : forall ops gid g uniq n,
  sort (build ops) = Sorted gid g ->
  SchedModel.c_gid (sched_cfg ops gid g uniq) n <= SchedModel.c_groups (sched_cfg ops gid g uniq).
Proof.
  intros ops gid g uniq n H. unfold sched_cfg. cbv beta iota delta [SchedModel.c_gid SchedModel.c_groups]. pose proof (build_wf ops) as W. unfold sort in H.
  destruct (kahn_spec _ W _ _ _ _ (kahn_init _ W)) as [(gid' & g' & P & E & K)|(P & k & vc & E & _)]; [|congruence].
  rewrite E in H. injection H as <- <-. destruct K. cbn [k_gid k_inb k_z] in *.
  destruct (mem (7 + n) (d_verts (build ops))) eqn:M'; [|lia]. apply K_grp. apply mem_In in M'.
  rewrite app_nil_r in *. revert M'. apply NoDup_length_incl; auto. lia.
Qed.
Example C06_fit_ex : exists gid g, sort (build ops_ex) = Sorted gid g /\
  map (SchedModel.c_gid (sched_cfg ops_ex gid g (fun _ => false))) [3; 4; 99] = [7; 8; 0] /\ g = 9.
Proof.
  destruct (sort (build ops_ex)) eqn:E; vm_compute in E; try discriminate. exists gid, groups. split; auto.
  injection E as <- <-. vm_compute. auto.
Qed.
Print Assumptions C06_groups_fit.

(* ================= C07 ================= *)
Theorem C07_fails_iff_cyclic : forall ops,
  (sort (build ops) = CycleExc <-> cyclic ops) /\ sort (build ops) <> SortAssert.
Proof.
  intros ops. pose proof (build_wf ops) as W. unfold sort.
  destruct (kahn_spec _ W _ _ _ _ (kahn_init _ W)) as [(gid' & g' & P & E & K)|(P & k & vc & E & Hvc & Hz & g & K)];
    rewrite E; (split; [|discriminate]).
  - split; [discriminate|]. intros (x & H). exfalso.
    assert (S : sort (build ops) = Sorted gid' g') by exact E.
    destruct (C06_links_respected _ _ _ S) as [H1 _].
    assert (M : forall u v, clos_trans vertex (linked ops) u v -> gid' u < gid' v).
    { intros u v R. induction R; auto. lia. }
    apply M in H. lia.
  - split; auto. intros _. destruct K. rewrite Hz in *. rewrite app_nil_r in *.
    set (R := filter (fun v => negb (mem v P)) (d_verts (build ops))).
    destruct (chain_cycle (fun y x => In x (d_out (build ops) y)) R) as (x & Hx).
    + (* something is left over *)
      intros HR. assert (incl (d_verts (build ops)) P).
      { intros v Hv. destruct (mem v P) eqn:M; [apply mem_In; auto|].
        assert (In v R) by (apply filter_In; split; auto; rewrite M; auto). rewrite HR in H. easy. }
      apply NoDup_incl_length in H; [lia|apply W].
    + intros x Hx. apply filter_In in Hx. destruct Hx as [Hx HP].
      assert (~ k_inb k x = 0).
      { rewrite <- K_zero by auto. intros K. apply mem_In in K. rewrite K in HP. discriminate. }
      rewrite K_inb in H. unfold rem in H.
      destruct (filter (fun v => mem x (d_out (build ops) v) && negb (mem v P)) (d_verts (build ops))) as [|u l] eqn:F; [simpl in H; lia|].
      assert (Hu : In u (u :: l)) by (left; auto). rewrite <- F in Hu. apply filter_In in Hu. destruct Hu as [Hu1 Hu2].
      apply andb_prop in Hu2. destruct Hu2 as [Hu2 Hu3]. exists u. split; [apply filter_In; auto|apply mem_In; auto].
    + exists x. apply linked_cycle. exact Hx.
Qed.
Example C07_ex : sort (build [DLink 10 11; DLink 11 12; DLink 12 10]) = CycleExc /\
  cyclic [DLink 10 11; DLink 11 12; DLink 12 10] /\
  exists gid g, sort (build [DLink 10 11; DLink 11 12; DLink 12 10; DUnlink 12 10]) = Sorted gid g.
Proof.
  assert (E : sort (build [DLink 10 11; DLink 11 12; DLink 12 10]) = CycleExc) by (vm_compute; reflexivity).
  split; auto. split; [apply C07_fails_iff_cyclic; auto|]. eexists; eexists. vm_compute. reflexivity.
Qed.
Print Assumptions C07_fails_iff_cyclic.

(* The assertion inside unlink never fires. *)
Theorem C07_unlink_never_asserts : forall ops v w, unlink (build ops) v w <> UnlinkAssert.
Proof. intros. destruct (unlink_wf _ v w (build_wf ops)) as (d' & b & -> & _). discriminate. Qed.
Example C07_unlink_ex : exists d, unlink (build [DLink 10 11]) 10 11 = Unlinked d true.
Proof. eexists. vm_compute. reflexivity. Qed.
Print Assumptions C07_unlink_never_asserts.

(* ================= C08 ================= *)
Theorem C08_detect_exact : forall ops, exists b, detect_cycle (build ops) = Some b /\ (b = true <-> cyclic ops).
Proof.
  intros ops. pose proof (build_wf ops) as W. unfold detect_cycle.
  pose proof (dfs_all_spec (d_out (build ops)) (d_verts (build ops)) (wf_nd _ W)
     (fun v w H => proj2 (proj2 (wf_edge _ W v w H))) (S (length (d_verts (build ops)))) (d_verts (build ops)) (fun _ => White)) as P.
  assert (P' : match dfs_all (d_out (build ops)) (S (length (d_verts (build ops)))) (d_verts (build ops)) (fun _ => White) with
       | Some true => exists x, reach (d_out (build ops)) x x
       | Some false => forall x, In x (d_verts (build ops)) -> ~ reach (d_out (build ops)) x x
       | None => False end).
  { apply P; auto.
    - apply incl_refl.
    - unfold whites. simpl. clear. induction (d_verts (build ops)); simpl in *; lia.
    - split; intros; discriminate.
    - intros; discriminate. }
  clear P. destruct (dfs_all _ _ _ _) as [[|]|]; [| |easy].
  - exists true. split; auto. split; auto. intros _. destruct P' as (x & Hx). exists x. apply linked_cycle; auto.
  - exists false. split; auto. split; [discriminate|]. intros (x & Hx). exfalso. apply linked_cycle in Hx.
    apply (P' x); auto. apply clos_trans_t1n in Hx. inversion Hx; subst; apply (wf_edge _ W _ _ H).
Qed.
Example C08_detect_ex : detect_cycle (build [DLink 10 11; DLink 11 12; DLink 12 11]) = Some true /\
  detect_cycle (build ops_ex) = Some false.
Proof. vm_compute. auto. Qed.
Print Assumptions C08_detect_exact.

(* When the graph is cyclic the reported list is a non-empty walk along links whose last vertex has
   a link back into the list, so that printing it trips no assertion; otherwise it is empty. *)
Theorem C08_reported_cycle_real : forall ops, exists l, get_cycles (build ops) = Some l /\
  (l <> [] <-> cyclic ops) /\
  (l <> [] -> (forall p q a b, l = p ++ a :: b :: q -> linked ops a b) /\
              (exists w, In w l /\ linked ops (last l 0) w) /\
              write_text (d_out (build ops)) l = true).
Proof.
  intros ops. destruct (C08_detect_exact ops) as (b & Hd & Hb). unfold detect_cycle in Hd. unfold get_cycles.
  set (out := d_out (build ops)) in *. set (n := S (length (d_verts (build ops)))) in *.
  destruct (find_all_dfs out n (d_verts (build ops)) (fun _ => White)) as [E|(v & m & _ & Hv & Hw & m2 & F)].
  2:{ exfalso. assert (Hm : m v = White) by (destruct (m v); easy).
      assert (HNE : forall f m v l m', find out f m v = Some (Some l, m') -> l <> []).
      { clear. induction f; intros m v l m' H; [discriminate|]. rewrite find_unfold in H.
        generalize dependent (fupd m v Gray). induction (out v) as [|w ws IH]; simpl; intros m1 H; [discriminate|].
        destruct (m1 w); eauto.
        - destruct (find out f m1 w) as [[[l1|] m2]|]; try discriminate; eauto. injection H as <- <-. discriminate.
        - injection H as <- <-. discriminate. }
      eapply HNE; eauto. }
  rewrite Hd in E. destruct (find_all out n (d_verts (build ops)) (fun _ => White)) as [l|] eqn:FA; [|discriminate].
  exists l. split; auto. split.
  - rewrite <- Hb. destruct l; injection E as ->; split; congruence.
  - intros HN. destruct (find_all_path out n _ _ _ FA HN) as (v & P1 & P2); [intros; discriminate|].
    assert (EL : forall d, last l d = last l 0).
    { intros d. clear - HN. induction l as [|x l IH]; [congruence|]. simpl. destruct l; auto. apply IH. discriminate. }
    split; [|split].
    + clear - P1. intros p q a b ->. apply build_edges. fold out. revert v P1.
      induction p; simpl; intros v P1; [tauto|]. destruct P1 as [_ P1]. eauto.
    + destruct (path_next out l v (last l v) P1 HN P2) as (x & K1 & K2). exists x. split; auto.
      apply build_edges. rewrite <- (EL v). auto.
    + unfold write_text. destruct l as [|a l]; [congruence|]. rewrite (path_write out _ v P1). rewrite andb_true_l.
      apply existsb_exists. destruct (path_next out _ v _ P1 HN P2) as (x & K1 & K2). exists x. split; auto.
      apply mem_In. rewrite (EL a), <- (EL v). auto.
Qed.
Example C08_reported_ex : get_cycles (build [DLink 10 11; DLink 11 12; DLink 12 13; DLink 13 11]) = Some [11; 12; 13; 11] /\
  get_cycles (build ops_ex) = Some [].
Proof. vm_compute. auto. Qed.
Print Assumptions C08_reported_cycle_real.

(* With early detection, link throws exactly when the new link leaves the graph cyclic. *)
Theorem C08_early_detection : forall ops v w, v <> w -> ~ linked ops v w ->
  exists d b, link_early (build ops) v w = Some (d, b) /\ (b = true <-> cyclic (ops ++ [DLink v w])).
Proof.
  intros ops v w Hne HL. unfold link_early.
  assert (E : fst (link (build ops) v w) = build (ops ++ [DLink v w])) by (rewrite build_snoc; reflexivity).
  destruct (link (build ops) v w) as [d' added] eqn:EL. simpl in E. subst d'.
  pose proof (link_cases _ _ _ _ _ EL) as C. cbv zeta in C.
  destruct C as [(-> & _ & [C|C])|(-> & _)].
  - congruence.
  - exfalso. apply HL. apply build_edges.
    destruct (register_wf _ v (build_wf ops)) as (W1 & _ & O1 & _).
    destruct (register_wf _ w W1) as (_ & _ & O2 & _). rewrite O2, O1 in C. auto.
  - destruct (C08_detect_exact (ops ++ [DLink v w])) as (b & -> & Hb). exists (build (ops ++ [DLink v w])), b. auto.
Qed.
Example C08_early_ex : option_map snd (link_early (build [DLink 10 11]) 11 10) = Some true /\
  option_map snd (link_early (build [DLink 10 11]) 10 12) = Some false.
Proof. vm_compute. auto. Qed.
Print Assumptions C08_early_detection.

(* Linking two vertices again, or a vertex to itself, changes no edge and never throws. *)
Theorem C08_early_relink : forall ops v w, v = w \/ linked ops v w ->
  exists d, link_early (build ops) v w = Some (d, false) /\ forall x, d_out d x = d_out (build ops) x.
Proof.
  intros ops v w H. unfold link_early. destruct (link (build ops) v w) as [d' added] eqn:EL.
  pose proof (link_cases _ _ _ _ _ EL) as C. cbv zeta in C.
  destruct (register_wf _ v (build_wf ops)) as (W1 & _ & O1 & _).
  destruct (register_wf _ w W1) as (_ & _ & O2 & _). rewrite O2, O1 in C.
  destruct C as [(-> & -> & _)|(-> & C1 & C2 & _)].
  - exists (register (register (build ops) v) w). split; [reflexivity|]. intros x. rewrite O2, O1. reflexivity.
  - exfalso. destruct H as [->|H]; [congruence|]. apply C2. apply build_edges. exact H.
Qed.
Example C08_early_relink_ex : linked [DLink 10 11; DLink 11 10] 10 11 /\
  option_map snd (link_early (build [DLink 10 11; DLink 11 10]) 10 11) = Some false.
Proof. split; [|vm_compute; reflexivity]. apply build_edges. vm_compute. auto. Qed.
Print Assumptions C08_early_relink.

(* ================= C09 ================= *)
Lemma phase_linked : forall ops v p, In (DPhase v p) ops -> 7 <= v -> p < 7 ->
  linked ops v p /\ (forall q, S q = p -> linked ops q v).
Proof.
  intros ops v p H Hv Hp. apply in_split in H. destruct H as (a & b & ->). split.
  - right. exists a, (DPhase v p), b. split; auto. split; [simpl; auto|]. intros r _ K. destruct r; simpl in K; try easy. lia.
  - intros q Hq. right. exists a, (DPhase v p), b. split; auto. split; [simpl; auto|]. intros r _ K. destruct r; simpl in K; try easy. lia.
Qed.

Theorem C09_phases_ordered : forall ops gid g a p b q,
  sort (build ops) = Sorted gid g ->
  In (DPhase a p) ops -> In (DPhase b q) ops -> 7 <= a -> 7 <= b -> q < 7 -> p < q ->
  gid a < gid b.
Proof.
  intros ops gid g a p b q HS Ha Hb La Lb Lq Lpq.
  destruct (C06_links_respected _ _ _ HS) as [H1 _].
  assert (HC : forall i, i < 6 -> gid i < gid (S i)) by (intros i Hi; apply H1; left; auto).
  assert (HM : forall k, p + k < 7 -> gid p <= gid (p + k)).
  { induction k; intros; [rewrite Nat.add_0_r; lia|]. rewrite Nat.add_succ_r. pose proof (HC (p + k)). lia. }
  destruct (phase_linked ops a p Ha La) as [K1 _]; [lia|].
  destruct (phase_linked ops b q Hb Lb Lq) as [_ K2]. destruct q as [|q]; [lia|].
  apply H1 in K1. specialize (K2 q eq_refl). apply H1 in K2.
  pose proof (HM (q - p)) as L. replace (p + (q - p)) with q in L by lia. lia.
Qed.
(* Phases Trigger (0), Update (1) and PostTick (6), with a user link inside a phase. *)
Example C09_ex : exists gid g, sort (build [DPhase 20 6; DPhase 21 1; DPhase 22 0; DPhase 23 1; DLink 23 21]) = Sorted gid g /\
  map gid [22; 23; 21; 20] = [1; 3; 4; 10].
Proof. eexists; eexists. split; [vm_compute; reflexivity|]. vm_compute. reflexivity. Qed.
Print Assumptions C09_phases_ordered.

(* Seen by the user: in one tick no event of a later phase fires before an event of an earlier one. *)
Theorem C09_phases_observed : forall ops gid g uniq a p b q acts x y z i j ga gb t,
  sort (build ops) = Sorted gid g ->
  In (DPhase (7 + a) p) ops -> In (DPhase (7 + b) q) ops -> q < 7 -> p < q ->
  SchedProps.trace (sched_cfg ops gid g uniq) acts =
    x ++ SchedModel.OFire i (SchedModel.User b) t gb :: y ++ SchedModel.OFire j (SchedModel.User a) t ga :: z ->
  SchedProps.no_restart y -> False.
Proof.
  intros ops gid g uniq a p b q acts x y z i j ga gb t HS Ha Hb Lq Lpq HT HR.
  pose proof (C09_phases_ordered ops gid g _ _ _ _ HS Ha Hb ltac:(lia) ltac:(lia) Lq Lpq) as Hlt.
  destruct (phase_linked ops _ p Ha) as [Ka _]; [lia|lia|]. destruct (phase_linked ops _ q Hb) as [Kb _]; [lia|lia|].
  destruct (C06_links_respected _ _ _ HS) as [_ H2].
  assert (Ga : 1 <= gid (7 + a)) by (apply H2; eexists; eauto).
  assert (Gb : 1 <= gid (7 + b)) by (apply H2; eexists; eauto).
  destruct (SchedProps.C01_firing_order _ _ _ _ _ _ _ _ _ _ _ _ _ HT HR) as (G1 & G2 & O).
  destruct (verts_linked _ _ _ Ka) as [Va _]. destruct (verts_linked _ _ _ Kb) as [Vb _].
  unfold SchedModel.ev_group, SchedModel.firing_group, SchedModel.ev_gid, sched_cfg in G1, G2.
  cbv beta iota delta [SchedModel.c_gid] in G1, G2. rewrite Va in G2. rewrite Vb in G1.
  destruct (Nat.eqb_spec (gid (7 + a)) 0); [lia|]. destruct (Nat.eqb_spec (gid (7 + b)) 0); [lia|].
  destruct O as [O|[[_ O]|[_ [O _]]]]; lia.
Qed.
Example C09_observed_ex : let ops := [DPhase (7 + 0) 6; DPhase (7 + 1) 1] in
  exists gid g, sort (build ops) = Sorted gid g /\
  SchedProps.trace (sched_cfg ops gid g (fun _ => false))
    ([SchedModel.ACmd (SchedModel.CSchedule 0 1 true); SchedModel.ACmd (SchedModel.CSchedule 1 1 true);
      SchedModel.ARun None true] ++ repeat SchedModel.AStep 30) =
  [SchedModel.OSched 0 (SchedModel.User 0) 1 9; SchedModel.OSched 1 (SchedModel.User 1) 1 3;
   SchedModel.OFire 1 (SchedModel.User 1) 1 3; SchedModel.OFire 0 (SchedModel.User 0) 1 9].
Proof. eexists; eexists. split; [vm_compute; reflexivity|]. vm_compute. reflexivity. Qed.
Print Assumptions C09_phases_observed.
