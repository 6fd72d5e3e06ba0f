(** Lemmas for the precedence graph. *)
From Coq Require Import List Arith Bool Lia Relations ListDec.
From Verif Require Import DagModel.
Import ListNotations.

Definition edge (out : vertex -> list vertex) (v w : vertex) : Prop := In w (out v).
Definition reach (out : vertex -> list vertex) := clos_trans vertex (edge out).

Lemma mem_In : forall v l, mem v l = true <-> In v l.
Proof.
  intros. unfold mem. rewrite existsb_exists. split.
  - intros (x & H & E). apply Nat.eqb_eq in E. subst. auto.
  - intros. exists v. split; auto. apply Nat.eqb_refl.
Qed.
Lemma mem_false : forall v l, mem v l = false <-> ~ In v l.
Proof. intros. rewrite <- mem_In. destruct (mem v l); split; congruence. Qed.

Lemma fupd_eq : forall {A} (f : vertex -> A) v x, fupd f v x v = x.
Proof. intros. unfold fupd. rewrite Nat.eqb_refl. auto. Qed.
Lemma fupd_neq : forall {A} (f : vertex -> A) v x w, w <> v -> fupd f v x w = f w.
Proof. intros. unfold fupd. destruct (Nat.eqb_spec w v); congruence. Qed.

(** ** Well-formed graphs *)
Definition indeg (d : dag) (w : vertex) : nat := length (filter (fun v => mem w (d_out d v)) (d_verts d)).

Record wf (d : dag) : Prop := {
  wf_nd : NoDup (d_verts d);
  wf_out : forall v, NoDup (d_out d v);
  wf_edge : forall v w, In w (d_out d v) -> v <> w /\ In v (d_verts d) /\ In w (d_verts d);
  wf_in : forall w, d_in d w = indeg d w
}.

Lemma filter_change : forall (f g : vertex -> bool) v l, NoDup l -> In v l ->
  f v = false -> g v = true -> (forall u, u <> v -> f u = g u) ->
  length (filter g l) = S (length (filter f l)).
Proof.
  intros f g v l ND Hin Hf Hg Ho. induction l as [|a l IH]; [easy|].
  inversion ND; subst. simpl. destruct Hin as [->|Hin].
  - rewrite Hf, Hg. simpl. f_equal. f_equal. apply filter_ext_in. intros u Hu. symmetry. apply Ho. congruence.
  - assert (a <> v) by congruence. rewrite (Ho a) by auto. destruct (g a); simpl; rewrite IH; auto.
Qed.

Lemma register_wf : forall d v, wf d -> wf (register d v) /\ In v (d_verts (register d v)) /\
  d_out (register d v) = d_out d /\ (forall w, In w (d_verts d) -> In w (d_verts (register d v))).
Proof.
  intros d v W. unfold register. destruct (mem v (d_verts d)) eqn:E.
  - apply mem_In in E. auto.
  - apply mem_false in E. split; [|simpl; split; [apply in_or_app; simpl; auto|split; auto; intros; apply in_or_app; auto]].
    destruct W as [W1 W2 W3 W4]. constructor; simpl; auto.
    + apply (NoDup_Add (a := v) (l := d_verts d)); [|split; auto].
      replace (d_verts d) with (d_verts d ++ []) at 1 by apply app_nil_r. apply Add_app.
    + intros u w H. apply W3 in H. destruct H as (? & ? & ?). split; auto. split; apply in_or_app; auto.
    + intros w. unfold indeg in *. simpl. rewrite filter_app, app_length. simpl.
      replace (mem w (d_out d v)) with false; [rewrite W4; simpl; lia|].
      symmetry. apply mem_false. intros K. apply W3 in K. tauto.
Qed.

Lemma link_cases : forall d v w d' b, link d v w = (d', b) ->
  let d1 := register (register d v) w in
  (b = false /\ d' = d1 /\ (w = v \/ In w (d_out d1 v))) \/
  (b = true /\ w <> v /\ ~ In w (d_out d1 v) /\
   d' = mkDag (d_verts d1) (fupd (d_out d1) v (d_out d1 v ++ [w])) (fupd (d_in d1) w (S (d_in d1 w)))).
Proof.
  intros d v w d' b H d1. unfold link in H. fold d1 in H.
  destruct (Nat.eqb_spec w v); [injection H as <- <-; auto|].
  destruct (mem w (d_out d1 v)) eqn:E; injection H as <- <-.
  - apply mem_In in E. auto.
  - apply mem_false in E. right. auto.
Qed.

Lemma link_wf : forall d v w, wf d -> wf (fst (link d v w)).
Proof.
  intros d v w W. destruct (link d v w) as [d' b] eqn:E. simpl. apply link_cases in E.
  destruct (register_wf d v W) as (W1 & V1 & O1 & S1).
  destruct (register_wf (register d v) w W1) as (W2 & V2 & O2 & S2).
  set (d1 := register (register d v) w) in *.
  destruct E as [(_ & -> & _)|(_ & Hne & Hni & ->)]; auto.
  destruct W2 as [A1 A2 A3 A4]. constructor; simpl; auto.
  - intros u. unfold fupd. destruct (Nat.eqb_spec u v); auto. subst.
    apply (NoDup_Add (a := w) (l := d_out d1 v)); [|split; auto].
    replace (d_out d1 v) with (d_out d1 v ++ []) at 1 by apply app_nil_r. apply Add_app.
  - intros u x. unfold fupd. destruct (Nat.eqb_spec u v); auto. subst. intros H. apply in_app_or in H.
    destruct H as [H|[<-|[]]]; auto.
  - intros x. unfold indeg. simpl. unfold fupd at 1. destruct (Nat.eqb_spec x w).
    + subst x. rewrite A4. symmetry. apply (filter_change _ _ v); auto.
      * apply mem_false; auto.
      * rewrite fupd_eq. apply mem_In. apply in_or_app. simpl; auto.
      * intros u Hu. rewrite fupd_neq; auto.
    + rewrite A4. unfold indeg. f_equal. apply filter_ext. intros u. unfold fupd.
      destruct (Nat.eqb_spec u v); auto. subst u. unfold mem. rewrite existsb_app. simpl.
      destruct (Nat.eqb_spec x w); [congruence|]. rewrite !orb_false_r. auto.
Qed.

Lemma link_edges : forall d v w x y, wf d ->
  (In y (d_out (fst (link d v w)) x) <-> In y (d_out d x) \/ (x = v /\ y = w /\ v <> w)).
Proof.
  intros d v w x y W. destruct (link d v w) as [d' b] eqn:E. simpl. apply link_cases in E.
  destruct (register_wf d v W) as (W1 & V1 & O1 & S1).
  destruct (register_wf (register d v) w W1) as (W2 & V2 & O2 & S2).
  set (d1 := register (register d v) w) in *. rewrite O1 in O2.
  destruct E as [(_ & -> & H)|(_ & Hne & Hni & ->)].
  - rewrite O2 in *. split; auto. intros [K|(-> & -> & K)]; auto. destruct H; [congruence|auto].
  - simpl. rewrite O2. unfold fupd. destruct (Nat.eqb_spec x v).
    + subst. rewrite in_app_iff. simpl. split; [intros [K|[K|[]]]; auto|intros [K|(_ & -> & _)]; auto].
    + split; auto. intros [K|(K & _)]; auto. congruence.
Qed.

Lemma link_verts : forall d v w x, wf d ->
  (In x (d_verts (fst (link d v w))) <-> In x (d_verts d) \/ x = v \/ x = w).
Proof.
  intros d v w x W. destruct (link d v w) as [d' b] eqn:E. simpl. apply link_cases in E.
  assert (R : forall d v x, In x (d_verts (register d v)) <-> In x (d_verts d) \/ x = v).
  { intros. unfold register. destruct (mem v0 (d_verts d0)) eqn:M.
    - apply mem_In in M. split; auto. intros [K|K]; subst; auto.
    - simpl. rewrite in_app_iff. simpl. intuition. }
  assert (In x (d_verts (register (register d v) w)) <-> In x (d_verts d) \/ x = v \/ x = w) by (rewrite !R; tauto).
  destruct E as [(_ & -> & _)|(_ & _ & _ & ->)]; simpl; auto.
Qed.

Lemma unlink_wf : forall d v w, wf d -> exists d' b, unlink d v w = Unlinked d' b /\ wf d' /\
  d_verts d' = d_verts d /\
  (forall x y, In y (d_out d' x) <-> In y (d_out d x) /\ ~ (x = v /\ y = w)).
Proof.
  intros d v w W. unfold unlink. destruct (Nat.eqb_spec w v).
  { exists d, false. split; auto. split; auto. split; auto. intros x y. split; [|tauto]. intros H. split; auto.
    intros [-> ->]. apply (wf_edge d W) in H. subst. tauto. }
  destruct (mem w (d_out d v)) eqn:E.
  2:{ apply mem_false in E. exists d, false. split; auto. split; auto. split; auto. intros x y. split; [|tauto].
      intros H. split; auto. intros [-> ->]. auto. }
  apply mem_In in E. destruct W as [A1 A2 A3 A4]. destruct (A3 _ _ E) as (Hne & Hv & Hw).
  set (out := fupd (d_out d) v (filter (fun x => negb (x =? w)) (d_out d v))).
  assert (HC : d_in d w = S (length (filter (fun u => mem w (out u)) (d_verts d)))).
  { rewrite A4. unfold indeg. apply (filter_change _ _ v); auto.
    - apply mem_false. unfold out. rewrite fupd_eq, filter_In, Nat.eqb_refl. simpl. intros [_ K]; discriminate.
    - apply mem_In; auto.
    - intros u Hu. unfold out. rewrite fupd_neq; auto. }
  rewrite HC. eexists; eexists. split; [reflexivity|]. split; [|split; [reflexivity|]].
  - constructor; simpl; auto.
    + intros u. unfold out, fupd. destruct (Nat.eqb_spec u v); auto. subst. apply NoDup_filter; auto.
    + intros u x. unfold out, fupd. destruct (Nat.eqb_spec u v); auto. subst. rewrite filter_In. intros [K _]. auto.
    + intros x. unfold indeg. simpl. fold out. unfold fupd. destruct (Nat.eqb_spec x w); [subst; auto|].
      rewrite A4. unfold indeg. f_equal. apply filter_ext. intros u. unfold out, fupd.
      destruct (Nat.eqb_spec u v); auto. subst u.
      destruct (mem x (d_out d v)) eqn:M.
      * symmetry. apply mem_In. apply mem_In in M. apply filter_In. split; auto.
        destruct (Nat.eqb_spec x w); auto.
      * symmetry. apply mem_false. apply mem_false in M. rewrite filter_In. tauto.
  - intros x y. simpl. unfold out, fupd. destruct (Nat.eqb_spec x v).
    + subst x. rewrite filter_In. destruct (Nat.eqb_spec y w); simpl; [subst; split; [intros [_ K]; discriminate|intros [_ K]; exfalso; apply K; auto]|].
      split; [intros [K _]; split; auto; intros [_ K']; auto|intros [K _]; auto].
    + split; [intros K; split; auto; intros [K' _]; auto|tauto].
Qed.

Lemma empty_wf : wf d_empty.
Proof. constructor; simpl; try constructor; easy. Qed.
Lemma init_wf : wf d_init.
Proof.
  unfold d_init. generalize empty_wf. generalize d_empty. generalize [0; 1; 2; 3; 4; 5].
  induction l; simpl; intros; auto using link_wf.
Qed.

Lemma dop_step_wf : forall d o, wf d -> wf (dop_step d o).
Proof.
  intros d o W. destruct o; simpl.
  - apply link_wf; auto.
  - destruct (_ || _)%bool; auto. destruct (unlink_wf d v w W) as (d' & b & -> & W' & _). auto.
  - destruct (_ && _)%bool; auto. unfold phase_links. destruct p; repeat apply link_wf; auto.
Qed.
Lemma build_wf : forall ops, wf (build ops).
Proof.
  intros. unfold build. pose proof init_wf as W. revert W. generalize d_init. induction ops; simpl; intros; auto.
  apply IHops. apply dop_step_wf. auto.
Qed.

(** ** Kahn's algorithm *)
Lemma relax_spec : forall g outs k, NoDup outs -> (forall w, In w outs -> k_inb k w > 0) ->
  exists k', relax g outs k = Some k' /\
    (forall w, k_inb k' w = if mem w outs then k_inb k w - 1 else k_inb k w) /\
    (forall w, k_gid k' w = if mem w outs then Nat.max (k_gid k w) (S g) else k_gid k w) /\
    k_z k' = k_z k ++ filter (fun w => Nat.eqb (k_inb k w) 1) outs.
Proof.
  induction outs as [|w outs IH]; simpl; intros k ND HP.
  - exists k. rewrite app_nil_r. auto.
  - inversion ND; subst. pose proof (HP w (or_introl eq_refl)) as Hw.
    destruct (k_inb k w) as [|n] eqn:En; [lia|].
    set (k1 := mkK _ _ _). destruct (IH k1) as (k' & E & B1 & B2 & B3); auto.
    { intros x Hx. unfold k1; simpl. rewrite fupd_neq by congruence. apply HP; auto. }
    exists k'. split; auto.
    assert (MW : mem w outs = false) by (apply mem_false; auto).
    split; [|split].
    + intros x. rewrite B1. unfold k1; simpl. destruct (Nat.eqb_spec x w); simpl.
      * subst. rewrite MW, fupd_eq, En. lia.
      * rewrite fupd_neq by auto. unfold mem. reflexivity.
    + intros x. rewrite B2. unfold k1; simpl. destruct (Nat.eqb_spec x w); simpl.
      * subst. rewrite MW. destruct (Nat.leb_spec (k_gid k w) g); [rewrite fupd_eq|]; lia.
      * unfold mem. destruct (k_gid k w <=? g); [rewrite fupd_neq by auto|]; reflexivity.
    + rewrite B3. unfold k1; simpl.
      assert (EF : filter (fun x => fupd (k_inb k) w n x =? 1) outs = filter (fun x => k_inb k x =? 1) outs).
      { apply filter_ext_in. intros x Hx. rewrite fupd_neq; auto. congruence. }
      rewrite EF. destruct n; simpl; [rewrite <- app_assoc|]; reflexivity.
Qed.

Section KAHN.
  Variable d : dag.
  Hypothesis W : wf d.
  Notation out := (d_out d).
  Notation verts := (d_verts d).

  Definition rem (P : list vertex) (w : vertex) : nat :=
    length (filter (fun v => mem w (out v) && negb (mem v P))%bool verts).

  Record KI (P : list vertex) (vc : nat) (k : kst) (groups : nat) : Prop := {
    K_nd : NoDup (P ++ k_z k);
    K_sub : incl (P ++ k_z k) verts;
    K_vc : vc + length P = length verts;
    K_inb : forall w, k_inb k w = rem P w;
    K_zero : forall w, In w verts -> (In w (P ++ k_z k) <-> k_inb k w = 0);
    K_gid : forall v w, In v P -> In w (out v) -> k_gid k v < k_gid k w;
    K_pos : forall v, 1 <= k_gid k v;
    K_grp : forall v, In v P -> k_gid k v <= groups;
    K_g1 : 1 <= groups
  }.

  Lemma rem_pos : forall P u w, In u verts -> ~ In u P -> In w (out u) -> 0 < rem P w.
  Proof.
    intros. unfold rem.
    assert (In u (filter (fun v => mem w (out v) && negb (mem v P))%bool verts)).
    { apply filter_In. split; auto. apply mem_In in H1. apply mem_false in H0. rewrite H1, H0. auto. }
    destruct (filter _ _); simpl in *; [easy|lia].
  Qed.

  Lemma rem_step : forall P v w, In v verts -> ~ In v P ->
    rem P w = (if mem w (out v) then S (rem (P ++ [v]) w) else rem (P ++ [v]) w).
  Proof.
    intros P v w Hv HP. unfold rem. destruct (mem w (out v)) eqn:E.
    - apply (filter_change _ _ v).
      + apply W. + auto.
      + replace (mem v (P ++ [v])) with true; [simpl; apply andb_false_r|].
        symmetry. apply mem_In. apply in_or_app. simpl; auto.
      + rewrite E. apply mem_false in HP. rewrite HP. auto.
      + intros u Hu. f_equal. f_equal. unfold mem. rewrite existsb_app. simpl.
        destruct (Nat.eqb_spec u v); [congruence|]. rewrite !orb_false_r. auto.
    - f_equal. apply filter_ext. intros u. destruct (Nat.eqb_spec u v).
      + subst. rewrite E. auto.
      + f_equal. f_equal. unfold mem. rewrite existsb_app. simpl.
        destruct (Nat.eqb_spec u v); [congruence|]. rewrite !orb_false_r. auto.
  Qed.

  Lemma kahn_spec : forall vc P k groups, KI P vc k groups ->
    (exists gid g P', kahn out vc k groups = Sorted gid g /\ KI P' 0 (mkK gid (fun w => rem P' w) []) g) \/
    (exists P' k' vc', kahn out vc k groups = CycleExc /\ vc' <> 0 /\ k_z k' = [] /\ exists g, KI P' vc' k' g).
  Proof.
    induction vc; intros P k groups I.
    - destruct k as [gid inb z]. simpl. destruct z as [|v z]; simpl.
      + left. exists gid, groups, P. split; auto. destruct I. simpl in *. constructor; simpl; auto.
        intros w Hw. rewrite <- K_inb0. auto.
      + exfalso. destruct I as [A1 A2 A3 _ _ _ _ _ _]. simpl in *.
        apply (NoDup_incl_length A1) in A2. rewrite app_length in A2. simpl in A2. lia.
    - destruct k as [gid inb z]. simpl. destruct z as [|v z]; simpl.
      + right. exists P, (mkK gid inb []), (S vc). split; auto. split; [lia|]. split; auto. eauto.
      + destruct I as [A1 A2 A3 A4 A5 A6 A7 A8 A9]. simpl in *.
        assert (Hv : In v verts) by (apply A2; apply in_or_app; simpl; auto).
        assert (HvP : ~ In v P).
        { apply NoDup_remove_2 in A1. intros K. apply A1. apply in_or_app. auto. }
        destruct (relax_spec (gid v) (out v) (mkK gid inb z)) as (k' & E & B1 & B2 & B3).
        { apply W. }
        { simpl. intros w Hw. rewrite A4. eapply rem_pos; eauto. }
        rewrite E. simpl in B1, B2, B3.
        assert (Hvv : mem v (out v) = false).
        { apply mem_false. intros K. apply (wf_edge d W) in K. tauto. }
        apply (IHvc (P ++ [v])).
        assert (NZ : forall u, In u (P ++ v :: z) -> ~ In u (out v)).
        { intros u Hu Hin. assert (inb u = 0) by (apply A5; auto). rewrite A4 in H.
          pose proof (rem_pos P v u Hv HvP Hin). lia. }
        assert (S1 : P ++ [v] ++ z = (P ++ [v]) ++ z) by apply app_assoc.
        constructor.
        * rewrite B3, app_assoc. rewrite <- S1. simpl.
          assert (NDa : NoDup (P ++ v :: z)) by auto.
          assert (NDb : NoDup (filter (fun w => inb w =? 1) (out v))) by (apply NoDup_filter; apply W).
          assert (DJ : forall u, In u (P ++ v :: z) -> ~ In u (filter (fun w => inb w =? 1) (out v))).
          { intros u Hu K. apply filter_In in K. eapply NZ; eauto. tauto. }
          clear - NDa NDb DJ. induction (P ++ v :: z) as [|a l IH]; simpl; auto.
          inversion NDa; subst. constructor.
          -- rewrite in_app_iff. intros [K|K]; auto. apply (DJ a); simpl; auto.
          -- apply IH; auto. intros u Hu. apply DJ. simpl; auto.
        * rewrite B3, app_assoc, <- S1. apply incl_app; auto. intros u Hu. apply filter_In in Hu.
          apply (wf_edge d W v u). tauto.
        * rewrite app_length. simpl. lia.
        * intros w. rewrite B1, A4, (rem_step P v w Hv HvP). destruct (mem w (out v)); lia.
        * intros w Hw. rewrite B1, B3, app_assoc, <- S1. simpl.
          rewrite in_app_iff. destruct (mem w (out v)) eqn:M.
          -- apply mem_In in M. assert (inb w > 0) by (rewrite A4; exact (rem_pos P v w Hv HvP M)).
             rewrite filter_In, Nat.eqb_eq. split.
             ++ intros [K|[_ K]]; [exfalso; eapply NZ; eauto|lia].
             ++ intros K. right. split; auto. lia.
          -- apply mem_false in M. rewrite filter_In. rewrite <- A5 by auto. tauto.
        * intros u w Hu Hw. rewrite !B2. apply in_app_or in Hu. destruct Hu as [Hu|[<-|[]]].
          -- replace (mem u (out v)) with false.
             ++ pose proof (A6 u w Hu Hw). destruct (mem w (out v)); lia.
             ++ symmetry. apply mem_false. apply NZ. apply in_or_app. auto.
          -- rewrite Hvv. apply mem_In in Hw. rewrite Hw. lia.
        * intros u. rewrite B2. pose proof (A7 u). destruct (mem u (out v)); lia.
        * intros u Hu. rewrite !B2, Hvv. apply in_app_or in Hu. destruct Hu as [Hu|[<-|[]]].
          -- replace (mem u (out v)) with false.
             ++ pose proof (A8 u Hu). destruct (Nat.ltb_spec groups (gid v)); lia.
             ++ symmetry. apply mem_false. apply NZ. apply in_or_app. auto.
          -- rewrite Hvv. destruct (Nat.ltb_spec groups (gid v)); lia.
        * rewrite B2, Hvv. destruct (Nat.ltb_spec groups (gid v)); lia.
  Qed.

  Lemma kahn_init : KI [] (length verts) (mkK (fun _ => 1) (d_in d) (filter (fun v => Nat.eqb (d_in d v) 0) verts)) 1.
  Proof.
    constructor; simpl; auto; try easy.
    - apply NoDup_filter. apply W.
    - intros u Hu. apply filter_In in Hu. tauto.
    - intros w. rewrite (wf_in d W). unfold indeg, rem. f_equal. apply filter_ext. intros u. simpl. rewrite andb_true_r. auto.
    - intros w Hw. rewrite filter_In, Nat.eqb_eq. tauto.
  Qed.
End KAHN.

(** A finite set in which everything has a predecessor contains a cycle. *)
Lemma chain_cycle : forall (E : vertex -> vertex -> Prop) (R : list vertex),
  R <> [] -> (forall x, In x R -> exists y, In y R /\ E y x) -> exists x, clos_trans _ E x x.
Proof.
  intros E R HR HP.
  (* walks backwards: every element reaches all later ones *)
  assert (Walk : forall n, exists x l, length l = n /\ incl (x :: l) R /\
     (forall y, In y l -> clos_trans _ E x y) /\
     (forall a p q, x :: l = p ++ a :: q -> forall y, In y q -> clos_trans _ E a y)).
  { induction n.
    - destruct R as [|x R]; [congruence|]. exists x, []. split; auto. split; [intros y [->|[]]; left; auto|].
      split; [easy|]. intros a p q H y Hy. destruct p as [|? [|? ?]]; inversion H; subst; easy.
    - destruct IHn as (x & l & H1 & H2 & H3 & H4).
      destruct (HP x) as (y & Hy & Exy); [apply H2; left; auto|].
      exists y, (x :: l). split; [simpl; lia|]. split; [intros z [->|Hz]; auto|].
      assert (T : forall z, In z (x :: l) -> clos_trans _ E y z).
      { intros z [<-|Hz]; [apply t_step; auto|]. eapply t_trans; [apply t_step; eauto|auto]. }
      split; auto. intros a p q H z Hz. destruct p as [|p0 p]; simpl in H; injection H as <- H.
      + subst q. auto.
      + eapply H4; eauto. }
  destruct (Walk (length R)) as (x & l & H1 & H2 & H3 & H4).
  destruct (ListDec.NoDup_dec Nat.eq_dec (x :: l)) as [ND|ND].
  - apply NoDup_incl_length in H2; auto. simpl in H2. lia.
  - assert (D : exists a p q r, x :: l = p ++ a :: q ++ a :: r).
    { clear - ND. induction (x :: l) as [|b L IH]; [exfalso; apply ND; constructor|].
      destruct (in_dec Nat.eq_dec b L) as [Hb|Hb].
      - apply in_split in Hb. destruct Hb as (q & r & ->). exists b, [], q, r. auto.
      - destruct IH as (a & p & q & r & E); [intros K; apply ND; constructor; auto|]. rewrite E.
        exists a, (b :: p), q, r. auto. }
    destruct D as (a & p & q & r & D). exists a. eapply H4; [exact D|]. apply in_or_app. right. left. auto.
Qed.

(** ** Depth-first search *)
Section DFS.
  Variable out : vertex -> list vertex.

  Definition go_dfs (rec : (vertex -> color) -> vertex -> option (bool * (vertex -> color))) (v : vertex) :=
    fix go (ws : list vertex) (m : vertex -> color) : option (bool * (vertex -> color)) :=
         match ws with
         | [] => Some (false, fupd m v Black)
         | w :: rest =>
             match m w with
             | White =>
                 match rec m w with
                 | None => None
                 | Some (true, m') => Some (true, m')
                 | Some (false, m') => go rest m'
                 end
             | Gray => Some (true, m)
             | Black => go rest m
             end
         end.
  Lemma dfs_unfold : forall f m v, dfs out (S f) m v = go_dfs (dfs out f) v (out v) (fupd m v Gray).
  Proof. reflexivity. Qed.

  Definition black_ok (m : vertex -> color) : Prop :=
    (forall b w, m b = Black -> In w (out b) -> m w = Black) /\ (forall b, m b = Black -> ~ reach out b b).

  Definition dfs_post (m : vertex -> color) (v : vertex) (r : option (bool * (vertex -> color))) : Prop :=
    match r with
    | None => True
    | Some (true, _) => exists x, reach out x x
    | Some (false, m') => m' v = Black /\ black_ok m' /\ (forall u, m' u = Gray <-> m u = Gray) /\
                          (forall u, m u = Black -> m' u = Black)
    end.

  Lemma black_reach : forall m b w, black_ok m -> m b = Black -> reach out b w -> m w = Black.
  Proof. intros m b w [B1 _] Hb H. induction H; eauto. Qed.

  Lemma dfs_spec : forall f m v, m v = White -> black_ok m ->
    (forall g, m g = Gray -> reach out g v) -> dfs_post m v (dfs out f m v).
  Proof.
    induction f; intros m v Hv HB HG; [exact I|]. rewrite dfs_unfold.
    (* loop over the remaining neighbours *)
    assert (Loop : forall ws m1, (forall w, In w ws -> In w (out v)) ->
       (forall w, In w (out v) -> In w ws \/ m1 w = Black) -> m1 v = Gray -> black_ok m1 ->
       (forall u, m1 u = Gray <-> u = v \/ m u = Gray) -> (forall u, m u = Black -> m1 u = Black) ->
       dfs_post m v (go_dfs (dfs out f) v ws m1)).
    { induction ws as [|w ws IHw]; simpl; intros m1 S1 S2 V1 B1 G1 L1.
      - split; [apply fupd_eq|]. split; [|split].
        + (* v becomes black *)
          assert (OB : forall w, In w (out v) -> m1 w = Black) by (intros w Hw; destruct (S2 w Hw); easy).
          assert (NV : forall w, In w (out v) -> w <> v) by (intros w Hw ->; rewrite OB in V1; congruence).
          split.
          * intros b w. unfold fupd. destruct (Nat.eqb_spec b v).
            -- subst. intros _ Hw. destruct (Nat.eqb_spec w v); auto.
            -- intros Hb Hw. destruct (Nat.eqb_spec w v); auto. eapply (proj1 B1); eauto.
          * intros b Hb R. unfold fupd in Hb. destruct (Nat.eqb_spec b v).
            -- subst b. apply clos_trans_t1n in R. inversion R as [y Ry|y z Ry Rz]; subst.
               ++ apply OB in Ry. congruence.
               ++ apply clos_t1n_trans in Rz. pose proof (black_reach m1 y v B1 (OB _ Ry) Rz). congruence.
            -- apply (proj2 B1 b Hb R).
        + intros u. unfold fupd. destruct (Nat.eqb_spec u v).
          * subst. rewrite Hv. split; discriminate.
          * rewrite G1. tauto.
        + intros u Hu. unfold fupd. destruct (u =? v); auto.
      - assert (Ew : edge out v w) by (apply S1; auto).
        destruct (m1 w) eqn:Cw.
        + (* white *)
          assert (P := IHf m1 w Cw B1).
          assert (G2 : forall g, m1 g = Gray -> reach out g w).
          { intros g Hg. apply G1 in Hg. destruct Hg as [->|Hg]; [apply t_step; auto|].
            eapply t_trans; [apply HG; auto|apply t_step; auto]. }
          specialize (P G2). destruct (dfs out f m1 w) as [[[|] m2]|]; simpl in P |- *; auto.
          destruct P as (P1 & P2 & P3 & P4). apply IHw; auto.
          * intros x Hx. destruct (S2 x Hx) as [[->|K]|K]; auto.
          * apply P3; auto.
          * intros u. rewrite P3. apply G1.
        + (* gray: cycle *)
          apply G1 in Cw. destruct Cw as [->|Cw].
          * exists v. apply t_step. auto.
          * exists w. eapply t_trans; [apply HG; auto|apply t_step; auto].
        + apply IHw; auto. intros x Hx. destruct (S2 x Hx) as [[->|K]|K]; auto. }
    apply Loop; auto.
    - apply fupd_eq.
    - split.
      + intros b w. unfold fupd. destruct (Nat.eqb_spec b v); [discriminate|]. intros Hb Hw.
        destruct (Nat.eqb_spec w v); [|eapply (proj1 HB); eauto].
        subst. rewrite (proj1 HB b v Hb Hw) in Hv. discriminate.
      + intros b. unfold fupd. destruct (Nat.eqb_spec b v); [discriminate|]. apply (proj2 HB).
    - intros u. unfold fupd. destruct (Nat.eqb_spec u v); [tauto|]. tauto.
    - intros u Hu. rewrite fupd_neq; auto. congruence.
  Qed.

  (** Fuel: the number of white vertices. *)
  Variable verts : list vertex.
  Hypothesis ND : NoDup verts.
  Hypothesis OUT : forall v w, In w (out v) -> In w verts.

  Definition whites (m : vertex -> color) : nat := length (filter (fun v => is_white (m v)) verts).

  Lemma filter_le : forall (f g : vertex -> bool) l, (forall x, f x = true -> g x = true) ->
    length (filter f l) <= length (filter g l).
  Proof.
    induction l; simpl; intros; auto. destruct (f a) eqn:E.
    - rewrite (H a E). simpl. apply IHl in H. lia.
    - apply IHl in H. destruct (g a); simpl; lia.
  Qed.

  Lemma whites_le : forall m m', (forall u, m' u = White -> m u = White) -> whites m' <= whites m.
  Proof.
    intros. apply filter_le. intros x Hx. destruct (m' x) eqn:E; try discriminate. rewrite (H x E). auto.
  Qed.
  Lemma whites_gray : forall m v c, In v verts -> m v = White -> c <> White -> whites m = S (whites (fupd m v c)).
  Proof.
    intros. apply (filter_change _ _ v); auto.
    - rewrite fupd_eq. destruct c; simpl; congruence.
    - rewrite H0. auto.
    - intros. rewrite fupd_neq; auto.
  Qed.

  Lemma dfs_white : forall f m v m' b, dfs out f m v = Some (b, m') -> forall u, m' u = White -> m u = White.
  Proof.
    induction f; intros m v m' b H; [discriminate|]. rewrite dfs_unfold in H.
    assert (K : forall ws m1, go_dfs (dfs out f) v ws m1 = Some (b, m') -> forall u, m' u = White -> m1 u = White).
    { induction ws; simpl; intros m1 H1 u Hu.
      - injection H1 as <- <-. unfold fupd in Hu. destruct (u =? v); [discriminate|auto].
      - destruct (m1 a) eqn:E.
        + destruct (dfs out f m1 a) as [[[|] m2]|] eqn:D; try discriminate.
          * injection H1 as <- <-. eapply IHf; eauto.
          * eapply IHf; eauto.
        + injection H1 as <- <-. auto.
        + eauto. }
    intros u Hu. pose proof (K _ _ H u Hu) as L. unfold fupd in L. destruct (u =? v); [discriminate|auto].
  Qed.

  Lemma dfs_fuel : forall f m v, In v verts -> m v = White -> whites m <= f -> dfs out f m v <> None.
  Proof.
    induction f; intros m v Hin Hv Hf.
    - rewrite (whites_gray m v Gray) in Hf; auto; [lia|discriminate].
    - rewrite dfs_unfold.
      assert (K : forall ws m1, (forall w, In w ws -> In w verts) -> whites m1 <= f -> go_dfs (dfs out f) v ws m1 <> None).
      { induction ws; simpl; intros m1 H1 H2; [discriminate|].
        destruct (m1 a) eqn:E; [|discriminate|auto].
        pose proof (IHf m1 a (H1 a (or_introl eq_refl)) E H2).
        destruct (dfs out f m1 a) as [[[|] m2]|] eqn:D; try congruence.
        apply IHws; auto. pose proof (whites_le m1 m2 (dfs_white _ _ _ _ _ D)). lia. }
      apply K; eauto. rewrite (whites_gray m v Gray) in Hf; auto; [lia|discriminate].
  Qed.

  Lemma dfs_all_spec : forall f vs m, incl vs verts -> whites m <= f -> black_ok m -> (forall u, m u <> Gray) ->
    (forall u, In u verts -> In u vs \/ m u = Black) ->
    match dfs_all out f vs m with
    | None => False
    | Some true => exists x, reach out x x
    | Some false => forall x, In x verts -> ~ reach out x x
    end.
  Proof.
    induction vs as [|v vs IH]; simpl; intros m H1 H2 H3 H4 H5.
    - intros x Hx. destruct (H5 x Hx) as [[]|K]. apply (proj2 H3). auto.
    - destruct (m v) eqn:E; simpl.
      + pose proof (dfs_fuel f m v (H1 v (or_introl eq_refl)) E H2) as F.
        pose proof (dfs_spec f m v E H3) as P. specialize (P (fun g Hg => False_ind _ (H4 g Hg))).
        destruct (dfs out f m v) as [[[|] m2]|] eqn:D; simpl in P; try congruence; auto.
        destruct P as (P1 & P2 & P3 & P4). apply IH; auto.
        * intros x Hx. apply H1. right; auto.
        * pose proof (whites_le m m2 (dfs_white _ _ _ _ _ D)). lia.
        * intros u Hu. apply P3 in Hu. eapply H4; eauto.
        * intros u Hu. destruct (H5 u Hu) as [[->|K]|K]; auto.
      + exfalso. eapply H4; eauto.
      + apply IH; auto. * intros x Hx. apply H1. right; auto.
        * intros u Hu. destruct (H5 u Hu) as [[->|K]|K]; auto.
  Qed.

  (** ** findCycle *)
  Definition go_find (rec : (vertex -> color) -> vertex -> option (option (list vertex) * (vertex -> color))) (v : vertex) :=
      fix go (ws : list vertex) (m : vertex -> color) : option (option (list vertex) * (vertex -> color)) :=
         match ws with
         | [] => Some (None, fupd m v Black)
         | w :: rest =>
             match m w with
             | White =>
                 match rec m w with
                 | None => None
                 | Some (Some l, m') => Some (Some (w :: l), m')
                 | Some (None, m') => go rest m'
                 end
             | Gray => Some (Some [w], m)
             | Black => go rest m
             end
         end.
  Lemma find_unfold : forall f m v, find out (S f) m v = go_find (find out f) v (out v) (fupd m v Gray).
  Proof. reflexivity. Qed.

  Definition proj_find (r : option (option (list vertex) * (vertex -> color))) : option (bool * (vertex -> color)) :=
    match r with
    | None => None
    | Some (Some _, m) => Some (true, m)
    | Some (None, m) => Some (false, m)
    end.

  Lemma find_dfs : forall f m v, dfs out f m v = proj_find (find out f m v).
  Proof.
    induction f; intros m v; [reflexivity|]. rewrite dfs_unfold, find_unfold.
    generalize (fupd m v Gray). generalize (out v). induction l as [|w l IH]; simpl; intros m1; [reflexivity|].
    destruct (m1 w); auto. rewrite IHf. destruct (find out f m1 w) as [[[l'|] m2]|]; simpl; auto.
  Qed.

  Lemma find_all_dfs : forall f vs m,
    dfs_all out f vs m = match find_all out f vs m with None => None | Some [] => Some false | Some _ => Some true end \/
    exists vs' m', find_all out f vs m = Some [] /\ In vs' vs /\ is_white (m' vs') = true /\ exists m2, find out f m' vs' = Some (Some [], m2).
  Proof.
    induction vs; simpl; intros m; auto. destruct (is_white (m a)) eqn:Wa.
    - rewrite find_dfs. destruct (find out f m a) as [[[l|] m2]|] eqn:F; simpl; auto.
      + destruct l; auto. right. exists a, m. split; auto. split; auto. split; auto. exists m2. auto.
      + destruct (IHvs m2) as [|(vs' & m' & K1 & K2 & K3 & K4)]; auto. right. exists vs', m'. auto.
    - destruct (IHvs m) as [|(vs' & m' & K1 & K2 & K3 & K4)]; auto. right. exists vs', m'. auto.
  Qed.

  Fixpoint path (v : vertex) (l : list vertex) : Prop :=
    match l with [] => True | w :: r => In w (out v) /\ path w r end.

  Lemma go_gray : forall f m v m', find out f m v = Some (None, m') -> m v = White -> forall u, m' u = Gray <-> m u = Gray.
  Proof.
    induction f; intros m v m' H Hv; [discriminate|]. rewrite find_unfold in H.
    assert (K : forall ws m1, go_find (find out f) v ws m1 = Some (None, m') -> m1 v = Gray ->
       forall u, m' u = Gray <-> m1 u = Gray /\ u <> v).
    { induction ws as [|w ws IHw]; simpl; intros m1 H1 V1 u.
      - injection H1 as <-. unfold fupd. destruct (Nat.eqb_spec u v); [|tauto]. split; [discriminate|tauto].
      - destruct (m1 w) eqn:Cw; [|discriminate|eauto].
        destruct (find out f m1 w) as [[[l|] m2]|] eqn:F; try discriminate.
        pose proof (IHf _ _ _ F Cw) as G. rewrite (IHw m2 H1); [|apply G; auto]. rewrite G. tauto. }
    intros u. rewrite (K _ _ H (fupd_eq _ _ _)). unfold fupd. destruct (Nat.eqb_spec u v); [|tauto].
    subst. rewrite Hv. split; [tauto|discriminate].
  Qed.

  Lemma find_path : forall f m v l m' st, find out f m v = Some (Some l, m') -> m v = White ->
    (forall u, m u = Gray <-> In u st) ->
    l <> [] /\ path v l /\ (In (last l v) st \/ In (last l v) (v :: removelast l)).
  Proof.
    induction f; intros m v l m' st H Hv HS; [discriminate|]. rewrite find_unfold in H.
    assert (K : forall ws m1, (forall w, In w ws -> In w (out v)) -> go_find (find out f) v ws m1 = Some (Some l, m') ->
       (forall u, m1 u = Gray <-> In u (v :: st)) ->
       l <> [] /\ path v l /\ (In (last l v) st \/ In (last l v) (v :: removelast l))).
    { induction ws as [|w ws IHw]; simpl; intros m1 S1 H1 G1; [discriminate|].
      destruct (m1 w) eqn:Cw.
      - destruct (find out f m1 w) as [[[l1|] m2]|] eqn:F; try discriminate.
        + injection H1 as <- <-. destruct (IHf _ _ _ _ (v :: st) F Cw G1) as (L1 & L2 & L3).
          split; [discriminate|]. split; [simpl; auto|].
          destruct l1 as [|x l1]; [congruence|].
          assert (EL : last (w :: x :: l1) v = last (x :: l1) w).
          { clear. revert x w. induction l1; intros; [reflexivity|]. simpl in *. apply (IHl1 a w). }
          rewrite EL. change (removelast (w :: x :: l1)) with (w :: removelast (x :: l1)).
          simpl In in L3 |- *. tauto.
        + apply (IHw m2); auto. intros u. rewrite (go_gray _ _ _ _ F Cw). apply G1.
      - injection H1 as <- <-. split; [discriminate|]. split; [simpl; auto|]. apply G1 in Cw. simpl in *. tauto.
      - eauto. }
    apply (K (out v) (fupd m v Gray)); auto. intros u. unfold fupd. simpl. rewrite <- HS.
    destruct (Nat.eqb_spec u v); [subst; tauto|]. split; [auto|intros [|]; auto; congruence].
  Qed.

  Lemma path_next : forall l v w, path v l -> l <> [] -> In w (v :: removelast l) -> exists x, In x l /\ In x (out w).
  Proof.
    induction l as [|a l IH]; intros v w H HN Hw; [congruence|]. simpl in H. destruct H as [H1 H2].
    destruct Hw as [<-|Hw]; [exists a; simpl; auto|].
    destruct l as [|b l]; [simpl in Hw; easy|].
    destruct (IH a w H2) as (x & K1 & K2); [discriminate|auto|]. exists x. split; [right; auto|auto].
  Qed.

  Lemma path_write : forall l v, path v l -> write_consecutive out l = true.
  Proof.
    induction l as [|a l IH]; simpl; intros v H; auto. destruct l as [|b l]; auto.
    destruct H as [_ H]. pose proof (IH a H) as K. destruct H as [H _]. apply mem_In in H.
    simpl in *. rewrite H. auto.
  Qed.

  Lemma find_all_path : forall f vs m l, find_all out f vs m = Some l -> l <> [] -> (forall u, m u <> Gray) ->
    exists v, path v l /\ In (last l v) (v :: removelast l).
  Proof.
    induction vs as [|v vs IH]; simpl; intros m l H HN HG; [congruence|].
    destruct (m v) eqn:E; simpl in H; eauto.
    destruct (find out f m v) as [[[l'|] m2]|] eqn:F; try discriminate.
    - injection H as ->. destruct (find_path _ _ _ _ _ [] F E) as (_ & P1 & [[]|P2]).
      + intros u. split; [intros K; exfalso; eapply HG; eauto|easy].
      + eauto.
    - eapply (IH m2); eauto. intros u K. apply (go_gray _ _ _ _ F E) in K. eapply HG; eauto.
  Qed.
End DFS.
