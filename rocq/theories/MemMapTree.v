(** Trees in a heap of nodes with parent pointers: rotations, rebalancing, new leaves. *)
From Coq Require Import List NArith Arith Bool Lia Permutation.
From Verif Require Import MathUtilsModel LayoutModel StorageModel MemMapModel.
Import ListNotations.
Local Open Scope nat_scope.

Lemma upd_len : forall h i f, length (upd h i f) = length h.
Proof. induction h as [|n h IH]; intros [|i] f; cbn [upd length]; auto. Qed.
Lemma upd_nth : forall h i f j, nth_error (upd h i f) j = if j =? i then option_map f (nth_error h j) else nth_error h j.
Proof.
  induction h as [|n h IH]; intros i f j; [destruct i, j; cbn; try destruct (_ =? _); reflexivity|]. destruct i as [|i], j as [|j]; cbn [upd nth_error]; try reflexivity. rewrite IH. reflexivity.
Qed.
Lemma kid_par : forall d p n, kid d (set_par p n) = kid d n. Proof. intros [] p n; reflexivity. Qed.
Lemma kid_red : forall d b n, kid d (set_red b n) = kid d n. Proof. intros [] p n; reflexivity. Qed.
Lemma kid_kid : forall d d' k n, kid d (set_kid d' k n) = if Bool.eqb d d' then k else kid d n. Proof. intros [] [] k n; reflexivity. Qed.
Lemma par_kid : forall d k n, n_par (set_kid d k n) = n_par n. Proof. intros [] k n; reflexivity. Qed.

(** Shapes; [mk d i a b] has [b] on side [d]. *)
Inductive tr := Lf | Nd (i : nat) (l r : tr).
Definition mk (d : bool) (i : nat) (a b : tr) : tr := if d then Nd i a b else Nd i b a.
Fixpoint ids (t : tr) : list nat := match t with Lf => [] | Nd i l r => ids l ++ i :: ids r end.
Fixpoint rep (h : heap) (par : option nat) (t : tr) (ptr : option nat) : Prop :=
  match t with
  | Lf => ptr = None
  | Nd i l r => ptr = Some i /\ exists x, nth_error h i = Some x /\ n_par x = par /\ rep h (Some i) l (n_l x) /\ rep h (Some i) r (n_r x)
  end.
Lemma rep_mk : forall h par d i a b ptr, rep h par (mk d i a b) ptr <->
  ptr = Some i /\ exists x, nth_error h i = Some x /\ n_par x = par /\ rep h (Some i) a (kid (negb d) x) /\ rep h (Some i) b (kid d x).
Proof. intros h par [] i a b ptr; cbn; [reflexivity|]. split; intros [H [x [H1 [H2 [H3 H4]]]]]; (split; [exact H|]); exists x; auto. Qed.
Lemma ids_mk : forall d i a b k, In k (ids (mk d i a b)) <-> k = i \/ In k (ids a) \/ In k (ids b).
Proof. intros [] i a b k; cbn [mk ids]; rewrite in_app_iff; cbn [In]; intuition. Qed.
Lemma nodup_app : forall (A : Type) (l1 l2 : list A), NoDup (l1 ++ l2) <-> NoDup l1 /\ NoDup l2 /\ forall x, In x l1 -> ~ In x l2.
Proof.
  intros A l1 l2. induction l1 as [|y l1 IH]; cbn [app].
  - split; [intros H; split; [constructor|]; split; [exact H|intros x []]|tauto].
  - rewrite !NoDup_cons_iff, IH, in_app_iff. cbn [In]. split.
    + intros [H1 [H2 [H3 H4]]]. split; [tauto|]. split; [exact H3|]. intros x [->|Hx]; [tauto|]. apply H4. exact Hx.
    + intros [[H1 H2] [H3 H4]]. split; [|split; [exact H2|split; [exact H3|]]].
      * intros [Q|Q]; [tauto|]. apply (H4 y (or_introl eq_refl) Q).
      * intros x Hx. apply H4. right. exact Hx.
Qed.
Lemma nodup_mk : forall d i a b, NoDup (ids (mk d i a b)) <-> NoDup (ids a) /\ NoDup (ids b) /\ ~ In i (ids a) /\ ~ In i (ids b) /\ forall k, In k (ids a) -> ~ In k (ids b).
Proof.
  intros d i a b. assert (G : forall a b, NoDup (ids a ++ i :: ids b) <-> NoDup (ids a) /\ NoDup (ids b) /\ ~ In i (ids a) /\ ~ In i (ids b) /\ forall k, In k (ids a) -> ~ In k (ids b)).
  { clear. intros a b. rewrite nodup_app, NoDup_cons_iff. cbn [In]. split.
    - intros [H1 [[H2 H3] H4]]. split; [exact H1|]. split; [exact H3|]. split; [intros Q; apply (H4 i Q); left; reflexivity|]. split; [exact H2|].
      intros k Hk Q. apply (H4 k Hk). right. exact Q.
    - intros [H1 [H2 [H3 [H4 H5]]]]. split; [exact H1|]. split; [split; [exact H4|exact H2]|]. intros k Hk [->|Q]; [contradiction|]. exact (H5 k Hk Q). }
  destruct d; cbn [mk ids]; rewrite G; [reflexivity|]. split; intros [H1 [H2 [H3 [H4 H5]]]]; (split; [exact H2|]); (split; [exact H1|]); (split; [exact H4|]); (split; [exact H3|]); intros k K1 K2; exact (H5 k K2 K1).
Qed.

Definition links (h h' : heap) (i : nat) : Prop := forall x, nth_error h i = Some x -> exists x', nth_error h' i = Some x' /\ n_par x' = n_par x /\ n_l x' = n_l x /\ n_r x' = n_r x.
Lemma rep_ext : forall h h' t par ptr, (forall i, In i (ids t) -> links h h' i) -> rep h par t ptr -> rep h' par t ptr.
Proof.
  intros h h'. induction t as [|i l IHl r IHr]; intros par ptr HL HR; cbn [rep ids] in *; [exact HR|].
  destruct HR as [-> [x [H1 [H2 [H3 H4]]]]]. split; [reflexivity|]. destruct (HL i ltac:(apply in_app_iff; right; left; reflexivity) x H1) as [x' [K1 [K2 [K3 K4]]]].
  exists x'. split; [exact K1|]. split; [congruence|]. rewrite K3, K4. split; [apply IHl|apply IHr]; try assumption; intros k Hk; apply HL; apply in_app_iff; [left|right; right]; exact Hk.
Qed.

(** Contexts: the hole is on side [d] of the node of the first frame. *)
Definition frame := (bool * nat * tr)%type.
Fixpoint plug (c : list frame) (t : tr) : tr := match c with [] => t | (d, i, s) :: c' => plug c' (mk d i s t) end.
Fixpoint cids (c : list frame) : list nat := match c with [] => [] | (d, i, s) :: c' => i :: ids s ++ cids c' end.
Fixpoint crep (h : heap) (c : list frame) (par ptr root : option nat) : Prop :=
  match c with
  | [] => par = None /\ root = ptr
  | (d, i, s) :: c' => par = Some i /\ exists x, nth_error h i = Some x /\ kid d x = ptr /\ rep h (Some i) s (kid (negb d) x) /\ crep h c' (n_par x) (Some i) root
  end.
Lemma links_kid : forall h h' i x, links h h' i -> nth_error h i = Some x -> exists x', nth_error h' i = Some x' /\ n_par x' = n_par x /\ forall d, kid d x' = kid d x.
Proof. intros h h' i x H E. destruct (H x E) as [x' [K1 [K2 [K3 K4]]]]. exists x'. split; [exact K1|]. split; [exact K2|]. intros []; assumption. Qed.
Lemma crep_ext : forall h h' c par ptr root, (forall i, In i (cids c) -> links h h' i) -> crep h c par ptr root -> crep h' c par ptr root.
Proof.
  intros h h'. induction c as [|[[d i] s] c IH]; intros par ptr root HL HC; cbn [crep cids] in *; [exact HC|].
  destruct HC as [-> [x [H1 [H2 [H3 H4]]]]]. split; [reflexivity|]. destruct (links_kid _ _ _ _ (HL i (or_introl eq_refl)) H1) as [x' [K1 [K2 K3]]].
  exists x'. split; [exact K1|]. split; [rewrite K3; exact H2|]. rewrite K3, K2. split.
  - eapply rep_ext; [|exact H3]. intros k Hk. apply HL. right. apply in_app_iff. auto.
  - apply IH; [|exact H4]. intros k Hk. apply HL. right. apply in_app_iff. auto.
Qed.
Lemma rep_plug : forall h c t root, rep h None (plug c t) root <-> exists par ptr, crep h c par ptr root /\ rep h par t ptr.
Proof.
  intros h. induction c as [|[[d i] s] c IH]; intros t root; cbn [plug crep].
  - split; [intros H; exists None, root; auto|]. intros [par [ptr [[-> ->] H]]]. exact H.
  - rewrite IH. split.
    + intros [par [ptr [H1 H2]]]. apply rep_mk in H2. destruct H2 as [-> [x [K1 [K2 [K3 K4]]]]]. exists (Some i), (kid d x). split; [|exact K4].
      split; [reflexivity|]. exists x. split; [exact K1|]. split; [reflexivity|]. split; [exact K3|]. rewrite K2. exact H1.
    + intros [par [ptr [[-> [x [K1 [K2 [K3 K4]]]]] H2]]]. exists (n_par x), (Some i). split; [exact K4|]. apply rep_mk. split; [reflexivity|]. exists x. rewrite K2. auto.
Qed.
Lemma ids_plug_eq : forall c t t', ids t = ids t' -> ids (plug c t) = ids (plug c t').
Proof. induction c as [|[[d i] s] c IH]; intros t t' H; cbn [plug]; [exact H|]. apply IH. destruct d; cbn [mk ids]; rewrite H; reflexivity. Qed.
Lemma ids_plug_in : forall c t k, In k (ids (plug c t)) <-> In k (cids c) \/ In k (ids t).
Proof.
  induction c as [|[[d i] s] c IH]; intros t k; cbn [plug cids]; [cbn; tauto|]. rewrite IH, ids_mk. cbn [In]. rewrite in_app_iff. intuition.
Qed.
Lemma nodup_plug : forall c t, NoDup (ids (plug c t)) -> NoDup (ids t) /\ NoDup (cids c) /\ forall k, In k (ids t) -> ~ In k (cids c).
Proof.
  induction c as [|[[d i] s] c IH]; intros t H; cbn [plug cids] in *; [split; [exact H|split; [constructor|intros k _ []]]|].
  destruct (IH _ H) as [H1 [H0 H2]]. apply nodup_mk in H1. destruct H1 as [K1 [K2 [K3 [K4 K5]]]]. split; [exact K2|]. split.
  { constructor; [|apply nodup_app; split; [exact K1|split; [exact H0|]]; intros k Hk; apply H2; apply ids_mk; auto].
    intros Q. apply in_app_iff in Q. destruct Q as [Q|Q]; [contradiction|]. apply (H2 i); [apply ids_mk; auto|exact Q]. }
  intros k Hk [->|Q]; [contradiction|]. apply in_app_iff in Q. destruct Q as [Q|Q]; [exact (K5 k Q Hk)|]. apply (H2 k); [|exact Q]. apply ids_mk. auto.
Qed.
(** What never changes about a node. *)
Definition keys (h h' : heap) : Prop := length h' = length h /\ forall i x, nth_error h i = Some x -> exists x', nth_error h' i = Some x' /\ n_sep x' = n_sep x /\ n_dest x' = n_dest x.
Lemma keys_refl : forall h, keys h h. Proof. intros h. split; [reflexivity|]. eauto. Qed.
Lemma keys_trans : forall h h' h'', keys h h' -> keys h' h'' -> keys h h''.
Proof. intros h h' h'' [L1 H1] [L2 H2]. split; [congruence|]. intros i x E. destruct (H1 i x E) as [x' [K1 [K2 K3]]]. destruct (H2 i x' K1) as [x'' [J1 [J2 J3]]]. exists x''. split; [exact J1|]. split; congruence. Qed.
Lemma keys_upd : forall h i f, (forall x, n_sep (f x) = n_sep x /\ n_dest (f x) = n_dest x) -> keys h (upd h i f).
Proof.
  intros h i f H. split; [apply upd_len|]. intros j x E. rewrite upd_nth, E. destruct (j =? i); cbn [option_map]; [|eauto]. destruct (H x). eauto.
Qed.
Definition reds (h h' : heap) : Prop := forall i x x', nth_error h i = Some x -> nth_error h' i = Some x' -> n_red x' = n_red x.
Lemma links_red : forall h i b k, links h (upd h i (set_red b)) k.
Proof. intros h i b k x E. rewrite upd_nth, E. destruct (k =? i); cbn [option_map]; eexists; (split; [reflexivity|]); auto. Qed.

(** ** Rotations *)
Lemma ptr_eq_true : forall p q, ptr_eq p q = true <-> p = q.
Proof. intros [i|] [j|]; cbn; try (split; [discriminate|discriminate]); [rewrite Nat.eqb_eq; split; congruence|split; auto]. Qed.
Lemma ptr_eq_refl : forall p, ptr_eq p p = true. Proof. intros p. apply ptr_eq_true. reflexivity. Qed.
Lemma rep_ptr : forall h par t i, rep h par t (Some i) -> In i (ids t).
Proof. intros h par [|j l r] i H; cbn [rep ids] in *; [discriminate|]. destruct H as [H _]. injection H as <-. apply in_app_iff. right. left. reflexivity. Qed.
Lemma rotate_ok : forall d h root i j a b g c par,
  crep h c par (Some i) root -> rep h par (mk d i a (mk d j b g)) (Some i) -> NoDup (ids (plug c (mk d i a (mk d j b g)))) ->
  exists h' root', rotate d h root i = Done (h', root') /\ crep h' c par (Some j) root' /\ rep h' par (mk d j (mk d i a b) g) (Some j) /\ keys h h' /\ reds h h'.
Proof.
  intros d h root i j a b g c par HC HR HN. destruct (nodup_plug _ _ HN) as [ND [NDC NC]]. clear HN. apply nodup_mk in ND. destruct ND as [_ [ND [Nia [Nij Nab]]]].
  assert (HJ : In j (ids (mk d j b g))) by (apply ids_mk; auto). assert (HB : forall k, In k (ids b) -> In k (ids (mk d j b g))) by (intros k Hk; apply ids_mk; auto).
  assert (HG : forall k, In k (ids g) -> In k (ids (mk d j b g))) by (intros k Hk; apply ids_mk; auto).
  assert (NE : j <> i) by (intros ->; contradiction). assert (Nib : ~ In i (ids b)) by auto. assert (Nig : ~ In i (ids g)) by auto.
  assert (Nja : ~ In j (ids a)) by (intros Q; exact (Nab j Q HJ)). apply nodup_mk in ND. destruct ND as [NDb [_ [Njb [Njg Nbg]]]].
  assert (Nba : forall k, In k (ids b) -> ~ In k (ids a)) by (intros k K1 K2; exact (Nab k K2 (HB k K1))).
  assert (Ci : ~ In i (cids c)) by (apply NC; apply ids_mk; auto). assert (Cj : ~ In j (cids c)) by (apply NC; apply ids_mk; auto).
  assert (Cb : forall k, In k (ids b) -> ~ In k (cids c)) by (intros k Hk; apply NC; apply ids_mk; auto).
  assert (Ca : forall k, In k (ids a) -> ~ In k (cids c)) by (intros k Hk; apply NC; apply ids_mk; auto).
  assert (Cg : forall k, In k (ids g) -> ~ In k (cids c)) by (intros k Hk; apply NC; apply ids_mk; auto).
  apply rep_mk in HR. destruct HR as [_ [x [X1 [X2 [X3 X4]]]]]. apply rep_mk in X4. destruct X4 as [X4 [y [Y1 [Y2 [Y3 Y4]]]]].
  unfold rotate, node_at. rewrite X1. cbn [obind]. rewrite X4. rewrite Y1. cbn [obind]. cbv zeta.
  set (inner := kid (negb d) y) in *. set (h1 := upd h i (set_kid d inner)).
  set (h2 := match inner with Some b0 => upd h1 b0 (set_par (Some i)) | None => h1 end). set (h3 := upd h2 j (set_par (n_par x))).
  assert (KU : forall h0 i0 p0, keys h0 (upd h0 i0 (set_par p0))) by (intros; apply keys_upd; auto).
  assert (KK : forall h0 i0 d0 p0, keys h0 (upd h0 i0 (set_kid d0 p0))) by (intros; apply keys_upd; intros z; destruct d0; auto).
  assert (KR : forall h0 i0 d0 p0, reds h0 (upd h0 i0 (set_kid d0 p0))).
  { intros h0 i0 d0 p0 k z z' E1 E2. rewrite upd_nth, E1 in E2. destruct (k =? i0); cbn in E2; injection E2 as <-; [destruct d0|]; reflexivity. }
  assert (KP : forall h0 i0 p0, reds h0 (upd h0 i0 (set_par p0))).
  { intros h0 i0 p0 k z z' E1 E2. rewrite upd_nth, E1 in E2. destruct (k =? i0); cbn in E2; injection E2 as <-; reflexivity. }
  assert (RT : forall h0 h1 h2, keys h0 h1 -> reds h0 h1 -> reds h1 h2 -> reds h0 h2).
  { intros h0 h1' h2' [_ Q] R1 R2 k z z' E1 E2. destruct (Q k z E1) as [z1 [Q1 _]]. rewrite (R2 k z1 z' Q1 E2). apply (R1 k z z1 E1 Q1). }
  assert (HI : forall b0, inner = Some b0 -> In b0 (ids b)) by (intros b0 E; rewrite E in Y3; exact (rep_ptr _ _ _ _ Y3)).
  assert (K2 : keys h h2 /\ reds h h2).
  { unfold h2, h1. destruct inner as [b0|]; [split; [eapply keys_trans; [apply KK|apply KU]|eapply RT; [apply KK|apply KR|apply KP]]|split; [apply KK|apply KR]]. }
  assert (K3 : keys h h3 /\ reds h h3). { split; [eapply keys_trans; [apply K2|apply KU]|eapply RT; [apply K2|apply K2|apply KP]]. }
  assert (E3 : forall k, nth_error h3 k = if k =? i then Some (set_kid d inner x) else if k =? j then Some (set_par (n_par x) y)
                else if ptr_eq inner (Some k) then option_map (set_par (Some i)) (nth_error h k) else nth_error h k).
  { intros k. unfold h3, h2, h1. rewrite upd_nth. destruct (Nat.eqb_spec k j) as [->|Nk].
    - fold h1. fold h2. assert (Q : nth_error h2 j = Some y).
      { unfold h2, h1. destruct inner as [b0|] eqn:EI; [rewrite upd_nth; destruct (Nat.eqb_spec j b0) as [Ej|]; [exfalso; apply Njb; rewrite Ej; auto|]|]; rewrite upd_nth; destruct (Nat.eqb_spec j i); try contradiction; exact Y1. }
      rewrite Q. destruct (Nat.eqb_spec j i); [contradiction|]. reflexivity.
    - destruct inner as [b0|] eqn:EI.
      + cbn [ptr_eq]. rewrite upd_nth. destruct (Nat.eqb_spec k b0) as [->|Nb].
        * rewrite Nat.eqb_refl. rewrite upd_nth. destruct (Nat.eqb_spec b0 i) as [Eb|]; [exfalso; apply Nib; rewrite <- Eb; auto|reflexivity].
        * rewrite upd_nth. destruct (Nat.eqb_spec k i) as [->|]; [rewrite X1; reflexivity|]. destruct (Nat.eqb_spec b0 k); [congruence|reflexivity].
      + cbn [ptr_eq]. rewrite upd_nth. destruct (Nat.eqb_spec k i) as [->|]; [rewrite X1; reflexivity|reflexivity]. }
  assert (FIN : forall h4 root4, (forall k, nth_error h4 k = match c with (d0, p, s) :: _ => if k =? p then option_map (set_kid d0 (Some j)) (nth_error h3 k) else nth_error h3 k | [] => nth_error h3 k end) ->
    root4 = match c with [] => Some j | _ => root end -> keys h3 h4 -> reds h3 h4 ->
    let h5 := upd (upd h4 j (set_kid (negb d) (Some i))) i (set_par (Some j)) in
    crep h5 c par (Some j) root4 /\ rep h5 par (mk d j (mk d i a b) g) (Some j) /\ keys h h5 /\ reds h h5).
  { intros h4 root4 E4 ER KH RH h5. assert (PI : forall d0 p s c', c = (d0, p, s) :: c' -> p <> i /\ p <> j).
    { intros d0 p s c' ->. cbn [cids In] in *. split; intros ->; tauto. }
    assert (E5 : forall k, nth_error h5 k = if k =? i then Some (set_par (Some j) (set_kid d inner x)) else if k =? j then Some (set_kid (negb d) (Some i) (set_par (n_par x) y))
                 else if (match c with (d0, p, s) :: _ => k =? p | [] => false end) then option_map (set_kid (match c with (d0, _, _) :: _ => d0 | [] => d end) (Some j)) (nth_error h k)
                 else if ptr_eq inner (Some k) then option_map (set_par (Some i)) (nth_error h k) else nth_error h k).
    { intros k. unfold h5. rewrite !upd_nth, E4. destruct (Nat.eqb_spec k i) as [->|Ni].
      - destruct (Nat.eqb_spec i j); [congruence|]. destruct c as [|[[d0 p] s] c']; [|destruct (PI _ _ _ _ eq_refl) as [P1 P2]; destruct (Nat.eqb_spec i p); [congruence|]]; rewrite E3, Nat.eqb_refl; reflexivity.
      - destruct (Nat.eqb_spec k j) as [->|Nj].
        + destruct c as [|[[d0 p] s] c']; [|destruct (PI _ _ _ _ eq_refl) as [P1 P2]; destruct (Nat.eqb_spec j p); [congruence|]]; rewrite E3; destruct (Nat.eqb_spec j i); try contradiction; rewrite Nat.eqb_refl; reflexivity.
        + destruct c as [|[[d0 p] s] c']; rewrite E3; destruct (Nat.eqb_spec k i); try contradiction; destruct (Nat.eqb_spec k j); try contradiction; [reflexivity|].
          destruct (Nat.eqb_spec k p) as [->|Np]; [|reflexivity]. destruct (ptr_eq inner (Some p)) eqn:EP; [|reflexivity]. apply ptr_eq_true in EP. exfalso. apply (Cb p (HI p EP)). left. reflexivity. }
    assert (LK : forall k, k <> i -> k <> j -> (match c with (d0, p, s) :: _ => k =? p | [] => false end) = false -> inner <> Some k -> links h h5 k).
    { intros k Q1 Q2 Q3 Q4 z Ez. rewrite E5. destruct (Nat.eqb_spec k i); [contradiction|]. destruct (Nat.eqb_spec k j); [contradiction|]. rewrite Q3.
      destruct (ptr_eq inner (Some k)) eqn:EP; [apply ptr_eq_true in EP; contradiction|]. eauto. }
    assert (PF : forall k, ~ In k (cids c) -> (match c with (d0, p, s) :: _ => k =? p | [] => false end) = false).
    { intros k Hk. destruct c as [|[[d0 p] s] c']; [reflexivity|]. apply Nat.eqb_neq. intros ->. apply Hk. left. reflexivity. }
    assert (HRa : rep h5 (Some i) a (kid (negb d) x)).
    { eapply rep_ext; [|exact X3]. intros k Hk. apply LK; [intros ->; contradiction|intros ->; contradiction|apply PF; auto|]. intros E. apply (Nba k (HI k E) Hk). }
    assert (HRg : rep h5 (Some j) g (kid d y)).
    { eapply rep_ext; [|exact Y4]. intros k Hk. apply LK; [intros ->; contradiction|intros ->; contradiction|apply PF; auto|]. intros E. apply (Nbg k (HI k E) Hk). }
    assert (HRb : rep h5 (Some i) b inner).
    { destruct b as [|b0 bl br]; [exact Y3|]. cbn [rep] in Y3. destruct Y3 as [Y3 [z [Z1 [Z2 [Z3 Z4]]]]].
      assert (LB : forall k, In k (ids bl) \/ In k (ids br) -> k <> b0 -> links h h5 k).
      { intros k Hk Nk. assert (IK : In k (ids (Nd b0 bl br))) by (cbn [ids]; apply in_app_iff; cbn [In]; tauto).
        apply LK; [intros ->; contradiction|intros ->; contradiction|apply PF; apply Cb; exact IK|]. rewrite Y3. congruence. }
      apply (nodup_mk true) in NDb. destruct NDb as [_ [_ [B1 [B2 _]]]].
      assert (IB : In b0 (ids (Nd b0 bl br))) by (cbn [ids]; apply in_app_iff; right; left; reflexivity).
      cbn [rep]. split; [exact Y3|]. exists (set_par (Some i) z). split.
      - rewrite E5. destruct (Nat.eqb_spec b0 i) as [->|]; [contradiction|]. destruct (Nat.eqb_spec b0 j) as [->|]; [contradiction|]. rewrite (PF b0 (Cb b0 IB)), Y3, ptr_eq_refl, Z1. reflexivity.
      - split; [reflexivity|]. split; (eapply rep_ext; [|eassumption]); intros k Hk; apply LB; auto; intros ->; contradiction. }
    split; [|split; [|split]].
    - destruct c as [|[[d0 p] s] c']; [exact (conj (proj1 HC) ER)|]. cbn [crep] in HC |- *. destruct HC as [-> [z [Z1 [Z2 [Z3 Z4]]]]]. split; [reflexivity|].
      destruct (PI _ _ _ _ eq_refl) as [P1 P2]. exists (set_kid d0 (Some j) z). split; [|split; [|split]].
      + rewrite E5. destruct (Nat.eqb_spec p i); [contradiction|]. destruct (Nat.eqb_spec p j); [contradiction|]. rewrite Nat.eqb_refl, Z1. reflexivity.
      + rewrite kid_kid, Bool.eqb_reflx. reflexivity.
      + rewrite kid_kid. replace (Bool.eqb (negb d0) d0) with false by (destruct d0; reflexivity). eapply rep_ext; [|exact Z3]. intros k Hk.
        assert (IC : In k (cids ((d0, p, s) :: c'))) by (cbn [cids]; right; apply in_app_iff; auto).
        apply LK; [intros ->; contradiction|intros ->; contradiction| |intros E; exact (Cb k (HI k E) IC)]. apply Nat.eqb_neq. intros ->. apply NoDup_cons_iff in NDC. apply (proj1 NDC). apply in_app_iff; auto.
      + rewrite par_kid. rewrite ER. eapply crep_ext; [|exact Z4]. intros k Hk.
        assert (IC : In k (cids ((d0, p, s) :: c'))) by (cbn [cids]; right; apply in_app_iff; auto).
        apply LK; [intros ->; contradiction|intros ->; contradiction| |intros E; exact (Cb k (HI k E) IC)]. apply Nat.eqb_neq. intros ->. apply NoDup_cons_iff in NDC. apply (proj1 NDC). apply in_app_iff; auto.
    - apply rep_mk. split; [reflexivity|]. exists (set_kid (negb d) (Some i) (set_par (n_par x) y)). split; [rewrite E5; destruct (Nat.eqb_spec j i); [contradiction|]; rewrite Nat.eqb_refl; reflexivity|].
      rewrite par_kid. split; [cbn; exact X2|]. rewrite !kid_kid, Bool.eqb_reflx, kid_par. replace (Bool.eqb d (negb d)) with false by (destruct d; reflexivity). split; [|exact HRg].
      apply rep_mk. split; [reflexivity|]. exists (set_par (Some j) (set_kid d inner x)). split; [rewrite E5, Nat.eqb_refl; reflexivity|]. split; [reflexivity|].
      rewrite !kid_par, !kid_kid, Bool.eqb_reflx. replace (Bool.eqb (negb d) d) with false by (destruct d; reflexivity). split; assumption.
    - eapply keys_trans; [exact (proj1 K3)|]. eapply keys_trans; [exact KH|]. eapply keys_trans; [apply KK|apply KU].
    - eapply RT; [exact (keys_trans _ _ _ (proj1 K3) KH)|eapply RT; [exact (proj1 K3)|exact (proj2 K3)|exact RH]|]. eapply RT; [apply KK|apply KR|apply KP]. }
  destruct c as [|[[d0 p] s] c'].
  - cbn [crep] in HC. destruct HC as [-> ->]. rewrite X2. eexists _, _. split; [reflexivity|]. apply FIN; [reflexivity|reflexivity|apply keys_refl|]. intros k z z' Q1 Q2. congruence.
  - assert (HC' := HC). cbn [crep] in HC'. destruct HC' as [EP [z [Z1 [Z2 [Z3 Z4]]]]]. rewrite X2, EP.
    assert (PI : p <> i /\ p <> j) by (cbn [cids In] in *; split; intros ->; tauto). destruct PI as [P1 P2].
    assert (Z3' : nth_error h3 p = Some z).
    { rewrite E3. destruct (Nat.eqb_spec p i); [contradiction|]. destruct (Nat.eqb_spec p j); [contradiction|]. destruct (ptr_eq inner (Some p)) eqn:EI; [|exact Z1].
      apply ptr_eq_true in EI. exfalso. apply (Cb p (HI p EI)). left. reflexivity. }
    rewrite Z3'. cbn [obind].
    assert (SD : (if ptr_eq (kid (negb d) z) (Some i) then negb d else d) = d0).
    { destruct (Bool.bool_dec d0 d) as [->|ND0].
      - destruct (ptr_eq (kid (negb d) z) (Some i)) eqn:EQ; [|reflexivity]. apply ptr_eq_true in EQ. rewrite EQ in Z3. exfalso. apply Ci. right. apply in_app_iff. left. exact (rep_ptr _ _ _ _ Z3).
      - replace d0 with (negb d) in * by (destruct d, d0; cbn; congruence). rewrite Z2, ptr_eq_refl. reflexivity. }
    rewrite SD. eexists _, _. split; [reflexivity|]. rewrite <- EP. apply FIN; [intros k; apply upd_nth|reflexivity|apply KK|apply KR].
Qed.

(** ** Rebalancing *)
Lemma crep_root : forall h c par ptr root, crep h c par ptr root -> c <> [] -> exists r, root = Some r /\ In r (cids c).
Proof.
  intros h. induction c as [|[[d i] s] c IH]; intros par ptr root H N; [congruence|]. cbn [crep cids] in *. destruct H as [_ [x [_ [_ [_ H]]]]].
  destruct c as [|f c]; [cbn [crep] in H; destruct H as [_ ->]; exists i; split; [reflexivity|left; reflexivity]|].
  destruct (IH _ _ _ H ltac:(discriminate)) as [r [-> Hr]]. exists r. split; [reflexivity|]. right. apply in_app_iff. right. exact Hr.
Qed.
Lemma crep_black_upd : forall h i b c par ptr root, crep h c par ptr root -> crep (upd h i (set_red b)) c par ptr root.
Proof. intros. eapply crep_ext; [|eassumption]. intros k _. apply links_red. Qed.
Lemma rep_black_upd : forall h i b t par ptr, rep h par t ptr -> rep (upd h i (set_red b)) par t ptr.
Proof. intros. eapply rep_ext; [|eassumption]. intros k _. apply links_red. Qed.
Lemma keys_red : forall h i b, keys h (upd h i (set_red b)). Proof. intros. apply keys_upd. auto. Qed.
Lemma rep_node : forall h par t i, rep h par t (Some i) -> exists x, nth_error h i = Some x /\ n_par x = par.
Proof. intros h par [|j l r] i H; cbn [rep] in H; [discriminate|]. destruct H as [E [x [H1 [H2 _]]]]. injection E as <-. eauto. Qed.
Lemma rep_split : forall h par t i d, rep h par t (Some i) -> exists a b, t = mk d i a b.
Proof. intros h par [|j l r] i d H; cbn [rep] in H; [discriminate|]. destruct H as [E _]. injection E as <-. destruct d; [exists l, r|exists r, l]; reflexivity. Qed.
Lemma mk_flip : forall d i a b, mk (negb d) i a b = mk d i b a. Proof. intros [] i a b; reflexivity. Qed.
Definition blackroot (h : heap) (root : option nat) : Prop := forall r x, root = Some r -> nth_error h r = Some x -> n_red x = false.

Lemma loop_end : forall fuel h r1 d g s2 c P S T N par, 0 < fuel ->
  crep h ((d, g, s2) :: c) par (Some P) r1 -> rep h par (mk d P S T) (Some P) -> (exists a b, T = mk d N a b) -> NoDup (ids (plug ((d, g, s2) :: c) (mk d P S T))) ->
  exists h' r' t', obind (node_at h N) (fun x1 => obind (deref_ (n_par x1)) (fun p1 =>
                let h2 := upd h p1 (set_red false) in
                obind (node_at h2 p1) (fun y1 => obind (deref_ (n_par y1)) (fun g1 =>
                  let h3 := upd h2 g1 (set_red true) in
                  obind (rotate d h3 r1 g1) (fun '(h4, r4) => fix_loop fuel h4 r4 N))))) = Done (h', r') /\
    rep h' None t' r' /\ ids t' = ids (plug ((d, g, s2) :: c) (mk d P S T)) /\ keys h h'.
Proof.
  intros fuel h r1 d g s2 c P S T N par HF HC HR [ta [tb ET]] HN. assert (HR' := HR). apply rep_mk in HR'. destruct HR' as [_ [y [Y1 [Y2 [Y3 Y4]]]]].
  assert (EN : kid d y = Some N). { rewrite ET in Y4. apply rep_mk in Y4. apply Y4. } rewrite EN in Y4.
  destruct (rep_node _ _ _ _ Y4) as [x [X1 X2]].
  unfold node_at at 1. rewrite X1. cbn [obind]. rewrite X2. cbn [deref_ obind]. cbv zeta. unfold node_at at 1. rewrite upd_nth, Nat.eqb_refl, Y1. cbn [option_map obind].
  cbn [crep] in HC. destruct HC as [EP [z [Z1 [Z2 [Z3 Z4]]]]]. change (n_par (set_red false y)) with (n_par y). rewrite Y2, EP. cbn [deref_ obind].
  cbn [plug] in HN. set (h3 := upd (upd h P (set_red false)) g (set_red true)).
  assert (HC3 : crep h3 c (n_par z) (Some g) r1) by (apply crep_black_upd, crep_black_upd; exact Z4).
  assert (HR3 : rep h3 (n_par z) (mk d g s2 (mk d P S T)) (Some g)).
  { apply rep_black_upd, rep_black_upd. apply rep_mk. split; [reflexivity|]. exists z. split; [exact Z1|]. split; [reflexivity|]. split; [exact Z3|]. rewrite Z2, <- EP. exact HR. }
  destruct (rotate_ok d h3 r1 g P s2 S T c (n_par z) HC3 HR3 HN) as [h4 [r4 [E4 [C4 [R4 [K4 D4]]]]]]. rewrite E4. cbn [obind].
  destruct (nodup_plug _ _ HN) as [ND [_ NC]]. apply nodup_mk in ND. destruct ND as [_ [ND [_ [Ng _]]]]. apply nodup_mk in ND. destruct ND as [_ [_ [_ [NT _]]]].
  assert (IN : In N (ids T)) by (rewrite ET; apply ids_mk; auto). assert (NP : N <> P) by (intros ->; contradiction).
  assert (PG : P <> g). { intros ->. apply Ng. apply ids_mk. auto. }
  destruct fuel as [|fuel]; [lia|]. cbn [fix_loop].
  assert (NR : ptr_eq r4 (Some N) = false).
  { destruct (ptr_eq r4 (Some N)) eqn:E; [|reflexivity]. apply ptr_eq_true in E. subst r4. destruct c as [|f c].
    - cbn [crep] in C4. destruct C4 as [_ C4]. congruence.
    - destruct (crep_root _ _ _ _ _ C4 ltac:(discriminate)) as [r [Er Hr]]. injection Er as <-. exfalso. apply (NC N); [|exact Hr]. apply ids_mk. right. right. apply ids_mk. auto. }
  rewrite NR. apply rep_mk in R4. destruct R4 as [_ [y4 [Y41 [Y42 [Y43 Y44]]]]]. assert (EN4 : kid d y4 = Some N). { rewrite ET in Y44. apply rep_mk in Y44. apply Y44. }
  assert (Y44' := Y44). rewrite EN4 in Y44'. destruct (rep_node _ _ _ _ Y44') as [x4 [X41 X42]].
  unfold node_at at 1. rewrite X41. cbn [obind]. rewrite X42. cbn [deref_ obind]. unfold node_at at 1. rewrite Y41. cbn [obind].
  assert (RD : n_red y4 = false).
  { assert (Q : nth_error h3 P = Some (set_red false y)). { unfold h3. rewrite upd_nth. destruct (Nat.eqb_spec P g); [contradiction|]. rewrite upd_nth, Nat.eqb_refl, Y1. reflexivity. }
    rewrite (D4 P _ _ Q Y41). reflexivity. }
  rewrite RD. cbn [negb]. exists h4, r4, (plug c (mk d P (mk d g s2 S) T)). split; [reflexivity|]. split; [|split].
  - apply rep_plug. exists (n_par z), (Some P). split; [exact C4|]. apply rep_mk. split; [reflexivity|]. exists y4. auto.
  - cbn [plug]. apply ids_plug_eq. clear. destruct d; cbn [mk ids]; rewrite <- !app_assoc; reflexivity.
  - eapply keys_trans; [|exact K4]. eapply keys_trans; apply keys_red.
Qed.

Lemma fix_loop_ok : forall fuel c t0 n h root par, length c < fuel ->
  crep h c par (Some n) root -> rep h par t0 (Some n) -> NoDup (ids (plug c t0)) -> (c <> [] -> blackroot h root) ->
  exists h' root' t', fix_loop fuel h root n = Done (h', root') /\ rep h' None t' root' /\ ids t' = ids (plug c t0) /\ keys h h'.
Proof.
  induction fuel as [|fuel IH]; intros c t0 n h root par HF HC HR HN HB; [lia|]. cbn [fix_loop].
  destruct (ptr_eq root (Some n)) eqn:ER.
  { exists h, root, (plug c t0). split; [reflexivity|]. split; [apply rep_plug; eauto|]. split; [reflexivity|apply keys_refl]. }
  destruct c as [|[[d1 p] s1] c].
  { cbn [crep] in HC. destruct HC as [_ ->]. rewrite ptr_eq_refl in ER. discriminate. }
  assert (HC' := HC). cbn [crep] in HC'. destruct HC' as [EP [y [Y1 [Y2 [Y3 Y4]]]]]. subst par. destruct (rep_node _ _ _ _ HR) as [x [X1 X2]].
  unfold node_at at 1. rewrite X1. cbn [obind]. rewrite X2. cbn [deref_ obind]. unfold node_at at 1. rewrite Y1. cbn [obind].
  destruct (n_red y) eqn:RY; cbn [negb].
  2: { exists h, root, (plug ((d1, p, s1) :: c) t0). split; [reflexivity|]. split; [apply rep_plug; eauto|]. split; [reflexivity|apply keys_refl]. }
  specialize (HB ltac:(discriminate)).
  destruct c as [|[[d2 g] s2] c].
  { cbn [crep] in Y4. destruct Y4 as [_ ->]. rewrite (HB p y eq_refl Y1) in RY. discriminate. }
  assert (Y4' := Y4). cbn [crep] in Y4'. destruct Y4' as [EG [z [Z1 [Z2 [Z3 Z4]]]]]. rewrite EG. cbn [deref_ obind]. unfold node_at at 1. rewrite Z1. cbn [obind]. cbv zeta.
  destruct (nodup_plug _ _ HN) as [NDT [NDC NTC]]. assert (NDC' := NDC). cbn [cids] in NDC'. apply NoDup_cons_iff in NDC'. destruct NDC' as [Np NDC'].
  assert (Ps2 : ~ In p (ids s2)). { intros Q. apply Np. apply in_app_iff. right. right. apply in_app_iff. auto. }
  assert (Ns1 : ~ In n (ids s1)). { intros Q. apply (NTC n (rep_ptr _ _ _ _ HR)). cbn [cids]. right. apply in_app_iff. auto. }
  assert (ED : negb (ptr_eq (n_l z) (Some p)) = d2).
  { destruct d2.
    - destruct (ptr_eq (n_l z) (Some p)) eqn:E; [|reflexivity]. apply ptr_eq_true in E. exfalso. apply Ps2. change (n_l z) with (kid (negb true) z) in E. rewrite E in Z3. exact (rep_ptr _ _ _ _ Z3).
    - change (n_l z) with (kid false z). rewrite Z2, ptr_eq_refl. reflexivity. }
  rewrite ED.
  assert (ROT : exists h' root' t', obind (if ptr_eq (kid (negb d2) y) (Some n)
                   then obind (rotate (negb d2) h root p) (fun '(h1, r1) => Done (h1, r1, p))
                   else Done (h, root, n)) (fun '(h1, r1, n1) =>
              obind (node_at h1 n1) (fun x1 => obind (deref_ (n_par x1)) (fun p1 =>
                let h2 := upd h1 p1 (set_red false) in
                obind (node_at h2 p1) (fun y1 => obind (deref_ (n_par y1)) (fun g1 =>
                  let h3 := upd h2 g1 (set_red true) in
                  obind (rotate d2 h3 r1 g1) (fun '(h4, r4) => fix_loop fuel h4 r4 n1)))))) = Done (h', root') /\
            rep h' None t' root' /\ ids t' = ids (plug ((d1, p, s1) :: (d2, g, s2) :: c) t0) /\ keys h h').
  { assert (RP : rep h (n_par y) (mk d1 p s1 t0) (Some p)). { apply rep_mk. split; [reflexivity|]. exists y. rewrite Y2. auto. }
    cbn [length] in HF. destruct (Bool.bool_dec d1 d2) as [->|NE].
    - assert (E : ptr_eq (kid (negb d2) y) (Some n) = false).
      { destruct (ptr_eq (kid (negb d2) y) (Some n)) eqn:E; [|reflexivity]. apply ptr_eq_true in E. rewrite E in Y3. exfalso. apply Ns1. exact (rep_ptr _ _ _ _ Y3). }
      rewrite E. cbn [obind]. apply (loop_end fuel h root d2 g s2 c p s1 t0 n (n_par y) ltac:(lia) Y4 RP (rep_split _ _ _ _ d2 HR) HN).
    - assert (E1 : d1 = negb d2) by (destruct d1, d2; cbn; congruence). rewrite <- E1. rewrite Y2, ptr_eq_refl. destruct (rep_split _ _ _ _ d1 HR) as [ta [tb ET]]. subst t0.
      cbn [plug] in HN. change (plug c (mk d2 g s2 (mk d1 p s1 (mk d1 n ta tb)))) with (plug ((d2, g, s2) :: c) (mk d1 p s1 (mk d1 n ta tb))) in HN.
      destruct (rotate_ok d1 h root p n s1 ta tb ((d2, g, s2) :: c) (n_par y) Y4 RP HN) as [h1 [r1 [E [C1 [R1 [K1 D1]]]]]]. rewrite E. cbn [obind].
      assert (EI : ids (mk d1 n (mk d1 p s1 ta) tb) = ids (mk d1 p s1 (mk d1 n ta tb))) by (clear; destruct d1; cbn [mk ids]; rewrite <- !app_assoc; reflexivity).
      assert (EF : mk d1 n (mk d1 p s1 ta) tb = mk d2 n tb (mk d1 p s1 ta)) by (rewrite E1; apply mk_flip).
      rewrite EF in EI, R1.
      destruct (loop_end fuel h1 r1 d2 g s2 c n tb (mk d1 p s1 ta) p (n_par y) ltac:(lia) C1 R1) as [h' [r' [t' [F1 [F2 [F3 F4]]]]]].
      + exists ta, s1. rewrite E1. apply mk_flip.
      + rewrite (ids_plug_eq _ _ _ EI). exact HN.
      + exists h', r', t'. split; [exact F1|]. split; [exact F2|]. split; [|eapply keys_trans; eassumption]. rewrite F3. cbn [plug]. apply (ids_plug_eq c). clear - EI. destruct d2; cbn [mk ids] in *; rewrite EI; reflexivity. }
  destruct (kid (negb d2) z) as [u|] eqn:EU; [|exact ROT]. destruct (rep_node _ _ _ _ Z3) as [v [V1 V2]]. unfold node_at at 1. rewrite V1. cbn [obind].
  destruct (n_red v) eqn:RV; [|exact ROT]. clear ROT. set (h3 := upd (upd (upd h p (set_red false)) u (set_red false)) g (set_red true)).
  destruct (IH c (mk d2 g s2 (mk d1 p s1 t0)) g h3 root (n_par z)) as [h' [r' [t' [F1 [F2 [F3 F4]]]]]].
  - cbn [length] in HF. lia.
  - unfold h3. do 3 apply crep_black_upd. exact Z4.
  - unfold h3. do 3 apply rep_black_upd. apply rep_mk. split; [reflexivity|]. exists z. split; [exact Z1|]. split; [reflexivity|]. rewrite EU. split; [exact Z3|]. rewrite Z2. apply rep_mk. split; [reflexivity|]. exists y. rewrite Y2. split; [exact Y1|]. auto.
  - exact HN.
  - intros NE r w Er Ew. destruct (crep_root _ _ _ _ _ Z4 NE) as [r0 [Er0 Hr]]. assert (r0 = r) by congruence. subst r0.
    assert (NG : r <> g). { intros ->. cbn [plug] in HN. destruct (nodup_plug c _ HN) as [_ [_ Q]]. apply (Q g); [apply ids_mk; auto|exact Hr]. }
    unfold h3 in Ew. rewrite upd_nth in Ew. destruct (Nat.eqb_spec r g); [contradiction|]. rewrite upd_nth in Ew. destruct (r =? u).
    + destruct (nth_error (upd h p (set_red false)) r); cbn in Ew; [injection Ew as <-; reflexivity|discriminate].
    + rewrite upd_nth in Ew. destruct (r =? p); [destruct (nth_error h r); cbn in Ew; [injection Ew as <-; reflexivity|discriminate]|]. exact (HB r w Er Ew).
  - exists h', r', t'. split; [exact F1|]. split; [exact F2|]. split; [exact F3|]. eapply keys_trans; [|exact F4]. unfold h3. eapply keys_trans; [eapply keys_trans; apply keys_red|apply keys_red].
Qed.

(** ** Order in a context *)
Fixpoint pre (c : list frame) : list nat := match c with [] => [] | (d, i, s) :: c' => pre c' ++ (if d then ids s ++ [i] else []) end.
Fixpoint post (c : list frame) : list nat := match c with [] => [] | (d, i, s) :: c' => (if d then [] else i :: ids s) ++ post c' end.
Lemma ids_plug : forall c t, ids (plug c t) = pre c ++ ids t ++ post c.
Proof.
  induction c as [|[[d i] s] c IH]; intros t; cbn [plug pre post app]; [rewrite app_nil_r; reflexivity|]. rewrite IH. destruct d; cbn [mk ids app]; rewrite ?app_nil_r; rewrite <- ?app_assoc; cbn [app]; rewrite <- ?app_assoc; reflexivity.
Qed.
Lemma plug_app : forall c1 c2 t, plug (c1 ++ c2) t = plug c2 (plug c1 t).
Proof. induction c1 as [|[[d i] s] c1 IH]; intros c2 t; cbn [app plug]; [reflexivity|apply IH]. Qed.
Lemma find_ctx : forall t i, In i (ids t) -> exists c l r, t = plug c (Nd i l r).
Proof.
  induction t as [|j l IHl r IHr]; intros i H; cbn [ids] in H; [destruct H|]. apply in_app_iff in H. destruct H as [H|[->|H]].
  - destruct (IHl i H) as [c [l' [r' ->]]]. exists (c ++ [(false, j, r)]), l', r'. rewrite plug_app. reflexivity.
  - exists [], l, r. reflexivity.
  - destruct (IHr i H) as [c [l' [r' ->]]]. exists (c ++ [(true, j, l)]), l', r'. rewrite plug_app. reflexivity.
Qed.
Lemma rep_fun : forall h t t' par ptr, rep h par t ptr -> rep h par t' ptr -> t = t'.
Proof.
  intros h. induction t as [|i l IHl r IHr]; intros [|j l' r'] par ptr H H'; cbn [rep] in *; [reflexivity|destruct H'; congruence|destruct H; congruence|].
  destruct H as [E [x [H1 [_ [H2 H3]]]]], H' as [E' [x' [H1' [_ [H2' H3']]]]]. assert (i = j) by congruence. subst j. assert (x' = x) by congruence. subst x'.
  f_equal; [eapply IHl|eapply IHr]; eassumption.
Qed.
Lemma rep_lt : forall h t par ptr i, rep h par t ptr -> In i (ids t) -> i < length h.
Proof.
  intros h. induction t as [|j l IHl r IHr]; intros par ptr i H Hi; cbn [rep ids] in *; [destruct Hi|]. destruct H as [_ [x [H1 [_ [H2 H3]]]]].
  apply in_app_iff in Hi. destruct Hi as [Hi|[->|Hi]]; [eapply IHl; eassumption| |eapply IHr; eassumption]. apply nth_error_Some. congruence.
Qed.
Lemma rep_len : forall h t par ptr, rep h par t ptr -> NoDup (ids t) -> length (ids t) <= length h.
Proof.
  intros h t par ptr H N. rewrite <- (seq_length (length h) 0). apply NoDup_incl_length; [exact N|]. intros i Hi. apply in_seq. pose proof (rep_lt _ _ _ _ _ H Hi). lia.
Qed.
Lemma len_cids : forall c t, length c + length (ids t) <= length (ids (plug c t)).
Proof.
  induction c as [|[[d i] s] c IH]; intros t; cbn [plug length]; [lia|]. specialize (IH (mk d i s t)). assert (length (ids (mk d i s t)) >= S (length (ids t))); [|lia].
  destruct d; cbn [mk ids]; rewrite app_length; cbn [length]; lia.
Qed.

(** ** A new leaf *)
Lemma nth_snoc : forall (A : Type) (l : list A) x i, nth_error (l ++ [x]) i = if i =? length l then Some x else nth_error l i.
Proof.
  intros A l x i. destruct (Nat.eqb_spec i (length l)) as [->|N]; [rewrite nth_error_app2, Nat.sub_diag by lia; reflexivity|].
  destruct (Nat.lt_ge_cases i (length l)) as [L|L]; [apply nth_error_app1; exact L|]. rewrite nth_error_app2 by lia. destruct (i - length l) as [|k] eqn:E; [lia|]. cbn. rewrite (proj2 (nth_error_None l i)) by lia. destruct k; reflexivity.
Qed.
Lemma fixup_ok : forall h c n root par, crep h c par (Some n) root -> rep h par (Nd n Lf Lf) (Some n) -> NoDup (ids (plug c (Nd n Lf Lf))) -> (c <> [] -> blackroot h root) ->
  exists h' root' t', fixup h root n = Done (h', root') /\ rep h' None t' root' /\ ids t' = ids (plug c (Nd n Lf Lf)) /\ keys h h' /\ blackroot h' root'.
Proof.
  intros h c n root par HC HR HN HB. destruct (rep_node _ _ _ _ HR) as [x [X1 X2]]. unfold fixup. unfold node_at. rewrite X1. cbn [obind]. cbv zeta.
  assert (LC : length c < S (length h)).
  { assert (HP : rep h None (plug c (Nd n Lf Lf)) root) by (apply rep_plug; eauto). pose proof (rep_len _ _ _ _ HP HN). pose proof (len_cids c (Nd n Lf Lf)). cbn in H0. lia. }
  destruct (fix_loop_ok (S (length h)) c (Nd n Lf Lf) n (upd h n (set_red true)) root par LC) as [h' [r' [t' [F1 [F2 [F3 F4]]]]]].
  - apply crep_black_upd. exact HC.
  - apply rep_black_upd. exact HR.
  - exact HN.
  - intros NE r w Er Ew. destruct (crep_root _ _ _ _ _ HC NE) as [r0 [E0 H0]]. assert (r0 = r) by congruence. subst r0. rewrite upd_nth in Ew. destruct (Nat.eqb_spec r n) as [->|].
    + exfalso. destruct (nodup_plug _ _ HN) as [_ [_ Q]]. apply (Q n); [left; reflexivity|exact H0].
    + exact (HB NE r w Er Ew).
  - rewrite F1. cbn [obind]. destruct t' as [|r l0 r0].
    + exfalso. cbn [ids] in F3. symmetry in F3. assert (In n (ids (plug c (Nd n Lf Lf)))) by (apply ids_plug_in; right; left; reflexivity). rewrite F3 in H. destruct H.
    + assert (F2' := F2). cbn [rep] in F2'. destruct F2' as [-> _]. cbn [deref_ obind]. eexists _, _, (Nd r l0 r0). split; [reflexivity|]. split; [apply rep_black_upd; exact F2|]. split; [exact F3|]. split.
      * eapply keys_trans; [apply keys_red|]. eapply keys_trans; [exact F4|apply keys_red].
      * intros k w Ek Ew. injection Ek as <-. rewrite upd_nth, Nat.eqb_refl in Ew. destruct (nth_error h' r); cbn in Ew; [injection Ew as <-; reflexivity|discriminate].
Qed.
Lemma hang_ok : forall d h root n a c x, rep h None (plug c (mk d n a Lf)) root -> NoDup (ids (plug c (mk d n a Lf))) -> blackroot h root ->
  n_par x = Some n -> n_l x = None -> n_r x = None ->
  exists h' r' t', hang d h root n x = Done (h', r', length h) /\ rep h' None t' r' /\ ids t' = ids (plug c (mk d n a (Nd (length h) Lf Lf))) /\ keys (h ++ [x]) h' /\ blackroot h' r' /\
    NoDup (ids t').
Proof.
  intros d h root n a c x HR HN HB P1 P2 P3. unfold hang. set (k := length h).
  assert (FR : forall i, In i (ids (plug c (mk d n a Lf))) -> i < k) by (intros i Hi; exact (rep_lt _ _ _ _ _ HR Hi)).
  assert (NK : NoDup (ids (plug ((d, n, a) :: c) (Nd k Lf Lf)))).
  { rewrite ids_plug. change (plug c (mk d n a Lf)) with (plug ((d, n, a) :: c) Lf) in HN, FR. rewrite ids_plug in HN, FR. cbn [ids app] in HN, FR |- *.
    apply (Permutation_NoDup (l := k :: pre ((d, n, a) :: c) ++ post ((d, n, a) :: c))); [apply Permutation_middle|]. constructor; [|exact HN]. intros Q. specialize (FR k Q). lia. }
  apply rep_plug in HR. destruct HR as [par [ptr [HC HR]]]. apply rep_mk in HR. destruct HR as [-> [y [Y1 [Y2 [Y3 Y4]]]]]. cbn [rep] in Y4.
  set (h1 := upd (h ++ [x]) n (set_kid d (Some k))).
  assert (Nn : n <> k). { intros E. pose proof (proj1 (nth_error_Some h n) ltac:(congruence)). unfold k in E. lia. }
  assert (ND' := NK). destruct (nodup_plug _ _ ND') as [_ [NDC NTC]]. cbn [cids] in NDC. apply NoDup_cons_iff in NDC. destruct NDC as [Nn1 NDC].
  assert (LKS : forall i, i < k -> i <> n -> links h h1 i).
  { intros i Hi Ni z Ez. unfold h1. rewrite upd_nth. destruct (Nat.eqb_spec i n); [contradiction|]. rewrite nth_snoc. destruct (Nat.eqb_spec i (length h)); [unfold k in Hi; lia|]. rewrite Ez. eauto. }
  assert (LC : forall i, In i (ids a ++ cids c) -> links h h1 i).
  { intros i Hi. apply LKS; [|intros ->; contradiction]. apply FR. apply ids_plug_in. rewrite ids_mk. apply in_app_iff in Hi. tauto. }
  assert (Y1' : nth_error h1 n = Some (set_kid d (Some k) y)). { unfold h1. rewrite upd_nth, Nat.eqb_refl, nth_snoc. destruct (Nat.eqb_spec n (length h)); [contradiction|]. rewrite Y1. reflexivity. }
  assert (XK : nth_error h1 k = Some x). { unfold h1. rewrite upd_nth. destruct (Nat.eqb_spec k n); [congruence|]. rewrite nth_snoc. unfold k. rewrite Nat.eqb_refl. reflexivity. }
  assert (HC1 : crep h1 ((d, n, a) :: c) (Some n) (Some k) root).
  { cbn [crep]. split; [reflexivity|]. exists (set_kid d (Some k) y). split; [exact Y1'|]. rewrite !kid_kid, Bool.eqb_reflx. replace (Bool.eqb (negb d) d) with false by (destruct d; reflexivity). split; [reflexivity|]. split.
    - eapply rep_ext; [|exact Y3]. intros i Hi. apply LC. apply in_app_iff. auto.
    - rewrite par_kid, Y2. eapply crep_ext; [|exact HC]. intros i Hi. apply LC. apply in_app_iff. auto. }
  assert (HRK : rep h1 (Some n) (Nd k Lf Lf) (Some k)). { cbn [rep]. split; [reflexivity|]. exists x. rewrite P2, P3. auto. }
  destruct (fixup_ok h1 _ k root (Some n) HC1 HRK NK) as [h' [r' [t' [F1 [F2 [F3 [F4 F5]]]]]]].
  - intros _ r w Er Ew. unfold h1 in Ew. rewrite upd_nth in Ew. destruct (crep_root _ _ _ _ _ HC1 ltac:(discriminate)) as [r0 [E0 Hr0]]. assert (r0 = r) by congruence. subst r0.
    assert (RK : r < k). { apply FR. apply ids_plug_in. rewrite ids_mk. cbn [cids In] in Hr0. destruct Hr0 as [<-|Hr0]; [auto|]. apply in_app_iff in Hr0. tauto. }
    rewrite nth_snoc in Ew. destruct (Nat.eqb_spec r (length h)); [unfold k in RK; lia|]. destruct (r =? n).
    + destruct (nth_error h r) as [w0|] eqn:E1; cbn in Ew; [|discriminate]. injection Ew as <-. transitivity (n_red w0); [destruct d; reflexivity|]. exact (HB r w0 Er E1).
    + exact (HB r w Er Ew).
  - rewrite F1. cbn [obind]. exists h', r', t'. split; [reflexivity|]. split; [exact F2|]. split; [exact F3|]. split; [|split; [exact F5|rewrite F3; exact NK]].
    eapply keys_trans; [|exact F4]. unfold h1. apply keys_upd. intros z. destruct d; auto.
Qed.
