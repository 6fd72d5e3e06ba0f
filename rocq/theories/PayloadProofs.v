(** Invariant of the payload event model. *)
From Coq Require Import List ZArith NArith Arith Bool Lia Permutation.
From Verif Require Import PayloadModel.
Import ListNotations.

Section P.
Context {A : Type}.
Notation pst := (pst A).
Notation pobs := (pobs A).

(** Occurrences of an event in the log. *)
Definition n_sch (u : nat) (l : list pobs) : nat := length (filter (fun o => match o with OSch x => Nat.eqb x u | _ => false end) l).
Definition n_fire (u : nat) (l : list pobs) : nat := length (filter (fun o => match o with OFire x _ => Nat.eqb x u | _ => false end) l).
Definition n_can (u : nat) (l : list pobs) : nat := length (filter (fun o => match o with OCan x => Nat.eqb x u | _ => false end) l).
(** Preparation number of the payload in a proxy. *)
Definition has_uid (s : pst) (u p : nat) : bool := match p_pay (x_px s p) with Some (x, _) => Nat.eqb x u | None => false end.
(** Slots that hold payload [u]. *)
Definition n_pend (u : nat) (s : pst) : nat := length (filter (fun e => has_uid s u (fst e)) (x_pend s)).

(** [E]: proxies that may be idle without any handle (the one whose handler runs); [C]: free proxies that may have
    cancelled_ set. *)
Record PInv (E C : list nat) (s : pst) : Prop := {
  v_nd : NoDup (x_infl s ++ x_free s);
  v_all : forall p, In p (x_infl s ++ x_free s) <-> p < x_alloc s;
  v_in : forall p, p_in (x_px s p) = true <-> In p (x_infl s);
  v_pay : forall p, p_pay (x_px s p) <> None <-> In p (x_infl s);
  v_out : forall p, ~ In p (x_infl s) -> p_sched (x_px s p) = false /\ (p_canc (x_px s p) = true -> In p C) /\ p_obj (x_px s p) = 0;
  v_hnd : forall p, p_hnd (x_px s p) = Z.of_nat (p_obj (x_px s p));
  v_pnd : NoDup (map fst (x_pend s));
  v_pend : forall p, In p (map fst (x_pend s)) <-> p_sched (x_px s p) = true;
  v_live : forall p, In p (x_infl s) -> p_sched (x_px s p) = false -> p_obj (x_px s p) = 0 -> In p E;
  v_uid : forall p q u v w, p_pay (x_px s p) = Some (u, v) -> p_pay (x_px s q) = Some (u, w) -> p = q;
  v_prep : forall p u v, p_pay (x_px s p) = Some (u, v) -> In (OPrep u v) (x_log s);
  v_next : forall u v, In (OPrep u v) (x_log s) -> u < x_next s;
  v_fun : forall u v w, In (OPrep u v) (x_log s) -> In (OPrep u w) (x_log s) -> v = w;
  v_fire : forall u v, In (OFire u v) (x_log s) -> In (OPrep u v) (x_log s);
  v_cnt : forall u, n_sch u (x_log s) = n_fire u (x_log s) + n_can u (x_log s) + n_pend u s;
  v_old : forall u, n_sch u (x_log s) <> 0 -> u < x_next s
}.

Lemma xset_eq : forall f p (x : proxy A), xset f p x p = x.
Proof. intros. unfold xset. now rewrite Nat.eqb_refl. Qed.
Lemma xset_ne : forall f p (x : proxy A) q, q <> p -> xset f p x q = f q.
Proof. intros. unfold xset. destruct (Nat.eqb_spec q p); congruence. Qed.

Lemma init_inv : PInv [] [] (@p_init A).
Proof.
  constructor; cbn; intros; try tauto; try lia; try (split; intros; (congruence || lia || tauto)); try (constructor); try congruence.
Qed.

Lemma NoDup_app_iff_simple : forall (l : list nat) p, NoDup l -> ~ In p l -> NoDup (l ++ [p]).
Proof.
  induction l as [|a l IH]; intros p H N; cbn [app]; [repeat constructor; auto|]. inversion H as [|? ? NI ND]; subst. constructor.
  - intros C. apply in_app_or in C. destruct C as [C|[C|[]]]; [auto|]. subst. apply N. left. auto.
  - apply IH; auto. intros C. apply N. right. auto.
Qed.
Lemma filter_all_simple : forall (l : list nat) f, (forall x, In x l -> f x = true) -> filter f l = l.
Proof. induction l as [|a l IH]; intros f H; cbn [filter]; auto. rewrite (H a) by (left; auto). f_equal. apply IH. intros. apply H. right. auto. Qed.
Lemma in_rm : forall l p q, In q (filter (fun q => negb (Nat.eqb q p)) l) <-> In q l /\ q <> p.
Proof. intros. rewrite filter_In. rewrite negb_true_iff, Nat.eqb_neq. tauto. Qed.
Lemma in_rm_fst : forall (l : list (nat * N)) p q, In q (map fst (filter (fun e => negb (Nat.eqb (fst e) p)) l)) <-> In q (map fst l) /\ q <> p.
Proof.
  intros. rewrite !in_map_iff. split.
  - intros [e [<- H]]. apply filter_In in H. rewrite negb_true_iff, Nat.eqb_neq in H. split; [exists e; tauto|tauto].
  - intros [[e [<- H]] N]. exists e. split; [auto|]. apply filter_In. rewrite negb_true_iff, Nat.eqb_neq. tauto.
Qed.
Lemma nodup_rm_fst : forall (l : list (nat * N)) f, NoDup (map fst l) -> NoDup (map fst (filter f l)).
Proof.
  induction l as [|e l IH]; intros f H; cbn [filter map]; [constructor|]. cbn [map] in H. inversion H as [|? ? NI ND]; subst.
  destruct (f e); auto. cbn [map]. constructor; auto. intros C. apply NI. apply in_map_iff in C. destruct C as [x [E C]]. apply filter_In in C.
  rewrite <- E. apply in_map. tauto.
Qed.

(** Counting slots when one proxy loses its slot. *)
Lemma pend_rm : forall (l : list (nat * N)) (g : nat -> bool) p, NoDup (map fst l) ->
  length (filter (fun e => g (fst e)) l) = length (filter (fun e => g (fst e)) (filter (fun e => negb (Nat.eqb (fst e) p)) l))
   + (if existsb (fun e => Nat.eqb (fst e) p) l && g p then 1 else 0).
Proof.
  induction l as [|e l IH]; intros g p H; [reflexivity|]. cbn [map] in H. inversion H as [|? ? NI ND]; subst.
  cbn [filter existsb]. destruct (Nat.eqb_spec (fst e) p) as [EQ|NE]; cbn [negb orb].
  - rewrite EQ in *. assert (X : existsb (fun e0 : nat * N => Nat.eqb (fst e0) p) l = false).
    { destruct (existsb _ l) eqn:EX; auto. exfalso. apply existsb_exists in EX. destruct EX as [y [Y1 Y2]]. apply Nat.eqb_eq in Y2. apply NI. rewrite <- Y2. now apply in_map. }
    specialize (IH g p ND). rewrite X in IH. cbn [andb] in IH. cbn [andb]. destruct (g p); cbn [length]; lia.
  - specialize (IH g p ND). cbn [filter]. destruct (g (fst e)); cbn [length]; lia.
Qed.
Lemma existsb_fst : forall (l : list (nat * N)) p, existsb (fun e => Nat.eqb (fst e) p) l = true <-> In p (map fst l).
Proof.
  intros. rewrite existsb_exists, in_map_iff. split; intros [e [H1 H2]]; exists e.
  - apply Nat.eqb_eq in H2. auto.
  - subst. split; [auto|]. apply Nat.eqb_refl.
Qed.

Lemma n_pend_ext : forall u (s s' : pst), x_pend s' = x_pend s -> (forall p, In p (map fst (x_pend s)) -> has_uid s' u p = has_uid s u p) -> n_pend u s' = n_pend u s.
Proof.
  intros u s s' E H. unfold n_pend. rewrite E. f_equal. apply filter_ext_in. intros e I. apply H. now apply in_map.
Qed.

(** prepare *)
Lemma prepare_inv : forall E C s v s', PInv E C s -> prepare s v = Some s' -> PInv E C s' /\ x_cur s' = x_cur s.
Proof.
  intros E C s v s' H P.
  assert (G : exists p n fr, ~ In p (x_infl s) /\ s' = mkP (xset (x_px s) p (mkPx (p_sched (x_px s p)) (p_canc (x_px s p)) (p_hnd (x_px s p) + 1) (S (p_obj (x_px s p))) true (Some (x_next s, v))))
        n fr (x_infl s ++ [p]) (x_pend s) (x_stale s) (x_cur s) (x_now s) (S (x_next s)) (OPrep (x_next s) v :: x_log s)
     /\ NoDup ((x_infl s ++ [p]) ++ fr) /\ forall q, In q ((x_infl s ++ [p]) ++ fr) <-> q < n).
  { pose proof (v_nd _ _ _ H) as ND. pose proof (v_all _ _ _ H) as AL. unfold prepare in P. destruct (x_free s) as [|p r].
    - destruct (Nat.ltb _ _); [|discriminate]. injection P as <-. rewrite app_nil_r in *. exists (x_alloc s), (S (x_alloc s)), [].
      assert (NI : ~ In (x_alloc s) (x_infl s)) by (intros X; apply AL in X; lia).
      split; [auto|]. split; [reflexivity|]. rewrite app_nil_r. split.
      + apply NoDup_app_iff_simple; auto.
      + intros q. rewrite in_app_iff, AL. cbn. lia.
    - destruct (p_sched (x_px s p)) eqn:PS; [discriminate|]. injection P as <-. exists p, (x_alloc s), r.
      split; [|split; [rewrite PS; reflexivity|]].
      + apply NoDup_remove_2 in ND. intros X. apply ND. apply in_or_app. auto.
      + rewrite <- app_assoc. cbn [app]. auto. }
  destruct G as [p [n [fr [NI [-> [ND AL]]]]]]. split; [|reflexivity].
  destruct (v_out _ _ _ H p NI) as [O1 [O2 O3]].
  constructor; cbn [x_px x_alloc x_free x_infl x_pend x_stale x_cur x_now x_next x_log]; auto.
  - intros q. destruct (Nat.eq_dec q p) as [->|NE].
    + rewrite xset_eq. cbn. rewrite in_app_iff. cbn. tauto.
    + rewrite xset_ne by auto. rewrite (v_in _ _ _ H), in_app_iff. cbn. intuition congruence.
  - intros q. destruct (Nat.eq_dec q p) as [->|NE].
    + rewrite xset_eq. cbn. rewrite in_app_iff. cbn. intuition congruence.
    + rewrite xset_ne by auto. rewrite (v_pay _ _ _ H), in_app_iff. cbn. intuition congruence.
  - intros q NQ. rewrite in_app_iff in NQ. cbn in NQ. rewrite xset_ne by (intros ->; tauto). apply (v_out _ _ _ H). tauto.
  - intros q. destruct (Nat.eq_dec q p) as [->|NE].
    + rewrite xset_eq. cbn [p_hnd p_obj]. rewrite (v_hnd _ _ _ H). lia.
    + rewrite xset_ne by auto. apply (v_hnd _ _ _ H).
  - apply (v_pnd _ _ _ H).
  - intros q. rewrite (v_pend _ _ _ H). destruct (Nat.eq_dec q p) as [->|NE]; [rewrite xset_eq|rewrite xset_ne by auto]; cbn; tauto.
  - intros q IQ. destruct (Nat.eq_dec q p) as [->|NE].
    + rewrite xset_eq. cbn. lia.
    + rewrite xset_ne by auto. rewrite in_app_iff in IQ. cbn in IQ. intros. apply (v_live _ _ _ H); auto. intuition congruence.
  - assert (F : forall q v', p_pay (x_px s q) = Some (x_next s, v') -> False).
    { intros q v' Q. apply (v_prep _ _ _ H) in Q. apply (v_next _ _ _ H) in Q. lia. }
    intros q q' u w w' Q Q'. destruct (Nat.eq_dec q p) as [->|NE]; destruct (Nat.eq_dec q' p) as [->|NE']; auto;
      rewrite ?xset_eq, ?xset_ne in * by auto; cbn [p_pay] in *.
    + injection Q as <- <-. exfalso. eapply F; eauto.
    + injection Q' as <- <-. exfalso. eapply F; eauto.
    + eapply (v_uid _ _ _ H); eauto.
  - intros q u w Q. destruct (Nat.eq_dec q p) as [->|NE]; rewrite ?xset_eq, ?xset_ne in * by auto; cbn [p_pay] in *.
    + injection Q as <- <-. left. auto.
    + right. eapply (v_prep _ _ _ H); eauto.
  - intros u w [Q|Q]; [injection Q as <- <-; lia|]. apply (v_next _ _ _ H) in Q. lia.
  - intros u w w' [Q|Q] [Q'|Q'].
    + congruence.
    + injection Q as <- <-. apply (v_next _ _ _ H) in Q'. lia.
    + injection Q' as <- <-. apply (v_next _ _ _ H) in Q. lia.
    + eapply (v_fun _ _ _ H); eauto.
  - intros u w [Q|Q]; [discriminate|]. right. apply (v_fire _ _ _ H); auto.
  - intros u. unfold n_sch, n_fire, n_can. cbn [filter]. fold (n_sch u (x_log s)) (n_fire u (x_log s)) (n_can u (x_log s)).
    rewrite (v_cnt _ _ _ H). f_equal. symmetry. apply n_pend_ext; [reflexivity|]. intros q IQ. unfold has_uid. cbn [x_px].
    rewrite xset_ne; [auto|]. intros ->. apply (v_pend _ _ _ H) in IQ. congruence.
  - intros u Q. unfold n_sch in Q. cbn [filter] in Q. apply (v_old _ _ _ H) in Q. lia.
Qed.

(** reclaim ends the exemption of a proxy. *)
Lemma reclaim_inv : forall E C s p, PInv (p :: E) (p :: C) s -> PInv E C (reclaim s p).
Proof.
  intros E C s p H. unfold reclaim. pose proof (v_hnd _ _ _ H p) as HH.
  destruct (p_sched (x_px s p)) eqn:SC; cbn [negb andb].
  { destruct H. constructor; auto.
    - intros q I1. destruct (v_out0 q I1) as [O1 [O2 O3]]. split; [auto|]. split; [|auto]. intros Q. destruct (O2 Q) as [<-|]; auto. congruence.
    - intros q I1 I2 I3. destruct (v_live0 q I1 I2 I3) as [<-|]; auto. congruence. }
  destruct (Z.eqb_spec (p_hnd (x_px s p)) 0) as [Z0|Z0].
  2:{ destruct H. constructor; auto.
    - intros q I1. destruct (v_out0 q I1) as [O1 [O2 O3]]. split; [auto|]. split; [|auto]. intros Q. destruct (O2 Q) as [<-|]; auto. lia.
    - intros q I1 I2 I3. destruct (v_live0 q I1 I2 I3) as [<-|]; auto. lia. }
  assert (OB : p_obj (x_px s p) = 0) by lia. pose proof (v_in _ _ _ H p) as VI.
  destruct (p_in (x_px s p)) eqn:PI.
  - assert (IP : In p (x_infl s)) by tauto. cbn [x_px]. rewrite xset_eq. cbn [p_sched p_hnd p_obj p_in p_pay].
    set (x' := mkPx false false (p_hnd (x_px s p)) (p_obj (x_px s p)) false None).
    assert (PX : forall q, x_px (set_px (mkP (xset (x_px s) p (mkPx false (p_canc (x_px s p)) (p_hnd (x_px s p)) (p_obj (x_px s p)) false None))
                    (x_alloc s) (p :: x_free s) (filter (fun q => negb (Nat.eqb q p)) (x_infl s))
                    (x_pend s) (x_stale s) (x_cur s) (x_now s) (x_next s) (x_log s)) p x') q = if Nat.eqb q p then x' else x_px s q).
    { intros q. cbn [set_px x_px]. unfold xset. destruct (Nat.eqb q p); auto. }
    unfold set_px in *. cbn [x_px x_alloc x_free x_infl x_pend x_stale x_cur x_now x_next x_log] in *.
    assert (SP : exists l1 l2, x_infl s = l1 ++ p :: l2 /\ filter (fun q => negb (Nat.eqb q p)) (x_infl s) = l1 ++ l2).
    { destruct (in_split _ _ IP) as [l1 [l2 E2]]. exists l1, l2. split; [auto|]. pose proof (v_nd _ _ _ H) as ND. rewrite E2 in ND. rewrite <- app_assoc in ND. cbn [app] in ND.
      apply NoDup_remove_2 in ND. rewrite E2, filter_app. cbn [filter]. rewrite Nat.eqb_refl. cbn [negb].
      rewrite !filter_all_simple; auto; intros q I; rewrite negb_true_iff, Nat.eqb_neq; intros ->; apply ND; rewrite !in_app_iff; auto. }
    destruct SP as [l1 [l2 [E2 E3]]].
    constructor; cbn [x_px x_alloc x_free x_infl x_pend x_stale x_cur x_now x_next x_log].
    + rewrite E3. pose proof (v_nd _ _ _ H) as ND. rewrite E2 in ND. rewrite <- app_assoc in *. cbn [app] in *.
      apply (Permutation.Permutation_NoDup (l := l1 ++ p :: l2 ++ x_free s)); auto.
      apply Permutation.Permutation_app_head. change (p :: l2 ++ x_free s) with ((p :: l2) ++ x_free s). apply Permutation.Permutation_middle.
    + intros q. rewrite E3. rewrite <- (v_all _ _ _ H). rewrite E2. rewrite !in_app_iff. cbn. rewrite ?in_app_iff. tauto.
    + intros q. rewrite PX, in_rm. destruct (Nat.eqb_spec q p) as [->|NE]; cbn; [intuition congruence|]. rewrite (v_in _ _ _ H). tauto.
    + intros q. rewrite PX, in_rm. destruct (Nat.eqb_spec q p) as [->|NE]; cbn; [intuition congruence|]. rewrite (v_pay _ _ _ H). tauto.
    + intros q NQ. rewrite PX. rewrite in_rm in NQ. destruct (Nat.eqb_spec q p) as [->|NE]; cbn; [intuition congruence|].
      destruct (v_out _ _ _ H q ltac:(tauto)) as [O1 [O2 O3]]. split; [auto|]. split; [|auto]. intros Q. destruct (O2 Q) as [X|X]; [congruence|auto].
    + intros q. rewrite PX. destruct (Nat.eqb_spec q p) as [->|NE]; cbn; apply (v_hnd _ _ _ H).
    + apply (v_pnd _ _ _ H).
    + intros q. rewrite PX. rewrite (v_pend _ _ _ H). destruct (Nat.eqb_spec q p) as [->|NE]; cbn; [|tauto]. rewrite SC. tauto.
    + intros q IQ. rewrite PX. rewrite in_rm in IQ. destruct (Nat.eqb_spec q p) as [->|NE]; [tauto|]. intros Q1 Q2.
      destruct (v_live _ _ _ H q (proj1 IQ) Q1 Q2) as [X|X]; [congruence|exact X].
    + intros q q' u v w. rewrite !PX. destruct (Nat.eqb q p); [discriminate|]. destruct (Nat.eqb q' p); [discriminate|]. apply (v_uid _ _ _ H).
    + intros q u v. rewrite PX. destruct (Nat.eqb q p); [discriminate|]. apply (v_prep _ _ _ H).
    + apply (v_next _ _ _ H).
    + apply (v_fun _ _ _ H).
    + apply (v_fire _ _ _ H).
    + intros u. rewrite (v_cnt _ _ _ H). f_equal. symmetry. apply n_pend_ext; [reflexivity|]. intros q IQ. unfold has_uid. cbn [x_px]. rewrite PX.
      destruct (Nat.eqb_spec q p) as [->|NE]; auto. apply (v_pend _ _ _ H) in IQ. congruence.
    + apply (v_old _ _ _ H).
  - assert (NP : ~ In p (x_infl s)) by (intros X; apply VI in X; discriminate).
    destruct (v_out _ _ _ H p NP) as [O1 [O2 O3]].
    set (x' := mkPx (p_sched (x_px s p)) false (p_hnd (x_px s p)) (p_obj (x_px s p)) (p_in (x_px s p)) (p_pay (x_px s p))).
    assert (PX : forall q, p_sched (xset (x_px s) p x' q) = p_sched (x_px s q) /\ p_hnd (xset (x_px s) p x' q) = p_hnd (x_px s q)
      /\ p_obj (xset (x_px s) p x' q) = p_obj (x_px s q) /\ p_in (xset (x_px s) p x' q) = p_in (x_px s q) /\ p_pay (xset (x_px s) p x' q) = p_pay (x_px s q)).
    { intros q. unfold xset. destruct (Nat.eqb_spec q p) as [->|]; cbn; auto. }
    assert (Q1 : forall q, p_sched (xset (x_px s) p x' q) = p_sched (x_px s q)) by (intros; apply PX).
    assert (Q2 : forall q, p_hnd (xset (x_px s) p x' q) = p_hnd (x_px s q)) by (intros; apply PX).
    assert (Q3 : forall q, p_obj (xset (x_px s) p x' q) = p_obj (x_px s q)) by (intros; apply PX).
    assert (Q4 : forall q, p_in (xset (x_px s) p x' q) = p_in (x_px s q)) by (intros; apply PX).
    assert (Q5 : forall q, p_pay (xset (x_px s) p x' q) = p_pay (x_px s q)) by (intros; apply PX).
    unfold set_px. destruct H. constructor; cbn [x_px x_alloc x_free x_infl x_pend x_stale x_cur x_now x_next x_log]; intros; rewrite ?Q1, ?Q2, ?Q3, ?Q4, ?Q5 in *; eauto.
    + destruct (v_out0 p0 H) as [R1 [R2 R3]]. split; [auto|]. split; [|auto]. intros Q. unfold xset in Q. destruct (Nat.eqb_spec p0 p) as [->|NE]; [discriminate|].
      destruct (R2 Q) as [X|X]; [congruence|auto].
    + destruct (v_live0 p0 H H0 H1) as [<-|]; auto. tauto.
    + rewrite v_cnt0. f_equal. symmetry. apply n_pend_ext; [reflexivity|]. intros q IQ. unfold has_uid. cbn [x_px]. now rewrite Q5.
Qed.

Lemma inv_mono : forall E C E' C' s, (forall x, In x E -> In x E') -> (forall x, In x C -> In x C') -> PInv E C s -> PInv E' C' s.
Proof. intros E C E' C' s HE HC H. destruct H. constructor; auto. intros p NI. destruct (v_out0 p NI) as [? [? ?]]. auto. Qed.

(** Taking the slot of a proxy away, with cancelled_ set or not; [o] is what is recorded. *)
Lemma unslot_inv : forall E C s p (c : bool) stale cur log',
  PInv E C s ->
  (forall u, n_sch u log' = n_sch u (x_log s)) ->
  (forall u, n_fire u log' + n_can u log' = n_fire u (x_log s) + n_can u (x_log s) + (if p_sched (x_px s p) && has_uid s u p then 1 else 0)) ->
  (forall u v, In (OPrep u v) log' <-> In (OPrep u v) (x_log s)) ->
  (forall u v, In (OFire u v) log' -> In (OPrep u v) (x_log s)) ->
  PInv (p :: E) (p :: C) (mkP (xset (x_px s) p (mkPx false c (p_hnd (x_px s p)) (p_obj (x_px s p)) (p_in (x_px s p)) (p_pay (x_px s p))))
      (x_alloc s) (x_free s) (x_infl s) (filter (fun e => negb (Nat.eqb (fst e) p)) (x_pend s)) stale cur (x_now s) (x_next s) log').
Proof.
  intros E C s p c stale cur log' H L1 L2 L3 L4. set (x' := mkPx false c _ _ _ _).
  assert (Q2 : forall q, p_hnd (xset (x_px s) p x' q) = p_hnd (x_px s q)) by (intros q; unfold xset; destruct (Nat.eqb_spec q p) as [->|]; auto).
  assert (Q3 : forall q, p_obj (xset (x_px s) p x' q) = p_obj (x_px s q)) by (intros q; unfold xset; destruct (Nat.eqb_spec q p) as [->|]; auto).
  assert (Q4 : forall q, p_in (xset (x_px s) p x' q) = p_in (x_px s q)) by (intros q; unfold xset; destruct (Nat.eqb_spec q p) as [->|]; auto).
  assert (Q5 : forall q, p_pay (xset (x_px s) p x' q) = p_pay (x_px s q)) by (intros q; unfold xset; destruct (Nat.eqb_spec q p) as [->|]; auto).
  assert (Q1 : forall q, p_sched (xset (x_px s) p x' q) = if Nat.eqb q p then false else p_sched (x_px s q)) by (intros q; unfold xset; destruct (Nat.eqb_spec q p) as [->|]; auto).
  destruct H. constructor; cbn [x_px x_alloc x_free x_infl x_pend x_stale x_cur x_now x_next x_log]; intros; rewrite ?Q1, ?Q2, ?Q3, ?Q4, ?Q5, ?L3 in *; eauto.
  - destruct (v_out0 p0 H) as [R1 [R2 R3]]. split; [destruct (Nat.eqb p0 p); auto|]. split; [|auto]. intros Q. unfold xset in Q. destruct (Nat.eqb_spec p0 p) as [->|NE]; [left; auto|right; auto].
  - apply nodup_rm_fst; auto.
  - rewrite in_rm_fst, v_pend0. destruct (Nat.eqb_spec p0 p) as [->|NE]; intuition congruence.
  - destruct (Nat.eqb_spec p0 p) as [->|NE]; [left; auto|right; auto].
  - rewrite L1. specialize (L2 u). specialize (v_cnt0 u). rewrite v_cnt0.
    enough (n_pend u s = (if p_sched (x_px s p) && has_uid s u p then 1 else 0) + n_pend u (mkP (xset (x_px s) p x') (x_alloc s) (x_free s) (x_infl s) (filter (fun e => negb (Nat.eqb (fst e) p)) (x_pend s)) stale cur (x_now s) (x_next s) log')) by lia.
    unfold n_pend at 1. rewrite (pend_rm (x_pend s) (has_uid s u) p v_pnd0). rewrite Nat.add_comm. f_equal.
    + destruct (existsb _ _) eqn:EX.
      * apply existsb_fst in EX. apply v_pend0 in EX. now rewrite EX.
      * destruct (p_sched (x_px s p)) eqn:SP; auto. apply v_pend0 in SP. apply existsb_fst in SP. congruence.
    + unfold n_pend. cbn [x_pend]. f_equal. apply filter_ext_in. intros e _. unfold has_uid. cbn [x_px]. now rewrite Q5.
  - rewrite L1 in H. auto.
Qed.

Lemma event_cancelled_inv : forall E C s p stale, PInv E C s ->
  PInv E C (event_cancelled (set_slots s (filter (fun e => negb (Nat.eqb (fst e) p)) (x_pend s)) stale) p).
Proof.
  intros E C s p stale H. unfold event_cancelled. cbn [set_slots x_px]. apply reclaim_inv.
  destruct (p_sched (x_px s p)) eqn:SP.
  - assert (IP : In p (x_infl s)). { destruct (in_dec Nat.eq_dec p (x_infl s)) as [|NI]; auto. apply (v_out _ _ _ H) in NI. intuition congruence. }
    destruct (p_pay (x_px s p)) as [[u v]|] eqn:PP.
    2:{ apply (v_pay _ _ _ H) in IP. congruence. }
    unfold set_px, pnote, set_slots. cbn [x_px x_alloc x_free x_infl x_pend x_stale x_cur x_now x_next x_log]. rewrite <- PP.
    apply unslot_inv; auto.
    + intros w. unfold n_fire, n_can. cbn [filter]. rewrite SP. unfold has_uid. rewrite PP. cbn [andb]. destruct (Nat.eqb u w); cbn [length]; lia.
    + intros w z. cbn. intuition congruence.
    + intros w z [Q|Q]; [discriminate|]. apply (v_fire _ _ _ H); auto.
  - unfold set_px, pnote, set_slots. cbn [x_px x_alloc x_free x_infl x_pend x_stale x_cur x_now x_next x_log].
    apply unslot_inv; auto.
    + intros w. rewrite SP. cbn [andb]. lia.
    + intros; tauto.
    + apply (v_fire _ _ _ H).
Qed.
Lemma cancel_p_inv : forall E C s p, PInv E C s -> PInv E C (cancel_p s p).
Proof. intros. apply event_cancelled_inv; auto. Qed.
Lemma fold_inv : forall (P : pst -> Prop) (f : pst -> nat -> pst), (forall s p, P s -> P (f s p)) -> forall l s, P s -> P (fold_left f l s).
Proof. intros P f Hf. induction l; intros; cbn [fold_left]; auto. Qed.

Lemma reclaim_frame : forall (s : pst) p, x_cur (reclaim s p) = x_cur s /\ x_now (reclaim s p) = x_now s /\ x_pend (reclaim s p) = x_pend s /\ x_stale (reclaim s p) = x_stale s
  /\ x_next (reclaim s p) = x_next s /\ x_log (reclaim s p) = x_log s.
Proof. intros s p. unfold reclaim. destruct (_ && _)%bool; [|auto 10]. destruct (p_in _); cbn; auto 10. Qed.
Lemma event_cancelled_frame : forall (s : pst) p, x_cur (event_cancelled s p) = x_cur s /\ x_now (event_cancelled s p) = x_now s /\ x_pend (event_cancelled s p) = x_pend s /\ x_stale (event_cancelled s p) = x_stale s.
Proof.
  intros s p. unfold event_cancelled. match goal with |- context [reclaim ?t p] => destruct (reclaim_frame t p) as [R1 [R2 [R3 [R4 _]]]] end.
  rewrite R1, R2, R3, R4. destruct (p_sched _); [destruct (p_pay _) as [[u v]|]|]; cbn; auto.
Qed.

(** cancel(rel_cycle) when no fired slot can be hit. *)
Lemma filter_here : forall (l : list (nat * N)) p t, NoDup (map fst l) ->
  (length (filter (fun e => Nat.eqb (fst e) p && (snd e =? t)%N) l) = 0 /\ filter (fun e => negb (Nat.eqb (fst e) p && (snd e =? t)%N)) l = l) \/
  (length (filter (fun e => Nat.eqb (fst e) p && (snd e =? t)%N) l) = 1 /\ filter (fun e => negb (Nat.eqb (fst e) p && (snd e =? t)%N)) l = filter (fun e => negb (Nat.eqb (fst e) p)) l).
Proof.
  induction l as [|e l IH]; intros p t H; [left; auto|]. cbn [map] in H. inversion H as [|? ? NI ND]; subst. cbn [filter].
  destruct (Nat.eqb_spec (fst e) p) as [EQ|NE]; cbn [andb negb].
  - assert (NP : forall f, filter (fun e => Nat.eqb (fst e) p && f e) l = [] /\ filter (fun e => negb (Nat.eqb (fst e) p && f e)) l = l /\ filter (fun e => negb (Nat.eqb (fst e) p)) l = l).
    { intros f. rewrite EQ in NI. clear - NI. induction l as [|a l IH]; [auto|]. cbn [filter map] in *. destruct (Nat.eqb_spec (fst a) p) as [EQ|NE].
      - exfalso. apply NI. left. auto.
      - cbn [andb negb]. destruct IH as [I1 [I2 I3]]; [intros C; apply NI; right; auto|]. rewrite I1, I2, I3. auto. }
    destruct (NP (fun e => (snd e =? t)%N)) as [N1 [N2 N3]]. destruct (snd e =? t)%N; cbn [negb length]; rewrite N1, N2, ?N3; [right|left]; auto.
  - destruct (IH p t ND) as [[I1 I2]|[I1 I2]]; [left|right]; rewrite I1, I2; auto.
Qed.
Lemma cancel_at_inv : forall E C t s p, (t <> x_now s \/ x_stale s = []) -> PInv E C s ->
  PInv E C (cancel_at t s p) /\ x_cur (cancel_at t s p) = x_cur s /\ x_now (cancel_at t s p) = x_now s /\ (x_stale s = [] -> x_stale (cancel_at t s p) = []).
Proof.
  intros E C t s p HT H. unfold cancel_at.
  assert (ST : filter (fun q => Nat.eqb q p && (t =? x_now s)%N) (x_stale s) = []).
  { destruct HT as [HT|HT]; [|rewrite HT; auto]. destruct (N.eqb_spec t (x_now s)); [congruence|]. induction (x_stale s); cbn [filter]; auto. rewrite andb_false_r. auto. }
  rewrite ST. cbn [length]. rewrite Nat.add_0_r.
  destruct (filter_here (x_pend s) p t (v_pnd _ _ _ H)) as [[I1 I2]|[I1 I2]]; rewrite I1, I2; cbn [times].
  - split; [|split; [reflexivity|split; [reflexivity|]]].
    + destruct H. constructor; auto.
    + intros E0. cbn [set_slots x_stale]. rewrite E0. auto.
  - split; [apply event_cancelled_inv; auto|]. match goal with |- context [event_cancelled ?x p] => destruct (event_cancelled_frame x p) as [F1 [F2 [F3 F4]]] end.
    rewrite F1, F2, F4. split; [reflexivity|]. split; [reflexivity|]. intros E0. cbn [set_slots x_stale]. rewrite E0. auto.
Qed.

Lemma drop_C : forall E C s p, In p (x_infl s) -> PInv E (p :: C) s -> PInv E C s.
Proof.
  intros E C s p I H. destruct H. constructor; auto. intros q NI. destruct (v_out0 q NI) as [O1 [O2 O3]]. split; [auto|]. split; [|auto].
  intros Q. destruct (O2 Q) as [<-|]; auto. tauto.
Qed.
Lemma obj_in : forall E C s p, PInv E C s -> 0 < p_obj (x_px s p) -> In p (x_infl s).
Proof. intros E C s p H O. destruct (in_dec Nat.eq_dec p (x_infl s)) as [|NI]; auto. apply (v_out _ _ _ H) in NI. lia. Qed.
Lemma sched_in : forall E C s p, PInv E C s -> p_sched (x_px s p) = true -> In p (x_infl s).
Proof. intros E C s p H O. destruct (in_dec Nat.eq_dec p (x_infl s)) as [|NI]; auto. apply (v_out _ _ _ H) in NI. intuition congruence. Qed.

Lemma hnd_inv : forall E C s p h n, PInv E C s -> In p (x_infl s) -> h = Z.of_nat n ->
  PInv (p :: E) C (set_px s p (mkPx (p_sched (x_px s p)) (p_canc (x_px s p)) h n (p_in (x_px s p)) (p_pay (x_px s p)))).
Proof.
  intros E C s p h n H IP ->. set (x' := mkPx _ _ _ _ _ _).
  assert (Q1 : forall q, p_sched (xset (x_px s) p x' q) = p_sched (x_px s q)) by (intros q; unfold xset; destruct (Nat.eqb_spec q p) as [->|]; auto).
  assert (Q4 : forall q, p_in (xset (x_px s) p x' q) = p_in (x_px s q)) by (intros q; unfold xset; destruct (Nat.eqb_spec q p) as [->|]; auto).
  assert (Q5 : forall q, p_pay (xset (x_px s) p x' q) = p_pay (x_px s q)) by (intros q; unfold xset; destruct (Nat.eqb_spec q p) as [->|]; auto).
  unfold set_px. destruct H. constructor; cbn [x_px x_alloc x_free x_infl x_pend x_stale x_cur x_now x_next x_log]; intros; rewrite ?Q1, ?Q4, ?Q5 in *; eauto.
  - unfold xset. destruct (Nat.eqb_spec p0 p) as [->|]; [tauto|]. auto.
  - unfold xset. destruct (Nat.eqb_spec p0 p) as [->|]; [reflexivity|]. auto.
  - unfold xset in *. destruct (Nat.eqb_spec p0 p) as [->|]; [left; auto|right; auto].
  - rewrite v_cnt0. f_equal. symmetry. apply n_pend_ext; [reflexivity|]. intros q IQ. unfold has_uid. cbn [x_px]. now rewrite Q5.
Qed.
Lemma drop_E : forall E C s p, 0 < p_obj (x_px s p) -> PInv (p :: E) C s -> PInv E C s.
Proof.
  intros E C s p I H. destruct H. constructor; auto. intros q I1 I2 I3. destruct (v_live0 q I1 I2 I3) as [<-|]; auto. lia.
Qed.

Lemma sched_p_inv : forall E C s p t, PInv E C s -> In p (x_infl s) -> PInv E C (sched_p s p t).
Proof.
  intros E C s p t H IP. unfold sched_p. destruct (p_canc (x_px s p)) eqn:CA; cbn [orb]; [auto|]. destruct (p_sched (x_px s p)) eqn:SP; [auto|].
  destruct (p_pay (x_px s p)) as [[u v]|] eqn:PP.
  2:{ apply (v_pay _ _ _ H) in IP. congruence. }
  set (x' := mkPx _ _ _ _ _ _).
  assert (Q1 : forall q, p_sched (xset (x_px s) p x' q) = if Nat.eqb q p then true else p_sched (x_px s q)) by (intros q; unfold xset; destruct (Nat.eqb_spec q p) as [->|]; auto).
  assert (Q2 : forall q, p_hnd (xset (x_px s) p x' q) = p_hnd (x_px s q)) by (intros q; unfold xset; destruct (Nat.eqb_spec q p) as [->|]; auto).
  assert (Q3 : forall q, p_obj (xset (x_px s) p x' q) = p_obj (x_px s q)) by (intros q; unfold xset; destruct (Nat.eqb_spec q p) as [->|]; auto).
  assert (Q4 : forall q, p_in (xset (x_px s) p x' q) = p_in (x_px s q)) by (intros q; unfold xset; destruct (Nat.eqb_spec q p) as [->|]; auto).
  assert (Q5 : forall q, p_pay (xset (x_px s) p x' q) = p_pay (x_px s q)) by (intros q; unfold xset; destruct (Nat.eqb_spec q p) as [->|]; auto).
  assert (NP : ~ In p (map fst (x_pend s))) by (intros X; apply (v_pend _ _ _ H) in X; congruence).
  unfold set_px, set_slots, pnote. destruct H. constructor; cbn [x_px x_alloc x_free x_infl x_pend x_stale x_cur x_now x_next x_log]; intros; rewrite ?Q1, ?Q2, ?Q3, ?Q4, ?Q5 in *; eauto.
  - unfold xset. destruct (Nat.eqb_spec p0 p) as [->|]; [tauto|]. auto.
  - rewrite map_app. apply NoDup_app_iff_simple; auto.
  - rewrite map_app, in_app_iff, v_pend0. cbn. destruct (Nat.eqb_spec p0 p) as [->|NE]; intuition congruence.
  - apply v_live0; auto. destruct (Nat.eqb p0 p); auto. discriminate.
  - right. eauto.
  - destruct H as [H|H]; [discriminate|]. eauto.
  - destruct H as [H|H]; [discriminate|]. destruct H0 as [H0|H0]; [discriminate|]. eauto.
  - destruct H as [H|H]; [discriminate|]. right. auto.
  - unfold n_sch, n_fire, n_can. cbn [filter]. fold (n_fire u0 (x_log s)) (n_can u0 (x_log s)).
    assert (NN : n_pend u0 (mkP (xset (x_px s) p x') (x_alloc s) (x_free s) (x_infl s) (x_pend s ++ [(p, t)]) (x_stale s) (x_cur s) (x_now s) (x_next s) (OSch u :: x_log s))
       = n_pend u0 s + if Nat.eqb u u0 then 1 else 0).
    { unfold n_pend. cbn [x_pend]. rewrite filter_app, app_length. f_equal.
      - f_equal. apply filter_ext_in. intros e _. unfold has_uid. cbn [x_px]. now rewrite Q5.
      - cbn [filter fst]. unfold has_uid. cbn [x_px]. rewrite Q5, PP. destruct (Nat.eqb u u0); auto. }
    rewrite NN. specialize (v_cnt0 u0). unfold n_sch in v_cnt0. destruct (Nat.eqb u u0); cbn [length]; lia.
  - unfold n_sch in H. cbn [filter] in H. destruct (Nat.eqb_spec u u0) as [->|NE].
    + eapply v_next0. eapply v_prep0. eauto.
    + apply v_old0. exact H.
Qed.

Lemma take1_rm : forall (l : list (nat * N)) p t, NoDup (map fst l) -> In (p, t) l -> take1 p t l = filter (fun e => negb (Nat.eqb (fst e) p)) l.
Proof.
  induction l as [|e l IH]; intros p t H I; [destruct I|]. cbn [map] in H. inversion H as [|? ? NI ND]; subst. cbn [take1 filter].
  destruct (Nat.eqb_spec (fst e) p) as [EQ|NE]; cbn [andb negb].
  - assert (e = (p, t)). { destruct I as [|I]; [auto|]. exfalso. apply NI. rewrite EQ. change p with (fst (p, t)). now apply in_map. }
    subst e. cbn [snd fst] in *. rewrite N.eqb_refl. symmetry. clear - NI. induction l as [|a l IH]; [auto|]. cbn [filter map] in *.
    destruct (Nat.eqb_spec (fst a) p) as [EQ|NE]; cbn [negb]; [exfalso; apply NI; left; auto|]. f_equal. apply IH. intros X. apply NI. right. auto.
  - f_equal. apply IH; auto. destruct I as [->|]; auto. cbn in NE. congruence.
Qed.

(** The uses of the class covered: handles are copied and destroyed but not moved or assigned to themselves, and
    cancel(rel_cycle) is not called for the current tick while payloads fired in it are still in their group. *)
Definition ok_act (s : pst) (a : pact A) : Prop :=
  match a with
  | PMove _ | PSelf _ => False
  | PCancelAt t => t <> x_now s \/ x_stale s = []
  | _ => True
  end.
Definition exempt (s : pst) : list nat := match x_cur s with Some p => [p] | None => [] end.
Definition Good (s : pst) : Prop := PInv (exempt s) [] s.

Lemma cancel_p_frame : forall (s : pst) p, x_cur (cancel_p s p) = x_cur s /\ x_now (cancel_p s p) = x_now s.
Proof. intros s p. unfold cancel_p. match goal with |- context [event_cancelled ?x p] => destruct (event_cancelled_frame x p) as [F1 [F2 [F3 F4]]] end. rewrite F1, F2. auto. Qed.
Lemma fold_cancel : forall E C l (s : pst), PInv E C s -> PInv E C (fold_left cancel_p l s) /\ x_cur (fold_left cancel_p l s) = x_cur s.
Proof.
  intros E C. induction l as [|p l IH]; intros s H; cbn [fold_left]; [auto|]. destruct (cancel_p_frame s p) as [F1 F2]. rewrite <- F1. apply IH. apply cancel_p_inv; auto.
Qed.
Lemma fold_cancel_at : forall E C t l (s : pst), (t <> x_now s \/ x_stale s = []) -> PInv E C s -> PInv E C (fold_left (cancel_at t) l s) /\ x_cur (fold_left (cancel_at t) l s) = x_cur s.
Proof.
  intros E C t. induction l as [|p l IH]; intros s HT H; cbn [fold_left]; [auto|]. destruct (cancel_at_inv E C t s p HT H) as [I1 [I2 [I3 I4]]]. rewrite <- I2. apply IH; auto.
  rewrite I3. destruct HT; auto.
Qed.

Lemma inv_ext : forall E C s s', (forall q, x_px s' q = x_px s q) -> x_alloc s' = x_alloc s -> x_free s' = x_free s -> x_infl s' = x_infl s ->
  x_pend s' = x_pend s -> x_next s' = x_next s -> x_log s' = x_log s -> PInv E C s -> PInv E C s'.
Proof.
  intros E C s s' PX E1 E2 E3 E4 E5 E6 H. destruct H. constructor; intros; rewrite ?E1, ?E2, ?E3, ?E4, ?E5, ?E6, ?PX in *; eauto.
  rewrite v_cnt0. f_equal. symmetry. apply n_pend_ext; [auto|]. intros q IQ. unfold has_uid. now rewrite PX.
Qed.

Lemma step_good : forall s a, Good s -> ok_act s a ->
  match pstep s a with
  | Some s' => Good s'
  | None => (exists v, a = PPrepare v) /\ 1099 <= length (x_infl s)
  end.
Proof.
  intros s a H OK. unfold Good in H. destruct a as [v|p|p|p|p|p t|p| |t|f|p| | |t|]; cbn [pstep ok_act] in *.
  - destruct (prepare s v) as [s'|] eqn:P.
    + destruct (prepare_inv _ _ _ _ _ H P) as [I E]. unfold Good, exempt. rewrite E. exact I.
    + split; [eauto|]. unfold prepare in P. destruct (x_free s) as [|p r] eqn:F.
      * destruct (Nat.ltb (S (x_alloc s)) 1100) eqn:L; [discriminate|]. apply Nat.ltb_ge in L.
        pose proof (v_nd _ _ _ H) as ND. pose proof (v_all _ _ _ H) as AL. rewrite F, app_nil_r in *.
        assert (length (seq 0 (x_alloc s)) <= length (x_infl s)).
        { apply NoDup_incl_length; [apply seq_NoDup|]. intros q Q. apply AL. apply in_seq in Q. lia. }
        rewrite seq_length in H0. apply le_S_n in L. exact (Nat.le_trans _ _ _ L H0).
      * exfalso. destruct (p_sched (x_px s p)) eqn:SP; [|discriminate]. apply (sched_in _ _ _ _ H) in SP. pose proof (v_nd _ _ _ H) as ND. rewrite F in ND.
        apply NoDup_remove_2 in ND. apply ND. apply in_or_app. auto.
  - destruct (Nat.ltb_spec 0 (p_obj (x_px s p))); [|auto]. pose proof (obj_in _ _ _ _ H H0) as IP.
    assert (X : PInv (exempt s) [] (set_px s p (mkPx (p_sched (x_px s p)) (p_canc (x_px s p)) (p_hnd (x_px s p) + 1) (S (p_obj (x_px s p))) (p_in (x_px s p)) (p_pay (x_px s p))))).
    { apply (drop_E _ _ _ p). { cbn [set_px x_px]. rewrite xset_eq. cbn. lia. } apply hnd_inv; auto. rewrite (v_hnd _ _ _ H). lia. }
    unfold Good, objs, connect. cbn [set_px x_px]. rewrite xset_eq. cbn [p_sched p_canc p_hnd p_obj p_in p_pay exempt x_cur].
    change (exempt (set_px (set_px s p _) p _)) with (exempt s).
    refine (inv_ext _ _ _ _ _ _ _ _ _ _ _ X); try reflexivity. intros q. cbn [set_px x_px]. unfold xset. destruct (Nat.eqb q p); auto.
  - destruct (Nat.ltb_spec 0 (p_obj (x_px s p))); [|auto]. pose proof (obj_in _ _ _ _ H H0) as IP. pose proof (v_hnd _ _ _ H p) as HH.
    assert (X : PInv (p :: exempt s) [] (set_px s p (mkPx (p_sched (x_px s p)) (p_canc (x_px s p)) (p_hnd (x_px s p) - 1) (pred (p_obj (x_px s p))) (p_in (x_px s p)) (p_pay (x_px s p))))).
    { apply hnd_inv; auto. lia. }
    unfold disconnect, objs. cbn [set_px x_px]. rewrite xset_eq. cbn [p_sched p_canc p_hnd p_obj p_in p_pay].
    match goal with |- Good (if _ then reclaim ?t p else _) => set (s1 := t) end.
    assert (Y : PInv (p :: exempt s) [] s1).
    { refine (inv_ext _ _ _ _ _ _ _ _ _ _ _ X); try reflexivity. intros q. cbn [s1 set_px x_px]. unfold xset. destruct (Nat.eqb q p); auto. }
    destruct (Z.eqb_spec (p_hnd (x_px s p) - 1) 0) as [Z0|Z0].
    + unfold Good. assert (EX : exempt (reclaim s1 p) = exempt s) by (unfold exempt; destruct (reclaim_frame s1 p) as [-> _]; reflexivity). rewrite EX.
      apply reclaim_inv. apply (inv_mono _ _ _ _ _ (fun x h => h) (fun x (h : In x []) => False_ind _ h) Y).
    + unfold Good. change (exempt s1) with (exempt s). apply (drop_E _ _ _ p); auto. cbn [s1 set_px x_px]. rewrite xset_eq. cbn [p_obj]. lia.
  - destruct OK.
  - destruct OK.
  - destruct (Nat.ltb_spec 0 (p_obj (x_px s p))); [|auto]. destruct (x_now s <=? t)%N; cbn [andb]; [|auto].
    unfold Good. assert (EX : exempt (sched_p s p t) = exempt s).
    { unfold sched_p. destruct (_ || _)%bool; [auto|]. destruct (p_pay _) as [[u v]|]; reflexivity. }
    rewrite EX. apply sched_p_inv; auto. eapply obj_in; eauto.
  - destruct (Nat.ltb_spec 0 (p_obj (x_px s p))); [|auto]. unfold Good, exempt. destruct (cancel_p_frame s p) as [-> _]. apply cancel_p_inv; auto.
  - unfold cancel_all, Good, exempt. destruct (fold_cancel _ _ (x_infl s) s H) as [X ->]. exact X.
  - unfold cancel_all_at, Good, exempt. destruct (fold_cancel_at _ _ t (x_infl s) s OK H) as [X ->]. exact X.
  - unfold cancel_if, Good, exempt. destruct (fold_cancel _ _ (filter (matches f s) (x_infl s)) s H) as [X ->]. exact X.
  - unfold exempt in H. destruct (x_cur s) eqn:CU; [unfold Good, exempt; rewrite CU; auto|].
    destruct (existsb _ (x_pend s)) eqn:EX; [|unfold Good, exempt; rewrite CU; auto].
    apply existsb_exists in EX. destruct EX as [[q t] [I1 I2]]. cbn [fst snd] in I2. apply andb_true_iff in I2. destruct I2 as [I2 I3].
    apply Nat.eqb_eq in I2. apply N.eqb_eq in I3. subst q t.
    assert (SP : p_sched (x_px s p) = true). { apply (v_pend _ _ _ H). change p with (fst (p, x_now s)). now apply in_map. }
    rewrite SP. pose proof (sched_in _ _ _ _ H SP) as IP. destruct (p_pay (x_px s p)) as [[u v]|] eqn:PP.
    2:{ apply (v_pay _ _ _ H) in IP. congruence. }
    unfold Good, exempt, set_cur, set_px, set_slots, pnote. cbn [x_px x_alloc x_free x_infl x_pend x_stale x_cur x_now x_next x_log]. rewrite (take1_rm _ _ _ (v_pnd _ _ _ H) I1), <- PP.
    apply (drop_C _ _ _ p); [exact IP|]. apply unslot_inv; auto.
    + intros w. unfold n_fire, n_can. cbn [filter]. rewrite SP. unfold has_uid. rewrite PP. cbn [andb]. destruct (Nat.eqb u w); cbn [length]; lia.
    + intros w z. cbn. intuition congruence.
    + intros w z [Q|Q].
      * injection Q as <- <-. eapply (v_prep _ _ _ H); eauto.
      * apply (v_fire _ _ _ H); auto.
  - unfold exempt in H. destruct (x_cur s) as [p|] eqn:CU; [|unfold Good, exempt; rewrite CU; auto].
    unfold Good. assert (EX : exempt (reclaim (set_cur s None) p) = []) by (unfold exempt; destruct (reclaim_frame (set_cur s None) p) as [-> _]; reflexivity). rewrite EX.
    apply reclaim_inv. apply (inv_mono [p] []); [auto|intros x []|]. refine (inv_ext _ _ _ _ _ _ _ _ _ _ _ H); reflexivity.
  - destruct (x_cur s) eqn:CU; [auto|]. unfold Good. change (exempt (set_slots s (x_pend s) [])) with (exempt s). refine (inv_ext _ _ _ _ _ _ _ _ _ _ _ H); reflexivity.
  - unfold exempt in H. destruct (x_cur s) eqn:CU; [unfold Good, exempt; rewrite CU; auto|]. destruct (_ && _)%bool; [|unfold Good, exempt; rewrite CU; auto].
    unfold Good, exempt. cbn [x_cur]. refine (inv_ext _ _ _ _ _ _ _ _ _ _ _ H); reflexivity.
  - destruct (x_cur s) eqn:CU; [auto|]. unfold p_clear. destruct (fold_cancel _ _ (map fst (x_pend s)) s H) as [X EC].
    unfold Good. assert (EX : exempt (set_slots (fold_left cancel_p (map fst (x_pend s)) s) (x_pend (fold_left cancel_p (map fst (x_pend s)) s)) []) = exempt s).
    { unfold exempt. cbn [set_slots x_cur]. now rewrite EC. }
    rewrite EX. refine (inv_ext _ _ _ _ _ _ _ _ _ _ _ X); reflexivity.
Qed.

(** A whole execution within the covered uses. *)
Fixpoint ok_run (s : pst) (l : list (pact A)) : Prop :=
  match l with [] => True | a :: r => ok_act s a /\ match pstep s a with Some s' => ok_run s' r | None => True end end.
Lemma run_good : forall l s s', Good s -> ok_run s l -> prun s l = Some s' -> Good s'.
Proof.
  induction l as [|a l IH]; intros s s' H OK R; cbn [prun ok_run] in *; [injection R as <-; auto|].
  destruct OK as [O1 O2]. pose proof (step_good s a H O1) as G. destruct (pstep s a); [|discriminate]. eauto.
Qed.
End P.
