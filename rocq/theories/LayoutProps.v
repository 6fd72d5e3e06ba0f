(** C36: ArchData segments never overlap. *)
From Coq Require Import List NArith Arith Bool Lia.
From Verif Require Import MathUtilsModel MathUtilsProofs LayoutModel LayoutProofs.
Import ListNotations.
Open Scope N_scope.

(** Constructing and registering these segments, in this order, with a new ArchData with lines of L bytes is accepted. *)
Definition registered (L : N) (segs : list seg) : Prop := register_all L [] segs = Done segs.
(** Size plus subset offset fits an offset_type. *)
Definition no_wrap (segs : list seg) : Prop := forall s, In s segs -> g_size s + g_off s < 2 ^ 64.
(** Every subset segment names a segment that it fits in. *)
Definition fits (segs : list seg) : Prop :=
  forall i s id, nth_error segs i = Some s -> g_sub s = Some id ->
    exists j ps, nth_error segs j = Some ps /\ g_id ps = Some id /\ g_size s + g_off s <= g_size ps.
(** Subset relations do not form a cycle. *)
Definition acyclic (segs : list seg) : Prop :=
  exists r : nat -> nat, forall i j s ps id, nth_error segs i = Some s -> g_sub s = Some id ->
    nth_error segs j = Some ps -> g_id ps = Some id -> (r j < r i)%nat.

(** What the ranges of laid out segments must satisfy. *)
Record good_layout (L : N) (segs : list seg) (at_ : nat -> option N) (total : N) : Prop := mkGood {
  (* every segment is placed, inside the ArchData and inside one line *)
  gl_placed : forall i s, nth_error segs i = Some s -> exists p, at_ i = Some p /\ p + g_size s <= total /\
    exists line, line * L <= p /\ p + g_size s <= (line + 1) * L;
  gl_aligned : forall i s p, nth_error segs i = Some s -> g_sub s = None -> at_ i = Some p -> (4 | p);
  (* two segments that are not subsets share no byte *)
  gl_disjoint : forall i j s t p q b, i <> j -> nth_error segs i = Some s -> nth_error segs j = Some t ->
    g_sub s = None -> g_sub t = None -> at_ i = Some p -> at_ j = Some q ->
    p <= b < p + g_size s -> ~ (q <= b < q + g_size t);
  (* a subset lies where it was asked to lie, within its parent *)
  gl_subset : forall i j s ps id p, nth_error segs i = Some s -> g_sub s = Some id ->
    nth_error segs j = Some ps -> g_id ps = Some id -> at_ i = Some p ->
    exists o, at_ j = Some o /\ p = o + g_off s /\ o <= p /\ p + g_size s <= o + g_size ps
}.

Lemma mask_pow : forall k, k <= 30 -> line_mask (2 ^ k) = Done (2 ^ 64 - 2 ^ k).
Proof.
  intros k Hk. unfold line_mask.
  assert (P : 0 < 2 ^ k) by (apply N.neq_0_lt_0, N.pow_nonzero; lia).
  assert (U : 2 ^ k <= 2 ^ 30) by (apply N.pow_le_mono_r; lia).
  change (2 ^ 30) with 1073741824 in U. change (2 ^ 31) with 2147483648.
  destruct (N.eqb_spec (2 ^ k) 0); [lia|]. destruct (N.ltb_spec 2147483648 (2 ^ k)); [lia|].
  assert (B : is_power_of_2 (2 ^ k) = true).
  { apply is_power_of_2_correct; [change (2 ^ 64) with 18446744073709551616; lia|exists k; reflexivity]. }
  rewrite B. cbn [negb]. destruct (N.eqb_spec (2 ^ k) 2147483648); [lia|]. reflexivity.
Qed.

Lemma reg_wf : forall L segs, L <> 0 -> registered L segs -> wfsegs L segs.
Proof. intros L segs HL H. exact (proj2 (register_all_wf L segs [] segs HL (wf_nil L) H)). Qed.

Lemma layout_unfold : forall k segs fuel, k <= 30 -> wfsegs (2 ^ k) segs ->
  layout fuel (2 ^ k) segs =
  place_all fuel (2 ^ k) (2 ^ 64 - 2 ^ k) segs (seq 0 (length segs)) (mkLay 0 0 (fun _ => None)).
Proof. intros k segs fuel Hk W. unfold layout. rewrite mask_pow by exact Hk. rewrite (wf_dup _ _ W). reflexivity. Qed.

Lemma layout_inv : forall k segs fuel, k <= 30 -> N.of_nat (length segs) < 2 ^ 32 -> no_wrap segs ->
  registered (2 ^ k) segs ->
  match layout fuel (2 ^ k) segs with
  | Done y => J (2 ^ k) segs y /\ forall i, (i < length segs)%nat -> y_at y i <> None
  | Refused => exists x, bad segs x
  | TooDeep => True
  | _ => False
  end.
Proof.
  intros k segs fuel Hk Hn NW R.
  assert (W : wfsegs (2 ^ k) segs) by (apply reg_wf; [apply N.pow_nonzero; lia|exact R]).
  rewrite layout_unfold by assumption.
  pose proof (place_all_inv k (2 ^ k) (2 ^ 64 - 2 ^ k) segs eq_refl eq_refl Hk Hn W NW fuel
    (seq 0 (length segs)) (mkLay 0 0 (fun _ => None)) (J0 k (2 ^ k) (2 ^ 64 - 2 ^ k) segs eq_refl eq_refl Hk Hn)) as P.
  assert (Q : forall i, In i (seq 0 (length segs)) -> (i < length segs)%nat) by (intros i Hi; apply in_seq in Hi; lia).
  specialize (P Q). destruct (place_all _ _ _ _ _ _) as [y| | | |]; try exact P.
  destruct P as [P1 [_ P3]]. split; [exact P1|]. intros i Hi. apply P3. apply in_seq. lia.
Qed.

(** Whatever the segments, a layout that succeeds gives every segment a legal range. "Partial": lines below 2^31 bytes and
    not of unbounded size, sums of size and subset offset below 2^64 - see the refuted statements below. *)
Theorem C36_layout_partial : forall k segs fuel y, k <= 30 -> N.of_nat (length segs) < 2 ^ 32 -> no_wrap segs ->
  registered (2 ^ k) segs -> layout fuel (2 ^ k) segs = Done y -> good_layout (2 ^ k) segs (y_at y) (y_size y).
Proof.
  intros k segs fuel y Hk Hn NW R E. pose proof (layout_inv k segs fuel Hk Hn NW R) as P. rewrite E in P.
  destruct P as [HJ PL].
  assert (LP : 0 < 2 ^ k) by (apply N.neq_0_lt_0, N.pow_nonzero; lia).
  assert (W : wfsegs (2 ^ k) segs) by (apply reg_wf; [apply N.pow_nonzero; lia|exact R]).
  constructor.
  - intros i s Hi. assert (Li : (i < length segs)%nat) by (apply nth_error_Some; rewrite Hi; discriminate).
    specialize (PL i Li). destruct (y_at y i) as [p|] eqn:Ep; [|contradiction]. exists p. split; [reflexivity|].
    destruct (j_at _ _ _ HJ i p Ep) as [t [T1 [T2 [T3 _]]]]. assert (t = s) by congruence. subst t.
    split; [exact T2|]. exists (p / 2 ^ k).
    pose proof (N.div_mod p (2 ^ k) ltac:(lia)) as D1.
    pose proof (N.div_mod (p + g_size s - 1) (2 ^ k) ltac:(lia)) as D2.
    pose proof (N.mod_lt (p + g_size s - 1) (2 ^ k) ltac:(lia)) as M2. rewrite <- T3 in D2.
    destruct (proj1 W s (nth_error_In _ _ Hi)) as [S0 _].
    clear - D1 D2 M2 S0. set (q := p / 2 ^ k) in *. set (r := p mod 2 ^ k) in *.
    set (r2 := (p + g_size s - 1) mod 2 ^ k) in *. clearbody q r r2. set (L := 2 ^ k) in *. clearbody L. split; nia.
  - intros i s p Hi Hs Hp. destruct (j_at _ _ _ HJ i p Hp) as [t [T1 [T2 [T3 T4]]]].
    assert (t = s) by congruence. subst t. rewrite Hs in T4. apply N.mod_divide; [discriminate|exact T4].
  - intros i j s t p q b Ne Hi Hj Si Sj Hp Hq B1 B2.
    destruct (j_apart _ _ _ HJ i j p q s t Ne Hp Hq Hi Hj Si Sj); lia.
  - intros i j s ps id p Hi Hs Hj Hid Hp. destruct (j_at _ _ _ HJ i p Hp) as [t [T1 [T2 [T3 T4]]]].
    assert (t = s) by congruence. subst t. rewrite Hs in T4.
    destruct T4 as [j' [ps' [o [[s2 [p2 [d2 [V1 [V2 [V3 V4]]]]]] [U2 [U3 [U4 U5]]]]]]].
    assert (s2 = s) by congruence. subst s2. assert (d2 = id) by congruence. subst d2.
    assert (p2 = ps') by congruence. subst p2.
    assert (j' = j) by exact (proj2 W j' j ps' ps id V3 Hj V4 Hid). subst j'.
    assert (ps' = ps) by congruence. subst ps'. exists o. split; [exact U3|]. split; [exact U4|]. lia.
Qed.
Print Assumptions C36_layout_partial.

Lemma rank_bound : forall (r : nat -> nat) n, exists b, forall i, (i < n)%nat -> (r i < b)%nat.
Proof.
  induction n as [|n [b H]]; [exists 0%nat; lia|]. exists (S (b + r n)). intros i Hi.
  destruct (Nat.eq_dec i n) as [->|]; [lia|]. specialize (H i ltac:(lia)). lia.
Qed.

(** The layout succeeds exactly on the legal lists: every subset fits a registered segment and there is no cycle. *)
Theorem C36_accepts_exactly_partial : forall k segs, k <= 30 -> N.of_nat (length segs) < 2 ^ 32 -> no_wrap segs ->
  registered (2 ^ k) segs ->
  ((exists fuel y, layout fuel (2 ^ k) segs = Done y) <-> fits segs /\ acyclic segs).
Proof.
  intros k segs Hk Hn NW R.
  assert (W : wfsegs (2 ^ k) segs) by (apply reg_wf; [apply N.pow_nonzero; lia|exact R]).
  split.
  - intros [fuel [y E]]. pose proof (layout_inv k segs fuel Hk Hn NW R) as P. rewrite E in P. destruct P as [HJ PL].
    split.
    + intros i s id Hi Hs.
      assert (Li : (i < length segs)%nat) by (apply nth_error_Some; rewrite Hi; discriminate).
      specialize (PL i Li). destruct (y_at y i) as [p|] eqn:Ep; [|contradiction].
      destruct (j_at _ _ _ HJ i p Ep) as [t [T1 [T2 [T3 T4]]]]. assert (t = s) by congruence. subst t. rewrite Hs in T4.
      destruct T4 as [j' [ps' [o [[s2 [p2 [d2 [V1 [V2 [V3 V4]]]]]] [U2 [U3 [U4 U5]]]]]]].
      exists j', ps'. split; [exact U2|]. split; [congruence|exact U5].
    + destruct (j_rank _ _ _ HJ) as [r Hr]. exists r. intros i j s ps id Hi Hs Hj Hid. apply Hr.
      * apply PL. apply nth_error_Some. rewrite Hi. discriminate.
      * exists s, ps, id. auto.
  - intros [F [r A]].
    assert (A' : forall i j, parent segs i j -> (r j < r i)%nat).
    { intros i j [s [ps [id [P1 [P2 [P3 P4]]]]]]. eapply A; eauto. }
    destruct (rank_bound r (length segs)) as [b B]. exists b.
    pose proof (layout_inv k segs b Hk Hn NW R) as P.
    pose proof (place_all_deep k (2 ^ k) (2 ^ 64 - 2 ^ k) segs eq_refl eq_refl Hk Hn NW r A' b (seq 0 (length segs)) (mkLay 0 0 (fun _ => None))) as D.
    rewrite <- layout_unfold in D by assumption.
    destruct (layout b (2 ^ k) segs) as [y| | | |]; try contradiction.
    + exists y. reflexivity.
    + exfalso. destruct P as [x [s [id [Hx [Hs Hb]]]]]. destruct (F x s id Hx Hs) as [j [ps [F1 [F2 F3]]]].
      specialize (Hb j ps F1 F2). lia.
    + exfalso. apply D; [|reflexivity]. intros i Hi. apply in_seq in Hi. apply B. lia.
Qed.
Print Assumptions C36_accepts_exactly_partial.

(** Requests that do not fit are refused with an exception - no assertion fails, nothing undefined happens - unless
    subsets form a cycle. *)
Theorem C36_refuses_partial : forall k segs, k <= 30 -> N.of_nat (length segs) < 2 ^ 32 -> no_wrap segs ->
  registered (2 ^ k) segs -> acyclic segs -> ~ fits segs ->
  exists fuel, forall f, (fuel <= f)%nat -> layout f (2 ^ k) segs = Refused.
Proof.
  intros k segs Hk Hn NW R [r A] NF.
  assert (W : wfsegs (2 ^ k) segs) by (apply reg_wf; [apply N.pow_nonzero; lia|exact R]).
  assert (A' : forall i j, parent segs i j -> (r j < r i)%nat).
  { intros i j [s [ps [id [P1 [P2 [P3 P4]]]]]]. eapply A; eauto. }
  destruct (rank_bound r (length segs)) as [b B]. exists b. intros f Hf.
  pose proof (layout_inv k segs f Hk Hn NW R) as P.
  pose proof (place_all_deep k (2 ^ k) (2 ^ 64 - 2 ^ k) segs eq_refl eq_refl Hk Hn NW r A' f (seq 0 (length segs)) (mkLay 0 0 (fun _ => None))) as D.
  rewrite <- layout_unfold in D by assumption.
  destruct (layout f (2 ^ k) segs) as [y| | | |] eqn:E; try contradiction; [|reflexivity|].
  - exfalso. apply NF. apply (proj1 (C36_accepts_exactly_partial k segs Hk Hn NW R)). exists f, y. exact E.
  - exfalso. apply D; [|reflexivity]. intros i Hi. apply in_seq in Hi. specialize (B i ltac:(lia)). lia.
Qed.
Print Assumptions C36_refuses_partial.

(** Registration: accepted exactly if the size is a power of two not above the line size, the identifier is new (or
    invalid), and a view without parent asks for no offset. *)
Theorem C36_registration : forall k segs s, g_size s < 2 ^ 64 ->
  (register (2 ^ k) segs s = Done (segs ++ [s]) <->
     (exists e, g_size s = 2 ^ e) /\ g_size s <= 2 ^ k /\
     (forall o id, In o segs -> g_id o = Some id -> g_id s <> Some id) /\
     (g_view s = true -> g_sub s = None -> g_off s = 0)) /\
  (register (2 ^ k) segs s = Done (segs ++ [s]) \/ register (2 ^ k) segs s = Refused).
Proof.
  intros k segs s SB. assert (LP : 2 ^ k <> 0) by (apply N.pow_nonzero; lia).
  pose proof (is_power_of_2_correct (g_size s) SB) as PC. unfold is_power_of_2 in PC.
  unfold register, seg_ctor, pow2_or_0, data_size_ok.
  destruct (N.eqb_spec (2 ^ k) 0) as [|_]; [contradiction|].
  destruct (N.eqb_spec (g_size s) 0) as [Z|Z]; cbn [negb orb andb] in *.
  { split.
    - split; [destruct (negb (g_view s && _)); cbn; discriminate|]. intros [[e E] _].
      exfalso. apply (N.pow_nonzero 2 e); [lia|congruence].
    - right. destruct (negb (g_view s && _)); reflexivity. }
  destruct (N.land (g_size s) (g_size s - 1) =? 0) eqn:P; cbn [andb] in *.
  2:{ split; [|right; reflexivity]. split; [discriminate|]. intros [E _]. apply PC in E. discriminate. }
  assert (VO : (g_view s && match g_sub s with Some _ => false | None => negb (g_off s =? 0) end) = false <->
               (g_view s = true -> g_sub s = None -> g_off s = 0)).
  { destruct (g_view s); cbn; [|split; intros; [discriminate|reflexivity]].
    destruct (g_sub s); [split; [intros _ _; discriminate|reflexivity]|].
    destruct (N.eqb_spec (g_off s) 0); cbn; split; intros X; auto.
    - discriminate.
    - exfalso. apply n. apply X; reflexivity. }
  destruct (g_view s && _) eqn:V; cbn [negb].
  { split; [|right; reflexivity]. split; [discriminate|]. intros [_ [_ [_ X]]]. apply VO in X. discriminate. }
  destruct (N.ltb_spec (2 ^ k) (g_size s)) as [C|C]; cbn [negb].
  { split; [|right; reflexivity]. split; [discriminate|]. intros [_ [X _]]. lia. }
  destruct (existsb _ segs) eqn:E.
  { split; [|right; reflexivity]. split; [discriminate|]. intros [_ [_ [X _]]].
    apply existsb_exists in E. destruct E as [o [O1 O2]]. apply same_id_spec in O2. destruct O2 as [x [X1 X2]].
    exfalso. exact (X o x O1 X2 X1). }
  split; [|left; reflexivity]. split; [|reflexivity]. intros _. split; [apply PC; reflexivity|]. split; [exact C|].
  split; [|apply VO; reflexivity].
  intros o id O1 O2 O3. assert (X : existsb (fun o => same_id (g_id s) (g_id o)) segs = true).
  { apply existsb_exists. exists o. split; [exact O1|]. apply same_id_spec. eauto. }
  rewrite X in E. discriminate.
Qed.
Print Assumptions C36_registration.

(** Lines of 16 bytes; a subset registered before the segment it lies in; a segment pushed to the next line. *)
Definition ex_segs : list seg :=
  [mkSeg (Some 7) 2 (Some 9) 4 true; mkSeg (Some 1) 1 None 0 true; mkSeg (Some 9) 8 None 0 true;
   mkSeg None 8 None 0 true; mkSeg (Some 3) 1 (Some 7) 1 false; mkSeg (Some 4) 16 None 0 false].
Example C36_ex :
  registered (2 ^ 4) ex_segs /\ no_wrap ex_segs /\
  match layout 4 (2 ^ 4) ex_segs with
  | Done y => map (y_at y) (seq 0 6) = [Some 4; Some 8; Some 0; Some 16; Some 5; Some 32] /\ y_size y = 48
  | _ => False
  end.
Proof.
  split; [vm_compute; reflexivity|]. split.
  - intros s H. repeat (destruct H as [<-|H]; [vm_compute; reflexivity|]). destruct H.
  - vm_compute. auto.
Qed.
Example C36_accepts_ex : fits ex_segs /\ acyclic ex_segs.
Proof.
  destruct C36_ex as [H1 [H2 H3]].
  assert (Hk : 4 <= 30) by (vm_compute; discriminate).
  assert (Hn : N.of_nat (length ex_segs) < 2 ^ 32) by (vm_compute; reflexivity).
  refine (proj1 (C36_accepts_exactly_partial 4 ex_segs Hk Hn H2 H1) _). exists 4%nat.
  destruct (layout 4 (2 ^ 4) ex_segs) as [y| | | |]; try contradiction. exists y. reflexivity.
Qed.
(** A subset that reaches past its parent's end. *)
Example C36_refuses_ex :
  let segs := [mkSeg (Some 9) 8 None 0 true; mkSeg (Some 7) 4 (Some 9) 6 true] in
  registered (2 ^ 4) segs /\ no_wrap segs /\ acyclic segs /\ ~ fits segs.
Proof.
  cbv zeta. split; [vm_compute; reflexivity|]. split.
  { intros s H. repeat (destruct H as [<-|H]; [vm_compute; reflexivity|]). destruct H. }
  split.
  - exists (fun i => i). intros i j s ps id Hi Hs Hj Hid.
    destruct i as [|[|[|i]]]; cbn in Hi; try discriminate; injection Hi as <-; cbn in Hs; try discriminate.
    injection Hs as <-. destruct j as [|[|[|j]]]; cbn in Hj; try discriminate; injection Hj as <-; cbn in Hid;
      try discriminate. lia.
  - intros F. destruct (F 1%nat _ 9 eq_refl eq_refl) as [j [ps [Hj [Hid Hle]]]].
    destruct j as [|[|[|j]]]; cbn in Hj; try discriminate; injection Hj as <-; cbn in Hid; try discriminate.
    vm_compute in Hle. apply Hle. reflexivity.
Qed.
Example C36_registration_ex :
  register (2 ^ 4) [mkSeg (Some 1) 8 None 0 true] (mkSeg (Some 2) 16 None 0 true) =
    Done [mkSeg (Some 1) 8 None 0 true; mkSeg (Some 2) 16 None 0 true] /\
  register (2 ^ 4) [mkSeg (Some 1) 8 None 0 true] (mkSeg (Some 1) 8 None 0 true) = Refused /\
  register (2 ^ 4) [] (mkSeg (Some 1) 12 None 0 true) = Refused.
Proof. vm_compute. auto. Qed.

(** Without [no_wrap] the claim is false: size + subset offset is added modulo 2^64 (ad 1556), so a subset with a huge
    offset is accepted and lands outside its parent - here exactly on the segment before it. *)
Theorem C36_subset_wraps_refuted : exists segs y p o,
  registered (2 ^ 4) segs /\ layout 3 (2 ^ 4) segs = Done y /\
  nth_error segs 2 = Some (mkSeg (Some 3) 8 (Some 2) (2 ^ 64 - 8) true) /\ nth_error segs 1 = Some (mkSeg (Some 2) 8 None 0 true) /\
  y_at y 2 = Some p /\ y_at y 1 = Some o /\ p + 8 <= o.
Proof.
  exists [mkSeg (Some 1) 8 None 0 true; mkSeg (Some 2) 8 None 0 true; mkSeg (Some 3) 8 (Some 2) (2 ^ 64 - 8) true].
  eexists. exists 0, 8.
  split; [vm_compute; reflexivity|].
  split; [vm_compute; reflexivity|].
  split; [reflexivity|]. split; [reflexivity|]. split; [vm_compute; reflexivity|].
  split; [vm_compute; reflexivity|]. vm_compute. discriminate.
Qed.
Print Assumptions C36_subset_wraps_refuted.

(** A cycle of subsets is not refused: placeSegment_ recurses without end (ad 1553). *)
Theorem C36_cycle_refuted : exists segs, registered (2 ^ 4) segs /\ no_wrap segs /\
  forall fuel, layout fuel (2 ^ 4) segs = TooDeep.
Proof.
  exists [mkSeg (Some 1) 8 (Some 1) 0 true]. split; [vm_compute; reflexivity|]. split.
  { intros s [<-|[]]. vm_compute. reflexivity. }
  intros fuel. unfold layout. rewrite mask_pow by lia. cbn [dup_id existsb orb seq length place_all].
  assert (E : forall f y, y_at y 0%nat = None ->
     place f (2 ^ 4) (2 ^ 64 - 2 ^ 4) [mkSeg (Some 1) 8 (Some 1) 0 true] 0 y = TooDeep).
  { induction f as [|f IH]; intros y Hy; [reflexivity|]. cbn [place]. rewrite Hy.
    cbn [nth_error g_sub find_id same_id g_id]. rewrite N.eqb_refl. rewrite IH by exact Hy. reflexivity. }
  rewrite E by reflexivity. reflexivity.
Qed.
Print Assumptions C36_cycle_refuted.

(** A line size of 0, documented as lines without bound (ad 92-93, 428-430), cannot hold two segments: the second one
    fails an assertion (ad 1600); and a DataView cannot be placed at all (ad 934). *)
Theorem C36_unbounded_line_refuted :
  registered 0 [mkSeg (Some 1) 8 None 0 false; mkSeg (Some 2) 8 None 0 false] /\
  (forall fuel, layout (S fuel) 0 [mkSeg (Some 1) 8 None 0 false; mkSeg (Some 2) 8 None 0 false] = Asserted) /\
  (forall fuel, layout (S fuel) 0 [mkSeg (Some 1) 8 None 0 true] = Refused).
Proof. split; [vm_compute; reflexivity|]. split; intros fuel; vm_compute; reflexivity. Qed.
Print Assumptions C36_unbounded_line_refuted.

(** The largest line size the constructor admits, 2^31, makes its mask computation undefined (ad 492). *)
Theorem C36_largest_line_refuted : line_mask (2 ^ 31) = Undefined /\ forall k, k <= 30 -> line_mask (2 ^ k) = Done (2 ^ 64 - 2 ^ k).
Proof. split; [vm_compute; reflexivity|]. exact mask_pow. Qed.
Print Assumptions C36_largest_line_refuted.
