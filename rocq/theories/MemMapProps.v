(** C43: the memory map finds the one mapping containing an address. *)
From Coq Require Import List NArith Arith Bool Lia Permutation Sorted.
From Verif Require Import MathUtilsModel LayoutModel StorageModel MemMapModel MemMapTree MemMapProofs.
Import ListNotations.
Open Scope N_scope.

(** ** Adding and finding *)
Definition Inv (k : N) (c : mmap) : Prop := mm_block c = 2 ^ k /\ mm_mask c = 2 ^ k - 1 /\ MS (mm_maps c) /\ exists t, tree (mm_heap c) (mm_root c) t /\ LI (labs (mm_heap c) t) (mm_maps c) [].
Lemma li_weaken : forall L ms ex ex', LI L ms ex -> (forall s, In s ex -> In s ex') -> LI L ms ex'.
Proof. intros L ms ex ex' [H1 H2 H3 H4 H5] HI. split; auto. intros s Hs. destruct (H4 s Hs); auto. Qed.
Lemma overlaps_apart : forall x m, proper x -> m_start m < m_end m -> overlaps x (m_start m) (m_end m) = false <-> apart x m.
Proof.
  intros x m [P1 P2] Q. unfold overlaps, apart. rewrite !orb_false_iff, !andb_false_iff, !N.leb_gt, !N.ltb_ge. lia.
Qed.
Lemma add_tree_ok : forall k c m, Inv k c -> proper m -> (forall x, In x (mm_maps c) -> apart x m) -> exists c',
  obind (match mm_root c with
           | None => obind (fixup [sep_node None (m_start m)] (Some 0%nat) 0) (fun '(h, r) => Done (h, r, 0%nat, top_addr))
           | Some n => place_start (S (length (mm_heap c))) (mm_heap c) (mm_root c) n top_addr (m_start m)
           end) (fun '(h1, r1, n1, max) =>
      obind (place_end (S (length h1)) h1 r1 n1 max (m_start m) (m_end m)) (fun '(h2, r2, n2) =>
        obind (place_map h2 r2 n2 m) (fun '(h3, r3, _) => Done (mkMM (mm_block c) (mm_mask c) h3 r3 (mm_maps c ++ [m]))))) = Done c' /\
  Inv k c' /\ mm_maps c' = mm_maps c ++ [m].
Proof.
  intros k c m [I1 [I2 [I3 [t [T1 T2]]]]] HP HA. assert (T2' : LI (labs (mm_heap c) t) (mm_maps c) [m_start m; m_end m]) by (eapply li_weaken; [exact T2|intros s []]).
  set (ms := mm_maps c) in *. destruct HP as [P1 P2].
  assert (ST : exists h1 r1 t1 n1 max1 A B, match mm_root c with
           | None => obind (fixup [sep_node None (m_start m)] (Some 0%nat) 0) (fun '(h, r) => Done (h, r, 0%nat, top_addr))
           | Some n => place_start (S (length (mm_heap c))) (mm_heap c) (mm_root c) n top_addr (m_start m)
           end = Done (h1, r1, n1, max1) /\ tree h1 r1 t1 /\ LI (labs h1 t1) ms [m_start m; m_end m] /\ lb h1 n1 = Sp (m_start m) /\ m_start m <= max1 /\
    ids t1 = A ++ n1 :: B /\ forall x, nth_error h1 n1 = Some x -> n_r x = None -> MaxOk h1 max1 B).
  { destruct (mm_root c) as [n|] eqn:ER.
    - destruct (rep_some _ _ _ _ (proj1 T1)) as [l [r Et]].
      apply (place_start_ok ms m I3 (conj P1 P2) HA t (S (length (mm_heap c))) (mm_heap c) (Some n) [] n top_addr); [|exact T1|exact T2'| |eauto|left; auto|lia].
      + pose proof (rep_len _ _ _ _ (proj1 T1) (proj1 (proj2 T1))). lia.
      + split; intros i [].
    - assert (t = Lf) by (eapply rep_none; exact (proj1 T1)). subst t. unfold labs in T2'. cbn [ids map] in T2'.
      exists [mkNode (m_start m) None None None None false], (Some 0%nat), (Nd 0 Lf Lf), 0%nat, top_addr, [], []. split; [reflexivity|]. split; [|split; [|split; [reflexivity|split; [lia|split; [reflexivity|left; auto]]]]].
      + split; [cbn [rep]; split; [reflexivity|]; eexists; split; [reflexivity|]; auto|]. split; [repeat constructor; intros []|]. intros r x E1 E2. injection E1 as <-. injection E2 as <-. reflexivity.
      + change (labs [mkNode (m_start m) None None None None false] (Nd 0 Lf Lf)) with ([] ++ Sp (m_start m) :: []). apply li_insert; [exact T2'|intros x []|intros x []|left; reflexivity|lia]. }
  destruct ST as [h1 [r1 [t1 [n1 [max1 [A [B [E1 [U1 [U2 [U3 [U4 [U5 U6]]]]]]]]]]]]]. rewrite E1. cbn [obind].
  destruct (place_end_ok ms m I3 (conj P1 P2) HA h1 r1 t1 n1 max1 A B (S (length h1))) as [h2 [r2 [t2 [n2 [E2 [V1 [V2 [V3 V4]]]]]]]]; try assumption.
  { pose proof (rep_len _ _ _ _ (proj1 U1) (proj1 (proj2 U1))). lia. }
  rewrite E2. cbn [obind]. destruct (place_map_ok ms m I3 (conj P1 P2) HA h2 r2 t2 n2 V1 V2 V3 V4) as [h3 [r3 [t3 [n3 [E3 [W1 W2]]]]]]. rewrite E3. cbn [obind].
  eexists. split; [reflexivity|]. split; [|reflexivity]. split; [exact I1|]. split; [exact I2|]. cbn [mm_maps mm_heap mm_root]. split; [|exists t3; auto].
  destruct I3 as [J1 J2]. split.
  - intros x Hx. apply in_app_iff in Hx. destruct Hx as [Hx|[<-|[]]]; [auto|split; assumption].
  - intros x y Hx Hy. apply in_app_iff in Hx, Hy. destruct Hx as [Hx|[<-|[]]], Hy as [Hy|[<-|[]]]; [auto|right; auto| |auto]. right. destruct (HA y Hy); [right|left]; assumption.
Qed.
Lemma find_from_ok : forall ms h t0 fuel root c par ptr a, MS ms -> (length (ids t0) < fuel)%nat -> rep h None (plug c t0) root -> rep h par t0 ptr -> LI (labs h (plug c t0)) ms [] ->
  (forall m, In m ms -> m_start m <= a < m_end m -> In (Mp m) (labs h t0)) ->
  exists r, find_from fuel h ptr a = Done r /\ (forall m, r = Some m -> In m ms /\ m_start m <= a < m_end m) /\ (r = None -> forall m, In m ms -> ~ (m_start m <= a < m_end m)) /\
    forall e, verify_from fuel h ptr a e = match r with Some m => if e <=? m_end m then Done tt else Refused | None => Refused end.
Proof.
  intros ms h. induction t0 as [|n l IHl r IHr]; intros fuel root c par ptr a HMS HF HT HR HL HIN; (destruct fuel as [|fuel]; [lia|]); cbn [find_from verify_from].
  { cbn [rep] in HR. subst ptr. exists None. split; [reflexivity|]. split; [discriminate|]. split; [|reflexivity]. intros _ m Hm Q. exact (HIN m Hm Q). }
  cbn [ids] in HF. rewrite app_length in HF. cbn [length] in HF. cbn [rep] in HR. destruct HR as [-> [x [X1 [X2 [XL XR]]]]].
  unfold node_at. rewrite X1. cbn [obind]. assert (LB := lb_node _ _ _ X1). destruct (sort_node _ _ _ _ _ (li_sort _ _ _ HL)) as [S1 S2].
  assert (INN : In (lb h n) (labs h (plug c (Nd n l r)))). { apply in_labs. exists n. split; [|reflexivity]. apply ids_plug_in. right. cbn [ids]. apply in_app_iff. right. left. reflexivity. }
  assert (LFT : forall m, In (Mp m) (labs h (Nd n l r)) -> lk (Mp m) < lk (lb h n) -> In (Mp m) (labs h l)).
  { intros m Hm Q. apply in_labs in Hm. destruct Hm as [i [Hi Ei]]. apply in_labs. exists i. split; [|exact Ei]. cbn [ids] in Hi. apply in_app_iff in Hi. destruct Hi as [Hi|[<-|Hi]]; [exact Hi| |]; [rewrite Ei in Q; lia|]. specialize (S2 i (or_introl Hi)). rewrite Ei in S2. lia. }
  assert (RGT : forall m, In (Mp m) (labs h (Nd n l r)) -> lk (lb h n) < lk (Mp m) -> In (Mp m) (labs h r)).
  { intros m Hm Q. apply in_labs in Hm. destruct Hm as [i [Hi Ei]]. apply in_labs. exists i. split; [|exact Ei]. cbn [ids] in Hi. apply in_app_iff in Hi. destruct Hi as [Hi|[<-|Hi]]; [|rewrite Ei in Q; lia|exact Hi]. specialize (S1 i (or_intror Hi)). rewrite Ei in S1. lia. }
  rewrite LB in LFT, RGT, INN. destruct (n_dest x) as [m0|].
  - cbn [lk] in LFT, RGT. assert (Hm0 := proj1 (li_mp _ _ _ HL m0) INN). destruct (proj1 HMS m0 Hm0) as [Q1 Q2]. destruct (N.ltb_spec a (m_start m0)) as [G|G].
    + apply (IHl fuel root ((false, n, r) :: c) _ _ a HMS ltac:(lia) HT XL HL). intros m Hm G2. apply LFT; [auto|]. lia.
    + destruct (N.leb_spec (m_end m0) a) as [G2|G2].
      * apply (IHr fuel root ((true, n, l) :: c) _ _ a HMS ltac:(lia) HT XR HL). intros m Hm G3. apply RGT; [auto|]. destruct (proj2 HMS m m0 Hm Hm0) as [->|[Q|Q]]; lia.
      * exists (Some m0). split; [reflexivity|]. split; [intros m E; injection E as <-; auto|]. split; [discriminate|reflexivity].
  - cbn [lk] in LFT, RGT. assert (SPN : forall m, In m ms -> n_sep x <= m_start m \/ m_end m <= n_sep x).
    { intros m Hm. destruct (proj1 HMS m Hm) as [Q1 Q2]. destruct (li_sp _ _ _ HL _ INN) as [[m' [Hm' E]]|[]]. destruct (proj1 HMS m' Hm') as [Q3 Q4]. destruct (proj2 HMS m m' Hm Hm') as [->|[Q|Q]]; lia. }
    destruct (N.leb_spec (n_sep x) a) as [G|G].
    + apply (IHr fuel root ((true, n, l) :: c) _ _ a HMS ltac:(lia) HT XR HL). intros m Hm G3. apply RGT; [auto|]. specialize (SPN m Hm). lia.
    + apply (IHl fuel root ((false, n, r) :: c) _ _ a HMS ltac:(lia) HT XL HL). intros m Hm G3. apply LFT; [auto|]. lia.
Qed.

(** ** The claims *)
(** Values of 64-bit arguments. *)
Definition fits (m : mapping) : Prop := m_start m < 2 ^ 64 /\ m_end m < 2 ^ 64 /\ m_off m < 2 ^ 64.
(** What a single mapping must satisfy, with blocks of 2^k: the size needed in the interface is computed modulo 2^64. *)
Definition wellformed (k : N) (m : mapping) : Prop :=
  mi_block (m_memif m) = 2 ^ k /\ m_start m < m_end m /\ m_start m mod 2 ^ k = 0 /\ m_end m mod 2 ^ k = 0 /\ m_off m mod 2 ^ k = 0 /\
  (m_end m - m_start m + m_off m) mod 2 ^ 64 <= mi_range (m_memif m).
Definition covers (m : mapping) (a : N) : Prop := m_start m <= a < m_end m.
Definition disjoint (m m' : mapping) : Prop := forall a, ~ (covers m a /\ covers m' a).
(** [taken k kept l bs fin]: going through [l], those wellformed and disjoint from everything kept so far are kept. *)
Inductive taken (k : N) : list mapping -> list mapping -> list bool -> list mapping -> Prop :=
  | taken_nil : forall kept, taken k kept [] [] kept
  | taken_yes : forall kept m l bs fin, wellformed k m -> (forall x, In x kept -> disjoint x m) -> taken k (kept ++ [m]) l bs fin -> taken k kept (m :: l) (true :: bs) fin
  | taken_no : forall kept m l bs fin, ~ (wellformed k m /\ forall x, In x kept -> disjoint x m) -> taken k kept l bs fin -> taken k kept (m :: l) (false :: bs) fin.

Lemma apart_disjoint : forall x m, proper x -> m_start m < m_end m -> (apart x m <-> disjoint x m).
Proof.
  intros x m [P1 P2] Q. unfold apart, disjoint, covers. split; [intros H a; lia|]. intros H. destruct (N.le_gt_cases (m_end x) (m_start m)) as [L|L]; [left; exact L|right].
  destruct (N.le_gt_cases (m_end m) (m_start x)) as [L2|L2]; [exact L2|exfalso]. apply (H (N.max (m_start x) (m_start m))). lia.
Qed.
Lemma land_pow : forall a k, N.land a (2 ^ k - 1) = a mod 2 ^ k.
Proof. intros a k. rewrite <- N.land_ones. f_equal. rewrite N.ones_equiv. lia. Qed.
Lemma top_lt : forall a, a < 2 ^ 64 <-> a <= top_addr. Proof. intros a. unfold top_addr. change (2 ^ 64) with 18446744073709551616. lia. Qed.
Lemma add_checks_ok : forall k c m, Inv k c -> fits m ->
  (add_checks c m = Done tt /\ wellformed k m /\ forall x, In x (mm_maps c) -> apart x m) \/
  ((add_checks c m = Refused \/ add_checks c m = Asserted) /\ ~ (wellformed k m /\ forall x, In x (mm_maps c) -> disjoint x m)).
Proof.
  intros k c m [I1 [I2 [[I3 _] _]]] [F1 [F2 F3]]. unfold add_checks, wellformed. rewrite I1, I2, !land_pow.
  destruct (N.eqb_spec (mi_block (m_memif m)) (2 ^ k)) as [A1|A1]; cbn [negb]; [|right; split; [auto|]; intros [Q _]; tauto].
  destruct (N.ltb_spec (m_start m) (m_end m)) as [A2|A2]; cbn [negb]; [|right; split; [auto|]; intros [[_ [Q _]] _]; lia].
  destruct (N.eqb_spec (m_start m mod 2 ^ k) 0) as [A3|A3]; cbn [negb]; [|right; split; [auto|]; intros [Q _]; tauto].
  destruct (N.eqb_spec (m_end m mod 2 ^ k) 0) as [A4|A4]; cbn [negb]; [|right; split; [auto|]; intros [Q _]; tauto].
  destruct (N.eqb_spec (m_off m mod 2 ^ k) 0) as [A5|A5]; cbn [negb]; [|right; split; [auto|]; intros [Q _]; tauto].
  unfold wrap. destruct (N.ltb_spec (mi_range (m_memif m)) ((m_end m - m_start m + m_off m) mod 2 ^ 64)) as [A6|A6]; [right; split; [auto|]; intros [[_ [_ [_ [_ [_ Q]]]]] _]; lia|].
  destruct (existsb (fun x => overlaps x (m_start m) (m_end m)) (mm_maps c)) eqn:EX.
  - right. split; [auto|]. intros [_ Q]. apply existsb_exists in EX. destruct EX as [x [Hx Ox]]. specialize (Q x Hx). apply apart_disjoint in Q; [|auto|exact A2]. apply (overlaps_apart x m (I3 x Hx) A2) in Q. congruence.
  - left. split; [reflexivity|]. split; [tauto|]. intros x Hx. apply (overlaps_apart x m (I3 x Hx) A2). destruct (overlaps x (m_start m) (m_end m)) eqn:E; [|reflexivity].
    assert (Q : existsb (fun x => overlaps x (m_start m) (m_end m)) (mm_maps c) = true) by (apply existsb_exists; eauto). congruence.
Qed.
Lemma add_all_ok : forall k l c, Inv k c -> Forall fits l -> exists c' bs, add_all c l = Done (c', bs) /\ taken k (mm_maps c) l bs (mm_maps c') /\ Inv k c'.
Proof.
  intros k. induction l as [|m l IH]; intros c HI HF; cbn [add_all].
  { exists c, []. split; [reflexivity|]. split; [constructor|exact HI]. }
  pose proof (Forall_inv HF) as Fm. pose proof (Forall_inv_tail HF) as Fl. destruct (add_checks_ok k c m HI Fm) as [[E [W D]]|[E W]].
  - assert (P : proper m). { split; [apply W|]. apply top_lt. apply Fm. }
    destruct (add_tree_ok k c m HI P D) as [c1 [E1 [I1 M1]]]. assert (EA : add_mapping c m = Done c1) by (unfold add_mapping; rewrite E; exact E1).
    rewrite EA. destruct (IH c1 I1 Fl) as [c2 [bs [E2 [T2 I2]]]]. rewrite E2. cbn [obind]. exists c2, (true :: bs). split; [reflexivity|]. split; [|exact I2].
    constructor; [exact W| |rewrite <- M1; exact T2]. intros x Hx. apply apart_disjoint; [|apply P|auto]. destruct HI as [_ [_ [[Q _] _]]]. auto.
  - destruct (IH c HI Fl) as [c2 [bs [E2 [T2 I2]]]]. assert (EA : add_mapping c m = Refused \/ add_mapping c m = Asserted) by (unfold add_mapping; destruct E as [-> | ->]; cbn [obind]; auto).
    exists c2, (false :: bs). destruct EA as [-> | ->]; rewrite E2; cbn [obind]; (split; [reflexivity|]; split; [constructor; assumption|exact I2]).
Qed.
Lemma new_inv : forall k, k < 31 -> exists c, new_map (2 ^ k) = Done c /\ Inv k c /\ mm_maps c = [].
Proof.
  intros k Hk. unfold new_map. destruct (N.eqb_spec (2 ^ k) 0) as [E|_]; [exfalso; revert E; apply N.pow_nonzero; lia|]. rewrite N.log2_pow2 by lia. destruct (N.ltb_spec k 31); [|lia].
  eexists. split; [reflexivity|]. split; [|reflexivity]. split; [reflexivity|]. split; [reflexivity|]. split; [split; [intros m []|intros m m0 []]|]. exists Lf; split.
  - split; [reflexivity|]. split; [constructor|]. intros r x E. discriminate.
  - unfold labs. cbn [ids map mm_heap mm_maps]. apply mkLI; [constructor|intros m; cbn; tauto|intros m []|intros s []|intros []].
Qed.
(** A map with blocks of 2^k on which the additions [l] were tried one after the other. *)
Definition built (k : N) (l : list mapping) (c : mmap) (bs : list bool) : Prop := exists c0, new_map (2 ^ k) = Done c0 /\ add_all c0 l = Done (c, bs).
Lemma built_inv : forall k l c bs, k < 31 -> Forall fits l -> built k l c bs -> Inv k c /\ taken k [] l bs (mm_maps c).
Proof.
  intros k l c bs Hk HF [c0 [E0 E1]]. destruct (new_inv k Hk) as [c1 [E2 [I1 M1]]]. assert (c1 = c0) by congruence. subst c1. destruct (add_all_ok k l c0 I1 HF) as [c2 [bs2 [E3 [T3 I3]]]].
  rewrite E1 in E3. injection E3 as <- <-. rewrite M1 in T3. auto.
Qed.

(** Every history of additions runs to its end (no null pointer, no failed assertion inside the tree, no endless loop), and accepts exactly
    the wellformed mappings disjoint from the ones accepted before. *)
Theorem C43_additions : forall k l, k < 31 -> Forall fits l -> exists c bs, built k l c bs /\ taken k [] l bs (mm_maps c).
Proof.
  intros k l Hk HF. destruct (new_inv k Hk) as [c0 [E0 [I0 M0]]]. destruct (add_all_ok k l c0 I0 HF) as [c2 [bs2 [E3 [T3 I3]]]]. exists c2, bs2. rewrite M0 in T3. split; [exists c0; auto|exact T3].
Qed.
Definition mem_a := mkMI 1 64 4096.
Definition mem_b := mkMI 2 64 (2 ^ 40).
(** Five accepted in an order that rotates the tree, an overlapping one and an unaligned one refused, and one reaching just below the top. *)
Definition ex_adds := [mkMap 4096 8192 mem_a 0; mkMap 0 4096 mem_a 0; mkMap 8192 8256 mem_b 128; mkMap 8128 8320 mem_b 0; mkMap 12288 16384 mem_b 64; mkMap 100 200 mem_b 0;
                       mkMap (2 ^ 64 - 128) (2 ^ 64 - 64) mem_b 0; mkMap 8256 12288 mem_b 8192].
Example C43_additions_ex : 6 < 31 /\ Forall fits ex_adds /\ match new_map 64 with Done c0 => match add_all c0 ex_adds with Done (_, bs) => bs = [true; true; true; false; true; false; true; true] | _ => False end | _ => False end.
Proof. split; [reflexivity|]. split; [unfold ex_adds; repeat (constructor; [split; [|split]; vm_compute; reflexivity|]); constructor|]. vm_compute. reflexivity. Qed.

(** After any history, lookups end; a found mapping is one of the kept ones and covers the address, none is found only if none does, and
    no two kept ones share an address. *)
Theorem C43_find : forall k l c bs a, k < 31 -> Forall fits l -> built k l c bs ->
  (exists r, find_mapping c a = Done r /\ (forall m, r = Some m <-> In m (mm_maps c) /\ covers m a)) /\
  (forall m m', In m (mm_maps c) -> In m' (mm_maps c) -> covers m a -> covers m' a -> m = m').
Proof.
  intros k l c bs a Hk HF HB. destruct (built_inv k l c bs Hk HF HB) as [[I1 [I2 [I3 [t [T1 T2]]]]] _].
  assert (UQ : forall m m', In m (mm_maps c) -> In m' (mm_maps c) -> covers m a -> covers m' a -> m = m').
  { intros m m' H1 H2 C1 C2. destruct (proj2 I3 m m' H1 H2) as [E|[E|E]]; [exact E| |]; unfold covers in *; lia. }
  split; [|exact UQ]. destruct (find_from_ok (mm_maps c) (mm_heap c) t (S (length (mm_heap c))) (mm_root c) [] None (mm_root c) a I3) as [r [E [R1 [R2 _]]]].
  - pose proof (rep_len _ _ _ _ (proj1 T1) (proj1 (proj2 T1))). lia.
  - exact (proj1 T1).
  - exact (proj1 T1).
  - exact T2.
  - intros m Hm _. apply (li_mp _ _ _ T2). exact Hm.
  - exists r. split; [exact E|]. intros m. split; [apply R1|]. intros [Hm HC]. destruct r as [m'|]; [|exfalso; exact (R2 eq_refl m Hm HC)]. destruct (R1 m' eq_refl) as [H1 H2]. f_equal. apply UQ; assumption.
Qed.
Example C43_find_ex : match new_map 64 with Done c0 => match add_all c0 ex_adds with
    Done (c, _) => find_mapping c 8200 = Done (Some (mkMap 8192 8256 mem_b 128)) /\ find_mapping c 8191 = Done (Some (mkMap 4096 8192 mem_a 0)) /\ find_mapping c 16384 = Done None /\ find_mapping c (2 ^ 64 - 1) = Done None
  | _ => False end | _ => False end.
Proof. vm_compute. auto. Qed.

(** The address handed to the interface: offset from the mapping's start plus its destination, and inside the interface's range, when the
    mapping's extent in the interface does not pass 2^64. *)
Theorem C43_translate : forall k l c bs a, k < 31 -> Forall fits l -> built k l c bs -> (forall m, In m (mm_maps c) -> m_end m - m_start m + m_off m < 2 ^ 64) ->
  (forall m, In m (mm_maps c) -> covers m a -> translate c a = Done (Some (m_memif m, m_off m + (a - m_start m))) /\ m_off m + (a - m_start m) < mi_range (m_memif m)) /\
  ((forall m, In m (mm_maps c) -> ~ covers m a) -> translate c a = Done None).
Proof.
  intros k l c bs a Hk HF HB HW. destruct (C43_find k l c bs a Hk HF HB) as [[r [E R]] _]. unfold translate. rewrite E. cbn [obind]. split.
  - intros m Hm HC. rewrite (proj2 (R m) (conj Hm HC)). assert (FW : m_start m < 2 ^ 64 /\ wellformed k m).
    { destruct (built_inv k l c bs Hk HF HB) as [_ T]. clear - T HF Hm. assert (G : forall kept l bs fin, taken k kept l bs fin -> Forall fits l -> In m fin -> In m kept \/ (fits m /\ wellformed k m)).
      { clear. induction 1; intros HF Hm; [auto|pose proof (Forall_inv HF); pose proof (Forall_inv_tail HF) as T; destruct (IHtaken T Hm) as [Q|Q]; [apply in_app_iff in Q; destruct Q as [Q|[<-|[]]]; auto|auto]|apply IHtaken; [exact (Forall_inv_tail HF)|exact Hm]]. }
      destruct (G _ _ _ _ T HF Hm) as [[]|[Q1 Q2]]. split; [apply Q1|exact Q2]. }
    destruct FW as [FS [_ [_ [_ [_ [_ FW]]]]]]. specialize (HW m Hm). rewrite N.mod_small in FW by exact HW. unfold covers in HC. split.
    + do 3 f_equal. unfold map_address, wrap. change (2 ^ 64) with 18446744073709551616 in *. replace (18446744073709551616 + a - m_start m) with (a - m_start m + 1 * 18446744073709551616) by lia.
      rewrite N.mod_add by lia. rewrite (N.mod_small (a - m_start m)) by lia. rewrite N.mod_small by lia. lia.
    + lia.
  - intros H. destruct r as [m|]; [|reflexivity]. destruct (proj1 (R m) eq_refl) as [H1 H2]. destruct (H m H1 H2).
Qed.
Example C43_translate_ex : match new_map 64 with Done c0 => match add_all c0 ex_adds with
    Done (c, _) => translate c 8200 = Done (Some (mem_b, 136)) /\ translate c 12287 = Done (Some (mem_b, 12223)) /\ forallb (fun m => m_end m - m_start m + m_off m <? 2 ^ 64) (mm_maps c) = true
  | _ => False end | _ => False end.
Proof. vm_compute. auto. Qed.

(** verifyHasMapping is exact for accesses that do not pass the top of the address space. *)
Theorem C43_verify : forall k l c bs a size, k < 31 -> Forall fits l -> built k l c bs -> a + size < 2 ^ 64 ->
  (verify_has c a size = Done tt <-> exists m, In m (mm_maps c) /\ covers m a /\ a + size <= m_end m) /\ (verify_has c a size = Done tt \/ verify_has c a size = Refused).
Proof.
  intros k l c bs a size Hk HF HB HS. destruct (C43_find k l c bs a Hk HF HB) as [_ UQ]. destruct (built_inv k l c bs Hk HF HB) as [[I1 [I2 [I3 [t [T1 T2]]]]] _].
  destruct (find_from_ok (mm_maps c) (mm_heap c) t (S (length (mm_heap c))) (mm_root c) [] None (mm_root c) a I3) as [r [E [R1 [R2 V]]]].
  - pose proof (rep_len _ _ _ _ (proj1 T1) (proj1 (proj2 T1))). lia.
  - exact (proj1 T1).
  - exact (proj1 T1).
  - exact T2.
  - intros m Hm _. apply (li_mp _ _ _ T2). exact Hm.
  - unfold verify_has. rewrite V. unfold wrap. rewrite N.mod_small by exact HS. destruct r as [m|].
    + destruct (R1 m eq_refl) as [H1 H2]. destruct (N.leb_spec (a + size) (m_end m)) as [L|L]; (split; [|auto]).
      * split; [intros _; exists m; auto|reflexivity].
      * split; [discriminate|]. intros [m' [K1 [K2 K3]]]. rewrite (UQ m' m K1 H1 K2 H2) in K3. lia.
    + split; [|auto]. split; [discriminate|]. intros [m' [K1 [K2 K3]]]. destruct (R2 eq_refl m' K1 K2).
Qed.
Example C43_verify_ex : match new_map 64 with Done c0 => match add_all c0 ex_adds with
    Done (c, _) => verify_has c 8192 64 = Done tt /\ verify_has c 8192 65 = Refused /\ verify_has c 16380 4 = Done tt /\ verify_has c 16384 1 = Refused
  | _ => False end | _ => False end.
Proof. vm_compute. auto. Qed.

(** An accepted mapping whose destination addresses lie outside the interface: the size needed is computed modulo 2^64. *)
Theorem C43_destination_in_range_refuted : exists l c bs m a, Forall fits l /\ built 6 l c bs /\ In m (mm_maps c) /\ covers m a /\
  exists d, translate c a = Done (Some (m_memif m, d)) /\ mi_range (m_memif m) <= d.
Proof.
  destruct (C43_additions 6 [mkMap 0 128 mem_a (2 ^ 64 - 64)]) as [c [bs [B _]]]; [reflexivity| |].
  { constructor; [split; [|split]; vm_compute; reflexivity|constructor]. }
  exists [mkMap 0 128 mem_a (2 ^ 64 - 64)], c, bs, (mkMap 0 128 mem_a (2 ^ 64 - 64)), 0. split; [constructor; [split; [|split]; vm_compute; reflexivity|constructor]|]. split; [exact B|].
  destruct B as [c0 [E0 E1]]. replace (new_map (2 ^ 6)) with (Done (mkMM 64 63 [] None [])) in E0 by (vm_compute; reflexivity). injection E0 as <-.
  match type of E1 with ?L = _ => let v := eval vm_compute in L in replace L with v in E1 by (vm_compute; reflexivity) end. injection E1 as <- <-.
  split; [left; vm_compute; reflexivity|]. split; [vm_compute; split; [discriminate|reflexivity]|]. eexists. split; [vm_compute; reflexivity|]. vm_compute. discriminate.
Qed.
(** An access that passes the top of the address space is reported as inside one mapping. *)
Theorem C43_verify_wraps_refuted : exists l c bs a size, Forall fits l /\ built 6 l c bs /\ size < 2 ^ 64 /\ a < 2 ^ 64 /\ verify_has c a size = Done tt /\ ~ exists m, In m (mm_maps c) /\ covers m a /\ a + size <= m_end m.
Proof.
  destruct (C43_additions 6 [mkMap 0 128 mem_a 0]) as [c [bs [B _]]]; [reflexivity| |].
  { constructor; [split; [|split]; vm_compute; reflexivity|constructor]. }
  exists [mkMap 0 128 mem_a 0], c, bs, 64, (2 ^ 64 - 1). split; [constructor; [split; [|split]; vm_compute; reflexivity|constructor]|]. split; [exact B|].
  destruct B as [c0 [E0 E1]]. replace (new_map (2 ^ 6)) with (Done (mkMM 64 63 [] None [])) in E0 by (vm_compute; reflexivity). injection E0 as <-.
  match type of E1 with ?L = _ => let v := eval vm_compute in L in replace L with v in E1 by (vm_compute; reflexivity) end. injection E1 as <- <-.
  split; [vm_compute; reflexivity|]. split; [vm_compute; reflexivity|]. split; [vm_compute; reflexivity|]. intros [m [H1 [_ H3]]]. cbn [mm_maps In] in H1. destruct H1 as [<-|[]]. revert H3. vm_compute. intros H3. apply H3. reflexivity.
Qed.
(** Block sizes from 2^31 on: the mask is computed in int. *)
Theorem C43_large_blocks_refuted : forall k, 31 <= k -> new_map (2 ^ k) = Undefined.
Proof.
  intros k Hk. unfold new_map. destruct (N.eqb_spec (2 ^ k) 0) as [E|_]; [exfalso; revert E; apply N.pow_nonzero; lia|]. rewrite N.log2_pow2 by lia. destruct (N.ltb_spec k 31); [lia|reflexivity].
Qed.

Print Assumptions C43_additions.
Print Assumptions C43_find.
Print Assumptions C43_translate.
Print Assumptions C43_verify.
Print Assumptions C43_destination_in_range_refuted.
Print Assumptions C43_verify_wraps_refuted.
Print Assumptions C43_large_blocks_refuted.
