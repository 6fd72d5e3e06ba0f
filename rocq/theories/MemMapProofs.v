(** Lemmas on the tree of separators and mappings. *)
From Coq Require Import List NArith Arith Bool Lia Permutation Sorted.
From Verif Require Import MathUtilsModel LayoutModel StorageModel MemMapModel MemMapTree.
Import ListNotations.
Open Scope N_scope.

(** What a node stands for, and its place in the order. *)
Inductive lbl := Sp (s : N) | Mp (m : mapping).
Definition lk (x : lbl) : N := match x with Sp s => 2 * s | Mp m => 2 * m_start m + 1 end.
Definition lb (h : heap) (i : nat) : lbl := match nth_error h i with Some x => match n_dest x with Some m => Mp m | None => Sp (n_sep x) end | None => Sp 0 end.
Lemma lb_keys : forall h h' i, keys h h' -> (i < length h)%nat -> lb h' i = lb h i.
Proof. intros h h' i [_ H] L. unfold lb. destruct (nth_error h i) as [x|] eqn:E; [|apply nth_error_None in E; lia]. destruct (H i x E) as [x' [-> [-> ->]]]. reflexivity. Qed.
Lemma lb_snoc : forall h x i, (i < length h)%nat -> lb (h ++ [x]) i = lb h i.
Proof. intros h x i L. unfold lb. rewrite nth_error_app1 by exact L. reflexivity. Qed.
Lemma lb_last : forall h x, lb (h ++ [x]) (length h) = match n_dest x with Some m => Mp m | None => Sp (n_sep x) end.
Proof. intros h x. unfold lb. rewrite nth_error_app2, Nat.sub_diag by lia. reflexivity. Qed.

(** Mappings: proper and disjoint. *)
Definition apart (m m' : mapping) : Prop := m_end m <= m_start m' \/ m_end m' <= m_start m.
Definition proper (m : mapping) : Prop := m_start m < m_end m /\ m_end m <= top_addr.
Definition MS (ms : list mapping) : Prop := (forall m, In m ms -> proper m) /\ (forall m m', In m ms -> In m' ms -> m = m' \/ apart m m').
(** The labels along the tree, [ex] being separators that need not belong to a mapping yet. *)
Record LI (L : list lbl) (ms : list mapping) (ex : list N) : Prop := mkLI {
  li_sort : StronglySorted N.lt (map lk L);
  li_mp : forall m, In (Mp m) L <-> In m ms;
  li_end : forall m, In m ms -> In (Sp (m_start m)) L /\ (In (Sp (m_end m)) L \/ m_end m = top_addr);
  li_sp : forall s, In (Sp s) L -> (exists m, In m ms /\ (s = m_start m \/ s = m_end m)) \/ In s ex;
  li_top : ~ In (Sp top_addr) L }.

Lemma SS_app : forall l1 l2, StronglySorted N.lt (l1 ++ l2) <-> StronglySorted N.lt l1 /\ StronglySorted N.lt l2 /\ forall x y, In x l1 -> In y l2 -> x < y.
Proof.
  induction l1 as [|a l1 IH]; intros l2; cbn [app].
  - split; [intros H; split; [constructor|split; [exact H|intros x y []]]|tauto].
  - split.
    + intros H. apply StronglySorted_inv in H. destruct H as [H1 H2]. apply IH in H1. destruct H1 as [K1 [K2 K3]]. rewrite Forall_app in H2. destruct H2 as [F1 F2]. split; [constructor; assumption|]. split; [exact K2|].
      intros x y [->|Hx] Hy; [rewrite Forall_forall in F2; auto|auto].
    + intros [H1 [H2 H3]]. apply StronglySorted_inv in H1. destruct H1 as [K1 K2]. constructor; [apply IH; split; [exact K1|split; [exact H2|]]; intros x y Hx Hy; apply H3; [right; exact Hx|exact Hy]|].
      apply Forall_app. split; [exact K2|]. apply Forall_forall. intros y Hy. apply H3; [left; reflexivity|exact Hy].
Qed.
Lemma li_insert : forall A B ms ex s, LI (A ++ B) ms ex -> (forall x, In x A -> lk x < 2 * s) -> (forall x, In x B -> 2 * s < lk x) -> In s ex -> s <> top_addr -> LI (A ++ Sp s :: B) ms ex.
Proof.
  intros A B ms ex s [H1 H2 H3 H4 H5] HA HB HE HT.
  assert (IN : forall x, In x (A ++ Sp s :: B) <-> x = Sp s \/ In x (A ++ B)) by (intros x; rewrite !in_app_iff; cbn [In]; intuition).
  split.
  - rewrite map_app in *. cbn [map]. apply SS_app in H1. destruct H1 as [K1 [K2 K3]]. apply SS_app. split; [exact K1|]. split.
    + constructor; [exact K2|]. apply Forall_forall. intros y Hy. apply in_map_iff in Hy. destruct Hy as [z [<- Hz]]. apply HB. exact Hz.
    + intros x y Hx [<-|Hy]; [apply in_map_iff in Hx; destruct Hx as [z [<- Hz]]; apply HA; exact Hz|auto].
  - intros m. rewrite IN, <- H2. split; [intros [E|E]; [discriminate|exact E]|auto].
  - intros m Hm. destruct (H3 m Hm) as [K1 K2]. rewrite !IN. tauto.
  - intros x Hx. apply IN in Hx. destruct Hx as [E|Hx]; [injection E as ->; right; exact HE|auto].
  - intros Q. apply IN in Q. destruct Q as [E|Q]; [congruence|contradiction].
Qed.
Lemma li_finish : forall A B ms m, LI (A ++ B) ms [m_start m; m_end m] -> (forall x, In x A -> lk x < 2 * m_start m + 1) -> (forall x, In x B -> 2 * m_start m + 1 < lk x) ->
  In (Sp (m_start m)) (A ++ B) -> (In (Sp (m_end m)) (A ++ B) \/ m_end m = top_addr) -> LI (A ++ Mp m :: B) (ms ++ [m]) [].
Proof.
  intros A B ms m [H1 H2 H3 H4 H5] HA HB HS HE.
  assert (IN : forall x, In x (A ++ Mp m :: B) <-> x = Mp m \/ In x (A ++ B)) by (intros x; rewrite !in_app_iff; cbn [In]; intuition).
  split.
  - rewrite map_app in *. cbn [map]. apply SS_app in H1. destruct H1 as [K1 [K2 K3]]. apply SS_app. split; [exact K1|]. split.
    + constructor; [exact K2|]. apply Forall_forall. intros y Hy. apply in_map_iff in Hy. destruct Hy as [z [<- Hz]]. apply HB. exact Hz.
    + intros x y Hx [<-|Hy]; [apply in_map_iff in Hx; destruct Hx as [z [<- Hz]]; apply HA; exact Hz|auto].
  - intros m'. rewrite IN, H2, in_app_iff. cbn [In]. split; [intros [E|E]; [injection E as ->; auto|auto]|intros [E|[->|[]]]; auto].
  - intros m' Hm. rewrite !IN. apply in_app_iff in Hm. destruct Hm as [Hm|[<-|[]]]; [destruct (H3 m' Hm) as [K1 K2]; tauto|tauto].
  - intros s Hs. apply IN in Hs. destruct Hs as [E|Hs]; [discriminate|]. left. destruct (H4 s Hs) as [[m' [K1 K2]]|[E|[E|[]]]]; [exists m'|exists m|exists m]; rewrite in_app_iff; cbn [In]; intuition auto.
  - intros Q. apply IN in Q. destruct Q as [E|Q]; [discriminate|contradiction].
Qed.

(** No label falls strictly between the ends of a mapping that is apart from the others. *)
Section Adding.
Variables (ms : list mapping) (nm : mapping).
Hypothesis HMS : MS ms.
Hypothesis HP : proper nm.
Hypothesis HAP : forall m, In m ms -> apart m nm.
Let st := m_start nm.
Let en := m_end nm.
Let ex := [st; en].

Lemma between : forall L x, LI L ms ex -> In x L -> lk x <= 2 * st \/ 2 * en <= lk x.
Proof.
  intros L x HL Hx. destruct HP as [P1 P2]. fold st en in P1, P2. destruct x as [s|m]; cbn [lk].
  - destruct (li_sp _ _ _ HL s Hx) as [[m [Hm E]]|[<-|[<-|[]]]]; [|lia|lia]. destruct (HAP m Hm) as [Q|Q]; destruct (proj1 HMS m Hm) as [Q1 Q2]; fold st en in Q; lia.
  - apply (li_mp _ _ _ HL) in Hx. destruct (HAP m Hx) as [Q|Q]; destruct (proj1 HMS m Hx) as [Q1 Q2]; fold st en in Q; lia.
Qed.
Lemma sp_top : forall L s, LI L ms ex -> In (Sp s) L -> s < top_addr.
Proof.
  intros L s HL Hs. assert (N : s <> top_addr) by (intros ->; exact (li_top _ _ _ HL Hs)). destruct HP as [P1 P2]. fold st en in P1, P2. destruct (li_sp _ _ _ HL s Hs) as [[m [Hm E]]|[<-|[<-|[]]]]; [|lia|lia].
  destruct (proj1 HMS m Hm). lia.
Qed.

Definition tree (h : heap) (root : option nat) (t : tr) : Prop := rep h None t root /\ NoDup (ids t) /\ blackroot h root.
Definition labs (h : heap) (t : tr) : list lbl := map (lb h) (ids t).
(** Where the search for key [K] has got to. *)
Definition Loc (h : heap) (K : N) (c : list frame) : Prop := (forall i, In i (pre c) -> lk (lb h i) < K) /\ (forall i, In i (post c) -> K < lk (lb h i)).
Lemma labs_plug : forall h c t, labs h (plug c t) = map (lb h) (pre c) ++ labs h t ++ map (lb h) (post c).
Proof. intros. unfold labs. rewrite ids_plug, !map_app. reflexivity. Qed.
Lemma sort_node : forall h c n l r, StronglySorted N.lt (map lk (labs h (plug c (Nd n l r)))) ->
  (forall i, In i (pre c) \/ In i (ids l) -> lk (lb h i) < lk (lb h n)) /\ (forall i, In i (ids r) \/ In i (post c) -> lk (lb h n) < lk (lb h i)).
Proof.
  intros h c n l r H. assert (E : labs h (plug c (Nd n l r)) = map (lb h) (pre c ++ ids l) ++ map (lb h) (n :: ids r ++ post c)).
  { rewrite labs_plug. unfold labs. cbn [ids]. rewrite <- !map_app. f_equal. rewrite <- !app_assoc. reflexivity. }
  rewrite E, map_app in H. apply SS_app in H. destruct H as [_ [H2 H3]]. cbn [map] in H2. apply StronglySorted_inv in H2. destruct H2 as [_ H2]. rewrite Forall_forall in H2. split.
  - intros i Hi. apply H3; [|cbn [map]; left; reflexivity]. apply in_map, in_map, in_app_iff. exact Hi.
  - intros i Hi. apply H2. apply in_map, in_map, in_app_iff. exact Hi.
Qed.
Lemma loc_left : forall h K c n l r, StronglySorted N.lt (map lk (labs h (plug c (Nd n l r)))) -> Loc h K c -> K < lk (lb h n) -> Loc h K ((false, n, r) :: c).
Proof.
  intros h K c n l r HS [L1 L2] HK. destruct (sort_node _ _ _ _ _ HS) as [S1 S2]. split; cbn [pre post]; intros i Hi.
  - rewrite app_nil_r in Hi. auto.
  - apply in_app_iff in Hi. destruct Hi as [[->|Hi]|Hi]; [exact HK| |auto]. specialize (S2 i (or_introl Hi)). lia.
Qed.
Lemma loc_right : forall h K c n l r, StronglySorted N.lt (map lk (labs h (plug c (Nd n l r)))) -> Loc h K c -> lk (lb h n) < K -> Loc h K ((true, n, l) :: c).
Proof.
  intros h K c n l r HS [L1 L2] HK. destruct (sort_node _ _ _ _ _ HS) as [S1 S2]. split; cbn [pre post]; intros i Hi; [|auto].
  apply in_app_iff in Hi. destruct Hi as [Hi|Hi]; [auto|]. apply in_app_iff in Hi. destruct Hi as [Hi|[->|[]]]; [|exact HK]. specialize (S1 i (or_intror Hi)). lia.
Qed.
(** Hanging a new node where the search ended. *)
Lemma hang_at : forall d h root n a c x K, tree h root (plug c (mk d n a Lf)) -> n_par x = Some n -> n_l x = None -> n_r x = None ->
  let y := match n_dest x with Some m => Mp m | None => Sp (n_sep x) end in
  lk y = K -> Loc h K ((d, n, a) :: c) ->
  exists h' r' t', hang d h root n x = Done (h', r', length h) /\ tree h' r' t' /\ lb h' (length h) = y /\
    ids t' = pre ((d, n, a) :: c) ++ length h :: post ((d, n, a) :: c) /\
    (forall i, In i (pre ((d, n, a) :: c) ++ post ((d, n, a) :: c)) -> lb h' i = lb h i) /\
    labs h (plug c (mk d n a Lf)) = map (lb h) (pre ((d, n, a) :: c)) ++ map (lb h) (post ((d, n, a) :: c)) /\
    labs h' t' = map (lb h) (pre ((d, n, a) :: c)) ++ y :: map (lb h) (post ((d, n, a) :: c)) /\
    (forall z, In z (map (lb h) (pre ((d, n, a) :: c))) -> lk z < K) /\ (forall z, In z (map (lb h) (post ((d, n, a) :: c))) -> K < lk z).
Proof.
  intros d h root n a c x K [T1 [T2 T3]] P1 P2 P3 y HK [L1 L2]. destruct (hang_ok d h root n a c x T1 T2 T3 P1 P2 P3) as [h' [r' [t' [E [R1 [R2 [R3 [R4 R5]]]]]]]].
  set (cc := (d, n, a) :: c) in *. change (plug c (mk d n a (Nd (length h) Lf Lf))) with (plug cc (Nd (length h) Lf Lf)) in R2. rewrite ids_plug in R2. cbn [ids app] in R2.
  assert (LT : forall i, In i (pre cc ++ post cc) -> (i < length h)%nat).
  { intros i Hi. apply (rep_lt _ _ _ _ _ T1). change (plug c (mk d n a Lf)) with (plug cc Lf). rewrite ids_plug. exact Hi. }
  assert (LB : forall i, In i (pre cc ++ post cc) -> lb h' i = lb h i).
  { intros i Hi. specialize (LT i Hi). rewrite (lb_keys _ _ i R3) by (rewrite app_length; cbn; lia). apply lb_snoc. exact LT. }
  assert (LN : lb h' (length h) = y). { rewrite (lb_keys _ _ _ R3) by (rewrite app_length; cbn; lia). apply lb_last. }
  exists h', r', t'. split; [exact E|]. split; [split; [exact R1|split; [exact R5|exact R4]]|]. split; [exact LN|]. split; [exact R2|]. split; [exact LB|]. split; [|split; [|split]].
  - change (plug c (mk d n a Lf)) with (plug cc Lf). rewrite labs_plug. reflexivity.
  - unfold labs. rewrite R2, map_app. cbn [map]. rewrite LN. f_equal; [|f_equal]; apply map_ext_in; intros i Hi; apply LB; apply in_app_iff; auto.
  - intros z Hz. apply in_map_iff in Hz. destruct Hz as [i [<- Hi]]. auto.
  - intros z Hz. apply in_map_iff in Hz. destruct Hz as [i [<- Hi]]. auto.
Qed.
Lemma rep_root_nd : forall h c t root n, rep h None (plug c t) root -> (exists l r, t = Nd n l r) -> exists x, nth_error h n = Some x /\ forall l r, t = Nd n l r -> rep h (Some n) l (n_l x) /\ rep h (Some n) r (n_r x).
Proof.
  intros h c t root n H [l [r ->]]. apply rep_plug in H. destruct H as [par [ptr [_ H]]]. cbn [rep] in H. destruct H as [_ [x [H1 [H2 [H3 H4]]]]]. exists x. split; [exact H1|].
  intros l0 r0 E. injection E as <- <-. auto.
Qed.
Lemma lb_node : forall h i x, nth_error h i = Some x -> lb h i = match n_dest x with Some m => Mp m | None => Sp (n_sep x) end.
Proof. intros h i x E. unfold lb. rewrite E. reflexivity. Qed.
Definition MaxOk (h : heap) (max : N) (P : list nat) : Prop := (P = [] /\ max = top_addr) \/ exists i P', P = i :: P' /\ (lb h i = Sp max \/ exists m, lb h i = Mp m).
Lemma rep_some : forall h par t k, rep h par t (Some k) -> exists l r, t = Nd k l r.
Proof. intros h par [|i l r] k H; cbn [rep] in H; [discriminate|]. destruct H as [E _]. injection E as ->. eauto. Qed.
Lemma rep_none : forall h par t, rep h par t None -> t = Lf.
Proof. intros h par [|i l r] H; cbn [rep] in H; [reflexivity|]. destruct H as [E _]. discriminate. Qed.
Lemma in_labs : forall h t x, In x (labs h t) <-> exists i, In i (ids t) /\ lb h i = x.
Proof. intros h t x. unfold labs. rewrite in_map_iff. split; intros [i [H1 H2]]; exists i; auto. Qed.
(** A label of the tree whose key lies between a node and the end of a search is under that node. *)
Lemma find_side : forall h c n l r y, StronglySorted N.lt (map lk (labs h (plug c (Nd n l r)))) -> In y (labs h (plug c (Nd n l r))) -> (forall i, In i (pre c) -> lk (lb h i) < lk y) -> lk y < lk (lb h n) -> l <> Lf.
Proof.
  intros h c n l r y HS Hy HA HN ->. apply in_labs in Hy. destruct Hy as [i [Hi <-]]. destruct (sort_node _ _ _ _ _ HS) as [S1 S2]. rewrite ids_plug in Hi. cbn [ids app] in Hi. apply in_app_iff in Hi.
  destruct Hi as [Hi|[->|Hi]]; [specialize (HA i Hi); lia|lia|]. apply in_app_iff in Hi. specialize (S2 i Hi). lia.
Qed.
Lemma find_side_r : forall h c n l r y, StronglySorted N.lt (map lk (labs h (plug c (Nd n l r)))) -> In y (labs h (plug c (Nd n l r))) -> (forall i, In i (post c) -> lk y < lk (lb h i)) -> lk (lb h n) < lk y -> r <> Lf.
Proof.
  intros h c n l r y HS Hy HA HN ->. apply in_labs in Hy. destruct Hy as [i [Hi <-]]. destruct (sort_node _ _ _ _ _ HS) as [S1 S2]. rewrite ids_plug in Hi. cbn [ids] in Hi. rewrite !in_app_iff in Hi. cbn [In app] in Hi.
  destruct Hi as [Hi|[[Hi|[Hi|[]]]|Hi]]; [specialize (S1 i (or_introl Hi)); lia|specialize (S1 i (or_intror Hi)); lia|subst; lia|specialize (HA i Hi); lia].
Qed.

Lemma place_start_ok : forall t0 fuel h root c n max, (length (ids t0) < fuel)%nat ->
  tree h root (plug c t0) -> LI (labs h (plug c t0)) ms ex -> Loc h (2 * st) c -> (exists l r, t0 = Nd n l r) -> MaxOk h max (post c) -> st <= max ->
  exists h1 r1 t1 n1 max1 A B, place_start fuel h root n max st = Done (h1, r1, n1, max1) /\ tree h1 r1 t1 /\ LI (labs h1 t1) ms ex /\ lb h1 n1 = Sp st /\ st <= max1 /\
    ids t1 = A ++ n1 :: B /\ forall x, nth_error h1 n1 = Some x -> n_r x = None -> MaxOk h1 max1 B.
Proof.
  induction t0 as [|n0 l IHl r IHr]; intros fuel h root c n max HF HT HL HLoc [l' [r' E]] HM HMx; [discriminate|]. injection E as -> -> ->.
  destruct fuel as [|fuel]; [lia|]. cbn [place_start ids] in *. rewrite app_length in HF. cbn [length] in HF.
  destruct (rep_root_nd _ _ _ _ n (proj1 HT) ltac:(eauto)) as [x [X1 X2]]. destruct (X2 _ _ eq_refl) as [XL XR]. clear X2. unfold node_at at 1. rewrite X1. cbn [obind].
  assert (LB := lb_node _ _ _ X1). assert (HS := li_sort _ _ _ HL). destruct HP as [P1 P2]. fold st en in P1, P2.
  assert (INN : In (lb h n) (labs h (plug c (Nd n l' r')))). { apply in_labs. exists n. split; [|reflexivity]. apply ids_plug_in. right. cbn [ids]. apply in_app_iff. right. left. reflexivity. }
  destruct (n_dest x) as [m|] eqn:ED.
  - rewrite LB in INN. assert (Hm := proj1 (li_mp _ _ _ HL m) INN). destruct (li_end _ _ _ HL m Hm) as [M1 M2]. destruct (proj1 HMS m Hm) as [M3 M4].
    destruct (N.ltb_spec st (m_start m)) as [Q|Q].
    + assert (NL : l' <> Lf). { apply (find_side h c n l' r' (Sp (m_start m)) HS M1); [|rewrite LB; cbn [lk]; lia]. intros i Hi. pose proof (proj1 HLoc i Hi). cbn [lk]. lia. }
      destruct (n_l x) as [k|]; [|rewrite (rep_none _ _ _ XL) in NL; congruence]. apply (IHl fuel h root ((false, n, r') :: c) k max); [lia|exact HT|exact HL| |eapply rep_some; exact XL| |exact HMx].
      * eapply loc_left; [exact HS|exact HLoc|]. rewrite LB. cbn [lk]. lia.
      * right. cbn [post app]. eexists _, _. split; [reflexivity|]. right. exists m. exact LB.
    + destruct (N.leb_spec (m_end m) st) as [Q2|Q2].
      * assert (NR : r' <> Lf). { destruct M2 as [M2|M2]; [|lia]. apply (find_side_r h c n l' r' (Sp (m_end m)) HS M2); [|rewrite LB; cbn [lk]; lia]. intros i Hi. pose proof (proj2 HLoc i Hi). cbn [lk]. lia. }
        destruct (n_r x) as [k|]; [|rewrite (rep_none _ _ _ XR) in NR; congruence]. apply (IHr fuel h root ((true, n, l') :: c) k max); [lia|exact HT|exact HL| |eapply rep_some; exact XR|exact HM|exact HMx].
        eapply loc_right; [exact HS|exact HLoc|]. rewrite LB. cbn [lk]. lia.
      * exfalso. destruct (HAP m Hm) as [G|G]; fold st en in G; lia.
  - destruct (N.eqb_spec (n_sep x) st) as [Q|Q].
    + eexists h, root, _, n, max, (pre c ++ ids l'), (ids r' ++ post c). split; [reflexivity|]. split; [exact HT|]. split; [exact HL|]. split; [congruence|]. split; [exact HMx|]. split.
      * rewrite ids_plug. cbn [ids]. rewrite <- !app_assoc. reflexivity.
      * intros x0 E0 EN. assert (x0 = x) by congruence. subst x0. rewrite EN in XR. rewrite (rep_none _ _ _ XR). exact HM.
    + destruct (N.ltb_spec (n_sep x) st) as [Q2|Q2].
      * assert (LR : Loc h (2 * st) ((true, n, l') :: c)). { eapply loc_right; [exact HS|exact HLoc|]. rewrite LB. cbn [lk]. lia. }
        destruct (n_r x) as [k|]; [apply (IHr fuel h root ((true, n, l') :: c) k max); [lia|exact HT|exact HL|exact LR|eapply rep_some; exact XR|exact HM|exact HMx]|].
        assert (r' = Lf) by (eapply rep_none; exact XR). subst r'.
        destruct (hang_at true h root n l' c (sep_node (Some n) st) (2 * st) HT eq_refl eq_refl eq_refl eq_refl LR) as [h1 [r1 [t1 [E1 [T1 [B1 [I1 [K1 [L1 [L2 [O1 O2]]]]]]]]]]].
        rewrite E1. cbn [obind]. eexists h1, r1, t1, _, max, _, _. split; [reflexivity|]. split; [exact T1|]. split; [|split; [exact B1|split; [exact HMx|split; [exact I1|]]]].
        -- rewrite L2. apply (li_insert _ _ ms ex st); [|exact O1|exact O2|left; reflexivity|lia]. rewrite <- L1. exact HL.
        -- intros x0 _ _. cbn [post app]. destruct HM as [[E0 E2]|[i [P' [E0 E2]]]]; [left; auto|right]. exists i, P'. split; [exact E0|]. rewrite K1; [exact E2|]. apply in_app_iff. right. cbn [post app]. rewrite E0. left. reflexivity.
      * assert (LR : Loc h (2 * st) ((false, n, r') :: c)). { eapply loc_left; [exact HS|exact HLoc|]. rewrite LB. cbn [lk]. lia. }
        assert (MO : MaxOk h (n_sep x) (post ((false, n, r') :: c))). { right. cbn [post app]. eexists _, _. split; [reflexivity|]. left. exact LB. }
        destruct (n_l x) as [k|]; [apply (IHl fuel h root ((false, n, r') :: c) k (n_sep x)); [lia|exact HT|exact HL|exact LR|eapply rep_some; exact XL|exact MO|lia]|].
        assert (l' = Lf) by (eapply rep_none; exact XL). subst l'.
        destruct (hang_at false h root n r' c (sep_node (Some n) st) (2 * st) HT eq_refl eq_refl eq_refl eq_refl LR) as [h1 [r1 [t1 [E1 [T1 [B1 [I1 [K1 [L1 [L2 [O1 O2]]]]]]]]]]].
        rewrite E1. cbn [obind]. eexists h1, r1, t1, _, (n_sep x), _, _. split; [reflexivity|]. split; [exact T1|]. split; [|split; [exact B1|split; [lia|split; [exact I1|]]]].
        -- rewrite L2. apply (li_insert _ _ ms ex st); [|exact O1|exact O2|left; reflexivity|lia]. rewrite <- L1. exact HL.
        -- intros x0 _ _. right. cbn [post app]. eexists _, _. split; [reflexivity|]. left. rewrite K1; [exact LB|]. apply in_app_iff. right. left. reflexivity.
Qed.

Lemma place_end_right : forall t0 fuel h root c n max, (length (ids t0) < fuel)%nat ->
  tree h root (plug c t0) -> LI (labs h (plug c t0)) ms ex -> (forall i, In i (pre c) -> lk (lb h i) <= 2 * st) -> (forall i, In i (post c) -> 2 * en < lk (lb h i)) ->
  (forall i, In i (ids t0) -> 2 * en <= lk (lb h i)) -> (exists l r, t0 = Nd n l r) ->
  exists h2 r2 t2 n2, place_end fuel h root n max st en = Done (h2, r2, n2) /\ tree h2 r2 t2 /\ LI (labs h2 t2) ms ex /\ In n2 (ids t2) /\ lb h2 n2 = Sp en /\
    (forall x, In x (labs h (plug c t0)) -> In x (labs h2 t2)).
Proof.
  induction t0 as [|n0 l IHl r IHr]; intros fuel h root c n max HF HT HL HA HB HC [l' [r' E]]; [discriminate|]. injection E as -> -> ->.
  destruct fuel as [|fuel]; [lia|]. cbn [place_end]. cbn [ids] in HF, HC. rewrite app_length in HF. cbn [length] in HF.
  destruct (rep_root_nd _ _ _ _ n (proj1 HT) ltac:(eauto)) as [x [X1 X2]]. destruct (X2 _ _ eq_refl) as [XL XR]. clear X2. unfold node_at at 1. rewrite X1. cbn [obind].
  assert (LB := lb_node _ _ _ X1). assert (HS := li_sort _ _ _ HL). destruct HP as [P1 P2]. fold st en in P1, P2.
  assert (INN' : In n (ids (plug c (Nd n l' r')))). { apply ids_plug_in. right. cbn [ids]. apply in_app_iff. right. left. reflexivity. }
  assert (INN : In (lb h n) (labs h (plug c (Nd n l' r')))). { apply in_labs. exists n. auto. }
  assert (HCn : 2 * en <= lk (lb h n)). { apply HC. apply in_app_iff. right. left. reflexivity. }
  assert (HLe : 2 * en < lk (lb h n) -> forall i, In i (post ((false, n, r') :: c)) -> 2 * en < lk (lb h i)).
  { intros Q i Hi. cbn [post app] in Hi. destruct (sort_node _ _ _ _ _ HS) as [_ S2]. destruct Hi as [->|Hi]; [exact Q|]. apply in_app_iff in Hi. specialize (S2 i Hi). lia. }
  assert (HAe : forall i, In i (pre ((false, n, r') :: c)) -> lk (lb h i) <= 2 * st) by (intros i Hi; cbn [pre] in Hi; rewrite app_nil_r in Hi; auto).
  assert (HCe : forall i, In i (ids l') -> 2 * en <= lk (lb h i)) by (intros i Hi; apply HC; apply in_app_iff; auto).
  destruct (n_dest x) as [m|] eqn:ED.
  - rewrite LB in INN, HCn. cbn [lk] in HCn. assert (Hm := proj1 (li_mp _ _ _ HL m) INN). destruct (li_end _ _ _ HL m Hm) as [M1 M2].
    destruct (N.leb_spec en (m_start m)) as [Q|Q]; [|lia].
    assert (NL : l' <> Lf). { apply (find_side h c n l' r' (Sp (m_start m)) HS M1); [|rewrite LB; cbn [lk]; lia]. intros i Hi. pose proof (HA i Hi). cbn [lk]. lia. }
    destruct (n_l x) as [k|]; [|rewrite (rep_none _ _ _ XL) in NL; congruence]. apply (IHl fuel h root ((false, n, r') :: c) k max); [lia|exact HT|exact HL|exact HAe| |exact HCe|eapply rep_some; exact XL].
    apply HLe. rewrite LB. cbn [lk]. lia.
  - rewrite LB in INN, HCn. cbn [lk] in HCn. destruct (N.eqb_spec (n_sep x) en) as [Q|Q].
    { exists h, root, (plug c (Nd n l' r')), n. split; [reflexivity|]. split; [exact HT|]. split; [exact HL|]. split; [exact INN'|]. split; [congruence|auto]. }
    destruct (N.ltb_spec (n_sep x) st); [lia|]. destruct (N.eqb_spec (n_sep x) st); [lia|]. destruct (N.ltb_spec (n_sep x) en); [lia|].
    assert (GT : 2 * en < lk (lb h n)) by (rewrite LB; cbn [lk]; lia).
    destruct (n_l x) as [k|]; [apply (IHl fuel h root ((false, n, r') :: c) k (n_sep x)); [lia|exact HT|exact HL|exact HAe|exact (HLe GT)|exact HCe|eapply rep_some; exact XL]|].
    assert (l' = Lf) by (eapply rep_none; exact XL). subst l'. pose proof (sp_top _ _ HL INN) as TP.
    assert (LR : Loc h (2 * en) ((false, n, r') :: c)). { split; [intros i Hi; specialize (HAe i Hi); lia|exact (HLe GT)]. }
    destruct (hang_at false h root n r' c (sep_node (Some n) en) (2 * en) HT eq_refl eq_refl eq_refl eq_refl LR) as [h1 [r1 [t1 [E1 [T1 [B1 [I1 [K1 [L1 [L2 [O1 O2]]]]]]]]]]].
    rewrite E1. exists h1, r1, t1, (length h). split; [reflexivity|]. split; [exact T1|]. split; [|split; [rewrite I1; apply in_app_iff; right; left; reflexivity|split; [exact B1|]]].
    + rewrite L2. apply (li_insert _ _ ms ex en); [|exact O1|exact O2|right; left; reflexivity|lia]. rewrite <- L1. exact HL.
    + intros y Hy. change (mk false n r' Lf) with (Nd n Lf r') in L1. rewrite L1 in Hy. rewrite L2. apply in_app_iff in Hy. apply in_app_iff. cbn [In]. tauto.
Qed.
Lemma split_uniq : forall (A B A' B' : list nat) n, NoDup (A ++ n :: B) -> A ++ n :: B = A' ++ n :: B' -> A = A' /\ B = B'.
Proof.
  induction A as [|a A IH]; intros B A' B' n ND E.
  - destruct A' as [|a' A']; cbn [app] in *; [injection E as ->; auto|]. injection E as <- E. exfalso. apply NoDup_cons_iff in ND. apply (proj1 ND). rewrite E. apply in_app_iff. right. left. reflexivity.
  - destruct A' as [|a' A']; cbn [app] in *.
    + injection E as -> E. exfalso. apply NoDup_cons_iff in ND. apply (proj1 ND). apply in_app_iff. right. left. reflexivity.
    + injection E as <- E. apply NoDup_cons_iff in ND. destruct (IH B A' B' n (proj2 ND) E) as [-> ->]. auto.
Qed.
(** After the end: the node to place the mapping at is the end, or the start when nothing lies between it and the end. *)
Definition placed (h : heap) (t : tr) (n : nat) : Prop :=
  (In n (ids t) /\ lb h n = Sp en) \/
  (lb h n = Sp st /\ (exists x, nth_error h n = Some x /\ n_r x = None) /\ In n (ids t) /\ (In (Sp en) (labs h t) \/ en = top_addr)).
Lemma place_end_ok : forall h root t n max A B fuel, (length (ids t) < fuel)%nat -> tree h root t -> LI (labs h t) ms ex -> lb h n = Sp st -> st <= max -> ids t = A ++ n :: B ->
  (forall x, nth_error h n = Some x -> n_r x = None -> MaxOk h max B) ->
  exists h2 r2 t2 n2, place_end fuel h root n max st en = Done (h2, r2, n2) /\ tree h2 r2 t2 /\ LI (labs h2 t2) ms ex /\ placed h2 t2 n2 /\ In (Sp st) (labs h2 t2).
Proof.
  intros h root t n max A B fuel HF HT HL HN HX HI HM. destruct HP as [P1 P2]. fold st en in P1, P2. destruct fuel as [|fuel]; [lia|]. cbn [place_end].
  assert (IN : In n (ids t)) by (rewrite HI; apply in_app_iff; right; left; reflexivity). assert (INL : In (Sp st) (labs h t)) by (apply in_labs; eauto).
  destruct (find_ctx t n IN) as [c [l [r ->]]]. assert (HS := li_sort _ _ _ HL). destruct (sort_node _ _ _ _ _ HS) as [S1 S2]. rewrite HN in S1, S2. cbn [lk] in S1, S2.
  assert (EAB : A = pre c ++ ids l /\ B = ids r ++ post c).
  { apply (split_uniq A B _ _ n); [rewrite <- HI; apply (proj1 (proj2 HT))|]. rewrite <- HI, ids_plug. cbn [ids]. rewrite <- !app_assoc. reflexivity. }
  destruct (rep_root_nd _ _ _ _ n (proj1 HT) ltac:(eauto)) as [x [X1 X2]]. destruct (X2 _ _ eq_refl) as [XL XR]. clear X2. unfold node_at at 1. rewrite X1. cbn [obind]. assert (LB := lb_node _ _ _ X1). rewrite HN in LB.
  destruct (n_dest x) as [m|] eqn:ED; [discriminate|]. injection LB as ES. rewrite <- ES.
  destruct (N.eqb_spec st en); [lia|]. destruct (N.ltb_spec st st); [lia|]. rewrite N.eqb_refl.
  destruct (n_r x) as [k|] eqn:EK.
  - destruct (N.leb_spec st max); [|lia].
    assert (IB : forall i, In i (ids (plug c (Nd n l r))) -> lk (lb h i) <= 2 * st \/ 2 * en <= lk (lb h i)) by (intros i Hi; apply (between _ _ HL); apply in_labs; eauto).
    assert (RB : forall i, In i (ids r) -> 2 * en <= lk (lb h i)).
    { intros i Hi. destruct (IB i) as [Q|Q]; [apply ids_plug_in; right; cbn [ids]; apply in_app_iff; right; right; exact Hi| |exact Q]. specialize (S2 i (or_introl Hi)). lia. }
    destruct (place_end_right r fuel h root ((true, n, l) :: c) k max) as [h2 [r2 [t2 [n2 [E1 [E2 [E3 [E4 [E5 E6]]]]]]]]].
    + assert (length (ids r) < length (ids (plug c (Nd n l r))))%nat; [|lia]. rewrite ids_plug, !app_length. cbn [ids]. rewrite app_length. cbn [length]. lia.
    + exact HT.
    + exact HL.
    + cbn [pre]. intros i Hi. apply in_app_iff in Hi. destruct Hi as [Hi|Hi]; [specialize (S1 i (or_introl Hi)); lia|]. apply in_app_iff in Hi. destruct Hi as [Hi|[<-|[]]]; [specialize (S1 i (or_intror Hi)); lia|]. rewrite HN. cbn [lk]. lia.
    + cbn [post app]. intros i Hi. destruct (rep_some _ _ _ _ XR) as [rl [rr ->]].
      change (plug c (Nd n l (Nd k rl rr))) with (plug ((true, n, l) :: c) (Nd k rl rr)) in HS. destruct (sort_node _ _ _ _ _ HS) as [_ S4]. specialize (S4 i (or_intror Hi)).
      assert (2 * en <= lk (lb h k)); [|lia]. apply RB. cbn [ids]. apply in_app_iff. right. left. reflexivity.
    + exact RB.
    + eapply rep_some; exact XR.
    + exists h2, r2, t2, n2. split; [exact E1|]. split; [exact E2|]. split; [exact E3|]. split; [left; auto|]. apply E6. exact INL.
  - specialize (HM x X1 EK). assert (r = Lf) by (eapply rep_none; exact XR). subst r. cbn [ids app] in EAB. destruct EAB as [EA EB]. subst B.
    assert (NEXT : (post c = [] /\ max = top_addr) \/ (In (Sp max) (labs h (plug c (Nd n l Lf))) /\ st < max /\ forall i, In i (post c) -> 2 * max <= lk (lb h i))).
    { destruct HM as [HM|[i [P' [E0 [E1|[m E1]]]]]]; [left; exact HM| |].
      - right. split; [apply in_labs; exists i; split; [rewrite ids_plug, E0, !in_app_iff; cbn [In]; tauto|exact E1]|]. specialize (S2 i). rewrite E1 in S2. cbn [lk] in S2. split; [assert (2 * st < 2 * max) by (apply S2; right; rewrite E0; left; reflexivity); lia|].
        intros j Hj. rewrite E0 in Hj. destruct Hj as [<-|Hj]; [rewrite E1; cbn [lk]; lia|]. rewrite labs_plug, E0, !map_app in HS. cbn [map] in HS. apply SS_app in HS. destruct HS as [_ [HS _]]. apply SS_app in HS. destruct HS as [_ [HS _]]. apply StronglySorted_inv in HS. destruct HS as [_ HS]. rewrite Forall_forall in HS. rewrite E1 in HS. cbn [lk] in HS.
        assert (2 * max < lk (lb h j)) by (apply HS; apply in_map, in_map; exact Hj). lia.
      - exfalso. assert (II : In i (ids (plug c (Nd n l Lf)))) by (rewrite ids_plug, E0, !in_app_iff; cbn [In]; tauto).
        assert (Hm : In m ms). { apply (li_mp _ _ _ HL). apply in_labs. exists i. auto. } destruct (li_end _ _ _ HL m Hm) as [M1 _]. apply in_labs in M1. destruct M1 as [j [Hj Ej]].
        assert (Gi : 2 * st < lk (lb h i)) by (apply S2; right; rewrite E0; left; reflexivity). rewrite E1 in Gi. cbn [lk] in Gi.
        assert (Gj : lk (lb h j) <= 2 * st).
        { rewrite ids_plug in Hj. cbn [ids] in Hj. rewrite !in_app_iff in Hj. cbn [In] in Hj. destruct Hj as [Hj|[[Hj|[<-|[]]]|Hj]]; [specialize (S1 j (or_introl Hj)); lia|specialize (S1 j (or_intror Hj)); lia|rewrite HN; cbn [lk]; lia|].
          exfalso. rewrite E0 in Hj. destruct Hj as [<-|Hj]; [congruence|]. rewrite labs_plug, E0, !map_app in HS. cbn [map] in HS. apply SS_app in HS. destruct HS as [_ [HS _]]. apply SS_app in HS. destruct HS as [_ [HS _]]. apply StronglySorted_inv in HS. destruct HS as [_ HS]. rewrite Forall_forall in HS.
          assert (lk (lb h i) < lk (lb h j)) by (apply HS; apply in_map, in_map; exact Hj). rewrite E1, Ej in H0. cbn [lk] in H0. lia. }
        rewrite Ej in Gj. cbn [lk] in Gj. destruct (proj1 HMS m Hm) as [M3 M4]. destruct (HAP m Hm) as [G|G]; fold st en in G; lia. }
    destruct (N.eqb_spec max en) as [EM|EM].
    + exists h, root, (plug c (Nd n l Lf)), n. split; [reflexivity|]. split; [exact HT|]. split; [exact HL|]. split; [|exact INL]. right. split; [exact HN|]. split; [exists x; auto|]. split; [exact IN|].
      destruct NEXT as [[_ Q]|[Q _]]; [right; congruence|left; congruence].
    + assert (LR : Loc h (2 * en) ((true, n, l) :: c)).
      { split; cbn [pre post app]; intros i Hi.
        - apply in_app_iff in Hi. destruct Hi as [Hi|Hi]; [specialize (S1 i (or_introl Hi)); lia|]. apply in_app_iff in Hi. destruct Hi as [Hi|[<-|[]]]; [specialize (S1 i (or_intror Hi)); lia|]. rewrite HN. cbn [lk]. lia.
        - destruct NEXT as [[Q _]|[Q1 [Q2 Q3]]]; [rewrite Q in Hi; destruct Hi|]. specialize (Q3 i Hi). pose proof (between _ _ HL Q1). cbn [lk] in H0. lia. }
      assert (NT : en <> top_addr). { destruct NEXT as [[_ Q]|[Q1 [Q2 Q3]]]; [congruence|]. pose proof (sp_top _ _ HL Q1). pose proof (between _ _ HL Q1). cbn [lk] in H1. lia. }
      destruct (hang_at true h root n l c (sep_node (Some n) en) (2 * en) HT eq_refl eq_refl eq_refl eq_refl LR) as [h1 [r1 [t1 [E1 [T1 [B1 [I1 [K1 [L1 [L2 [O1 O2]]]]]]]]]]].
      rewrite E1. exists h1, r1, t1, (length h). split; [reflexivity|]. split; [exact T1|]. split; [|split; [left; split; [rewrite I1; apply in_app_iff; right; left; reflexivity|exact B1]|]].
      * rewrite L2. apply (li_insert _ _ ms ex en); [|exact O1|exact O2|right; left; reflexivity|exact NT]. rewrite <- L1. exact HL.
      * change (mk true n l Lf) with (Nd n l Lf) in L1. rewrite L1 in INL. rewrite L2. apply in_app_iff in INL. apply in_app_iff. cbn [In]. tauto.
Qed.

Lemma find_sep_ok : forall t0 fuel h root c ptr par i, (length (ids t0) < fuel)%nat -> rep h None (plug c t0) root -> rep h par t0 ptr -> LI (labs h (plug c t0)) ms ex -> In i (ids t0) -> lb h i = Sp st -> find_sep fuel h ptr st = Done i.
Proof.
  induction t0 as [|n l IHl r IHr]; intros fuel h root c ptr par i HF HT HR HL HI HN; [destruct HI|].
  destruct fuel as [|fuel]; [lia|]. cbn [find_sep]. cbn [ids] in HF, HI. rewrite app_length in HF. cbn [length] in HF. cbn [rep] in HR. destruct HR as [-> [x [X1 [X2 [XL XR]]]]].
  cbn [deref_ obind]. unfold node_at at 1. rewrite X1. cbn [obind]. assert (LB := lb_node _ _ _ X1). destruct (sort_node _ _ _ _ _ (li_sort _ _ _ HL)) as [S1 S2]. destruct HP as [P1 P2]. fold st en in P1, P2.
  assert (LFT : lk (Sp st) < lk (lb h n) -> In i (ids l)).
  { intros Q. apply in_app_iff in HI. destruct HI as [HI|[->|HI]]; [exact HI| |]; [rewrite HN in Q; lia|]. specialize (S2 i (or_introl HI)). rewrite HN in S2. lia. }
  assert (RGT : lk (lb h n) < lk (Sp st) -> In i (ids r)).
  { intros Q. apply in_app_iff in HI. destruct HI as [HI|[->|HI]]; [|rewrite HN in Q; lia|exact HI]. specialize (S1 i (or_intror HI)). rewrite HN in S1. lia. }
  destruct (n_dest x) as [m|] eqn:ED.
  - assert (Hm : In m ms). { apply (li_mp _ _ _ HL). apply in_labs. exists n. split; [apply ids_plug_in; right; cbn [ids]; apply in_app_iff; right; left; reflexivity|exact LB]. }
    destruct (proj1 HMS m Hm) as [M3 M4]. rewrite LB in LFT, RGT. cbn [lk] in LFT, RGT. destruct (N.ltb_spec st (m_start m)) as [Q|Q].
    + eapply (IHl fuel h root ((false, n, r) :: c)); [lia|exact HT|exact XL|exact HL|apply LFT; lia|exact HN].
    + destruct (N.leb_spec (m_end m) st) as [Q2|Q2].
      * eapply (IHr fuel h root ((true, n, l) :: c)); [lia|exact HT|exact XR|exact HL|apply RGT; lia|exact HN].
      * exfalso. destruct (HAP m Hm) as [G|G]; fold st en in G; lia.
  - rewrite LB in LFT, RGT. cbn [lk] in LFT, RGT. destruct (N.eqb_spec st (n_sep x)) as [Q|Q].
    + f_equal. apply in_app_iff in HI. destruct HI as [HI|[HI|HI]]; [|exact HI|]; exfalso; [specialize (S1 i (or_intror HI))|specialize (S2 i (or_introl HI))]; rewrite HN, LB in *; cbn [lk] in *; lia.
    + destruct (N.ltb_spec (n_sep x) st) as [Q2|Q2].
      * eapply (IHr fuel h root ((true, n, l) :: c)); [lia|exact HT|exact XR|exact HL|apply RGT; lia|exact HN].
      * eapply (IHl fuel h root ((false, n, r) :: c)); [lia|exact HT|exact XL|exact HL|apply LFT; lia|exact HN].
Qed.
Lemma place_map_ok : forall h root t n, tree h root t -> LI (labs h t) ms ex -> placed h t n -> In (Sp st) (labs h t) ->
  exists h3 r3 t3 n3, place_map h root n nm = Done (h3, r3, n3) /\ tree h3 r3 t3 /\ LI (labs h3 t3) (ms ++ [nm]) [].
Proof.
  intros h root t n HT HL HPL HST. destruct HP as [P1 P2]. fold st en in P1, P2. unfold place_map. fold st en.
  assert (IN : In n (ids t)) by (destruct HPL as [[Q _]|[_ [_ [Q _]]]]; exact Q). destruct (find_ctx t n IN) as [c [l [r ->]]].
  assert (HS := li_sort _ _ _ HL). destruct (sort_node _ _ _ _ _ HS) as [S1 S2].
  destruct (rep_root_nd _ _ _ _ n (proj1 HT) ltac:(eauto)) as [x [X1 X2]]. destruct (X2 _ _ eq_refl) as [XL XR]. clear X2. unfold node_at at 1. rewrite X1. cbn [obind]. assert (LB := lb_node _ _ _ X1).
  assert (BT : forall i, In i (ids (plug c (Nd n l r))) -> lk (lb h i) <= 2 * st \/ 2 * en <= lk (lb h i)) by (intros i Hi; apply (between _ _ HL); apply in_labs; eauto).
  assert (INL : In (lb h n) (labs h (plug c (Nd n l r)))) by (apply in_labs; eauto).
  assert (FIN : forall d k a c', plug c (Nd n l r) = plug c' (mk d k a Lf) -> Loc h (2 * st + 1) ((d, k, a) :: c') -> (In (Sp en) (labs h (plug c (Nd n l r))) \/ en = top_addr) ->
            exists h3 r3 t3 n3, hang d h root k (map_node (Some k) nm) = Done (h3, r3, n3) /\ tree h3 r3 t3 /\ LI (labs h3 t3) (ms ++ [nm]) []).
  { intros d k a c' EP LC HE. rewrite EP in HT, HL, HE, HST.
    destruct (hang_at d h root k a c' (map_node (Some k) nm) (2 * st + 1) HT eq_refl eq_refl eq_refl eq_refl LC) as [h1 [r1 [t1 [E1 [T1 [B1 [I1 [K1 [L1 [L2 [O1 O2]]]]]]]]]]].
    exists h1, r1, t1, (length h). split; [exact E1|]. split; [exact T1|]. rewrite L2. rewrite L1 in HL, HE, HST. apply (li_finish _ _ ms nm HL O1 O2 HST HE). }
  destruct HPL as [[_ HN]|[HN [[x0 [X0 ER]] [_ HE]]]].
  - assert (LBn := LB). rewrite HN in LBn, S1, S2, INL. destruct (n_dest x) as [m|]; [discriminate|]. injection LBn as ES. rewrite <- ES. cbn [lk] in S1, S2.
    destruct (N.eqb_spec en top_addr) as [Q|Q]; [exfalso; apply (li_top _ _ _ HL); rewrite <- Q; exact INL|]. rewrite N.leb_refl.
    destruct (n_l x) as [k|] eqn:EL.
    + assert (IS := HST). apply in_labs in IS. destruct IS as [s [Is Es]].
      assert (EF : find_sep (S (length h)) h root st = Done s).
      { eapply (find_sep_ok (plug c (Nd n l r)) (S (length h)) h root [] root None s); [|exact (proj1 HT)|exact (proj1 HT)|exact HL|exact Is|exact Es]. pose proof (rep_len _ _ _ _ (proj1 HT) (proj1 (proj2 HT))). lia. }
      rewrite EF. cbn [obind]. assert (Isl : In s (ids l)).
      { assert (NS : s <> n). { intros ->. rewrite HN in Es. injection Es as Es. lia. }
        destruct (rep_some _ _ _ _ XL) as [ll [lr ->]].
        assert (Pk : lk (lb h k) <= 2 * st).
        { destruct (BT k) as [B|B]; [apply ids_plug_in; right; cbn [ids]; rewrite !in_app_iff; cbn [In]; tauto|exact B|]. assert (lk (lb h k) < 2 * en) by (apply S1; right; cbn [ids]; rewrite in_app_iff; cbn [In]; tauto). lia. }
        rewrite ids_plug in Is. cbn [ids] in Is |- *. rewrite !in_app_iff in Is. cbn [In] in Is. rewrite !in_app_iff. cbn [In].
        change (plug c (Nd n (Nd k ll lr) r)) with (plug ((false, n, r) :: c) (Nd k ll lr)) in HS. destruct (sort_node _ _ _ _ _ HS) as [S3 S4]. destruct Is as [Is|[[Is|[Is|Is]]|Is]].
        - exfalso. assert (lk (lb h s) < lk (lb h k)) by (apply S3; left; cbn [pre]; rewrite app_nil_r; exact Is). rewrite Es in H. cbn [lk] in H. lia.
        - tauto.
        - congruence.
        - exfalso. specialize (S2 s (or_introl Is)). rewrite Es in S2. cbn [lk] in S2. lia.
        - exfalso. specialize (S2 s (or_intror Is)). rewrite Es in S2. cbn [lk] in S2. lia. }
      destruct (find_ctx l s Isl) as [c1 [sl [sr El]]].
      assert (EP : plug c (Nd n l r) = plug (c1 ++ (false, n, r) :: c) (Nd s sl sr)). { rewrite plug_app, <- El. reflexivity. }
      assert (HTs := proj1 HT). rewrite EP in HTs. destruct (rep_root_nd _ _ _ _ s HTs ltac:(eauto)) as [y [Y1 Y2]]. destruct (Y2 _ _ eq_refl) as [YL YR]. clear Y2.
      unfold node_at. rewrite Y1. cbn [obind]. assert (HS' := HS). rewrite EP in HS'. destruct (sort_node _ _ _ _ _ HS') as [S3 S4]. rewrite Es in S3, S4. cbn [lk] in S3, S4.
      assert (SR : sr = Lf).
      { destruct sr as [|q sq sq']; [reflexivity|exfalso]. assert (Iq : In q (ids l)). { rewrite El. apply ids_plug_in. right. cbn [ids]. rewrite !in_app_iff. cbn [In]. rewrite in_app_iff. cbn [In]. tauto. }
        assert (2 * st < lk (lb h q)) by (apply S4; left; cbn [ids]; rewrite in_app_iff; cbn [In]; tauto). specialize (S1 q (or_intror Iq)).
        destruct (BT q) as [B|B]; [apply ids_plug_in; right; cbn [ids]; rewrite in_app_iff; tauto|lia|lia]. }
      subst sr. cbn [rep] in YR. rewrite YR. apply (FIN true s sl (c1 ++ (false, n, r) :: c)); [exact EP| |left; exact INL]. split; cbn [pre post app]; intros i Hi.
      * apply in_app_iff in Hi. rewrite in_app_iff in Hi. cbn [In] in Hi. destruct Hi as [Hi|[Hi|[<-|[]]]]; [specialize (S3 i (or_introl Hi)); lia|specialize (S3 i (or_intror Hi)); lia|rewrite Es; cbn [lk]; lia].
      * specialize (S4 i (or_intror Hi)). destruct (BT i) as [B|B]; [rewrite EP; apply ids_plug_in; left; clear - Hi|lia|lia].
        revert Hi. generalize (c1 ++ (false, n, r) :: c). clear. induction l as [|[[d j] t] cc IH]; cbn [post cids]; [tauto|]. intros Hi. apply in_app_iff in Hi. cbn [In]. rewrite in_app_iff. destruct d; cbn [In] in Hi; [tauto|]. cbn [In] in Hi. tauto.
    + assert (l = Lf) by (eapply rep_none; exact XL). subst l. apply (FIN false n r c eq_refl); [|left; exact INL]. split; cbn [pre post app]; intros i Hi.
      * rewrite app_nil_r in Hi. specialize (S1 i (or_introl Hi)). destruct (BT i) as [B|B]; [rewrite ids_plug, in_app_iff; tauto|lia|lia].
      * destruct Hi as [<-|Hi]; [rewrite HN; cbn [lk]; lia|]. apply in_app_iff in Hi. specialize (S2 i Hi). lia.
  - assert (x0 = x) by congruence. subst x0. rewrite HN in LB, S1, S2, INL. destruct (n_dest x) as [m|]; [discriminate|]. injection LB as ES. rewrite <- ES. cbn [lk] in S1, S2.
    destruct (N.eqb_spec st top_addr); [lia|]. destruct (N.leb_spec en st); [lia|]. rewrite N.leb_refl, ER. rewrite ER in XR. assert (r = Lf) by (eapply rep_none; exact XR). subst r.
    apply (FIN true n l c eq_refl); [|exact HE]. split; cbn [pre post app]; intros i Hi.
    + rewrite !in_app_iff in Hi. cbn [In] in Hi. destruct Hi as [Hi|[Hi|[<-|[]]]]; [specialize (S1 i (or_introl Hi)); lia|specialize (S1 i (or_intror Hi)); lia|rewrite HN; cbn [lk]; lia].
    + specialize (S2 i (or_intror Hi)). destruct (BT i) as [B|B]; [rewrite ids_plug, !in_app_iff; tauto|lia|lia].
Qed.
End Adding.
