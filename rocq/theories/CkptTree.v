(** The shape of the checkpoint tree, kept by every operation. *)
From Coq Require Import List NArith Arith Bool Lia Sorting.Sorted.
From Verif Require Import LayoutModel ArchDataModel StorageModel CkptModel.
Import ListNotations.
Open Scope N_scope.

Notation nodes := (list (N * node)).
Definition keysn (l : nodes) : list N := map fst l.
(** What erasing other checkpoints does not touch. *)
Definition flag (p : N * node) : N * (bool * bool * N) := (fst p, (n_dead (snd p), n_snap (snd p), n_tick (snd p))).
Definition flags (l : nodes) := map flag l.

Lemma get_in : forall x l n, get x l = Some n -> In (x, n) l.
Proof.
  induction l as [|[i m] l IH]; cbn [get]; intros n H; [discriminate|]. destruct (N.eqb_spec i x) as [->|].
  - injection H as ->. left. reflexivity.
  - right. auto.
Qed.
Lemma get_key : forall x l n, get x l = Some n -> In x (keysn l).
Proof. intros x l n H. apply get_in in H. apply (in_map fst) in H. exact H. Qed.
Lemma key_get : forall x l, In x (keysn l) -> exists n, get x l = Some n.
Proof.
  induction l as [|[i m] l IH]; cbn [get keysn map fst]; [intros []|]. destruct (N.eqb_spec i x) as [->|]; [eauto|].
  intros [E|H]; [congruence|auto].
Qed.
Lemma in_get : forall x n l, NoDup (keysn l) -> In (x, n) l -> get x l = Some n.
Proof.
  induction l as [|[i m] l IH]; cbn [get keysn map fst]; intros ND H; [destruct H|]. inversion ND as [|? ? N1 N2]; subst. destruct H as [E|H].
  - injection E as -> ->. rewrite N.eqb_refl. reflexivity.
  - destruct (N.eqb_spec i x) as [->|]; [|auto]. exfalso. apply N1. apply (in_map fst) in H. exact H.
Qed.
Lemma get_none : forall x l, get x l = None <-> ~ In x (keysn l).
Proof.
  intros x l. split.
  - intros H I. apply key_get in I. destruct I as [n I]. congruence.
  - intros H. destruct (get x l) eqn:E; [|reflexivity]. exfalso. apply H. eapply get_key. exact E.
Qed.
Lemma get_app : forall x l m, get x (l ++ m) = match get x l with Some n => Some n | None => get x m end.
Proof. induction l as [|[i n] l IH]; intros m; cbn [get app]; [reflexivity|]. destruct (i =? x); auto. Qed.
Lemma get_upd : forall x f y l, get y (upd x f l) = if y =? x then option_map f (get x l) else get y l.
Proof.
  induction l as [|[i n] l IH]; cbn [get upd]; [destruct (y =? x); reflexivity|].
  destruct (N.eqb_spec i x) as [->|N1]; cbn [get].
  - destruct (N.eqb_spec x y) as [->|N2]; [rewrite N.eqb_refl; reflexivity|]. destruct (N.eqb_spec y x); [congruence|reflexivity].
  - destruct (N.eqb_spec i y) as [->|N2]; [destruct (N.eqb_spec y x); [congruence|reflexivity]|]. exact IH.
Qed.
Lemma keys_upd : forall x f l, keysn (upd x f l) = keysn l.
Proof. induction l as [|[i n] l IH]; cbn [upd]; [reflexivity|]. destruct (i =? x); cbn [keysn map fst]; [reflexivity|]. f_equal. exact IH. Qed.
Lemma flags_upd : forall x f l, (forall n, flag (x, f n) = flag (x, n)) -> flags (upd x f l) = flags l.
Proof.
  intros x f l H. induction l as [|[i n] l IH]; cbn [upd]; [reflexivity|]. destruct (N.eqb_spec i x) as [->|]; cbn [flags map]; f_equal; auto.
Qed.
Lemma get_del : forall x y l, NoDup (keysn l) -> get y (del x l) = if y =? x then None else get y l.
Proof.
  induction l as [|[i n] l IH]; intros ND; cbn [get del]; [destruct (y =? x); reflexivity|].
  cbn [keysn map fst] in ND. inversion ND as [|? ? N1 N2]; subst.
  destruct (N.eqb_spec i x) as [->|N3].
  - destruct (N.eqb_spec y x) as [->|N4]; [apply get_none; exact N1|]. destruct (N.eqb_spec x y); [congruence|reflexivity].
  - cbn [get]. destruct (N.eqb_spec i y) as [->|N4]; [destruct (N.eqb_spec y x); [congruence|reflexivity]|]. auto.
Qed.
Lemma flags_del : forall x l, NoDup (keysn l) -> flags (del x l) = filter (fun q => negb (fst q =? x)) (flags l).
Proof.
  induction l as [|[i n] l IH]; intros ND; cbn [del]; [reflexivity|]. cbn [keysn map fst] in ND. inversion ND as [|? ? N1 N2]; subst.
  destruct (N.eqb_spec i x) as [->|N3]; cbn [flags map filter flag fst].
  - rewrite N.eqb_refl. cbn [negb]. clear - N1. unfold flags. induction l as [|[j m] l IH]; cbn [map filter flag fst]; [reflexivity|].
    destruct (N.eqb_spec j x) as [->|N2]; [exfalso; apply N1; left; reflexivity|]. cbn [negb]. f_equal. apply IH. intros H. apply N1. right. exact H.
  - destruct (N.eqb_spec i x); [congruence|]. cbn [negb]. f_equal. auto.
Qed.
Lemma keys_flags : forall l, keysn l = map fst (flags l).
Proof. intros. unfold flags, keysn. rewrite map_map. reflexivity. Qed.
Lemma map_fst_filter : forall (A : Type) (g : N -> bool) (l : list (N * A)), map fst (filter (fun q => g (fst q)) l) = filter g (map fst l).
Proof. induction l as [|[i a] l IH]; cbn [filter map fst]; [reflexivity|]. destruct (g i); cbn [map fst]; congruence. Qed.

(** Sorted keys. *)
Definition sorted (l : nodes) : Prop := StronglySorted N.lt (keysn l).
Lemma SS_filter : forall (g : N -> bool) l, StronglySorted N.lt l -> StronglySorted N.lt (filter g l).
Proof.
  intros g l H. induction H as [|a l H IH F]; cbn [filter]; [constructor|]. destruct (g a); [|exact IH]. constructor; [exact IH|].
  rewrite Forall_forall in *. intros y Hy. apply filter_In in Hy. apply F. tauto.
Qed.
Lemma SS_nodup : forall l, StronglySorted N.lt l -> NoDup l.
Proof.
  intros l H. induction H as [|a l H IH F]; constructor; [|exact IH]. intros I. rewrite Forall_forall in F. specialize (F a I). lia.
Qed.
Lemma SS_snoc : forall l x, StronglySorted N.lt l -> (forall y, In y l -> y < x) -> StronglySorted N.lt (l ++ [x]).
Proof.
  intros l x H. induction H as [|a l H IH F]; intros B; cbn [app]; [repeat constructor|]. constructor.
  - apply IH. intros y Hy. apply B. right. exact Hy.
  - rewrite Forall_forall in *. intros y Hy. apply in_app_or in Hy. destruct Hy as [Hy|[<-|[]]]; [auto|]. apply B. left. reflexivity.
Qed.
Lemma sorted_nodup : forall l, sorted l -> NoDup (keysn l).
Proof. intros. apply SS_nodup. assumption. Qed.

(** How many keys lie above and below one: the depth of walks. *)
Definition above (x : N) (l : nodes) : nat := length (filter (fun i => x <? i) (keysn l)).
Definition below (x : N) (l : nodes) : nat := length (filter (fun i => i <? x) (keysn l)).
Lemma filter_len_lt : forall (f g : N -> bool) (l : list N) d, (forall i, f i = true -> g i = true) -> In d l -> f d = false -> g d = true ->
  (length (filter f l) < length (filter g l))%nat.
Proof.
  intros f g l d HI. assert (LE : forall m, (length (filter f m) <= length (filter g m))%nat).
  { induction m as [|i m IH]; cbn [filter]; [lia|]. specialize (HI i). destruct (f i), (g i); cbn [length]; try lia; discriminate (HI eq_refl). }
  induction l as [|i l IH]; intros HD F G; [destruct HD|]. cbn [filter]. destruct HD as [->|HD].
  - rewrite F, G. cbn [length]. specialize (LE l). lia.
  - specialize (IH HD F G). specialize (HI i). destruct (f i), (g i); cbn [length]; try lia; discriminate (HI eq_refl).
Qed.
Lemma above_lt : forall x d l, x < d -> In d (keysn l) -> (above d l < above x l)%nat.
Proof.
  intros x d l H I. apply (filter_len_lt _ _ _ d); [|exact I|apply N.ltb_irrefl|apply N.ltb_lt; exact H].
  intros i Hi. apply N.ltb_lt in Hi. apply N.ltb_lt. lia.
Qed.
Lemma below_lt : forall p x l, p < x -> In p (keysn l) -> (below p l < below x l)%nat.
Proof.
  intros x d l H I. apply (filter_len_lt _ _ _ x); [|exact I|apply N.ltb_irrefl|apply N.ltb_lt; exact H].
  intros i Hi. apply N.ltb_lt in Hi. apply N.ltb_lt. lia.
Qed.
Lemma filter_len_le : forall (A : Type) (f : A -> bool) l, (length (filter f l) <= length l)%nat.
Proof. induction l as [|a l IH]; cbn [filter length]; [lia|]. destruct (f a); cbn [length]; lia. Qed.
Lemma above_le : forall x l, (above x l < S (length l))%nat.
Proof. intros. unfold above. pose proof (filter_len_le _ (fun i => x <? i) (keysn l)) as H. unfold keysn in *. rewrite map_length in H. lia. Qed.
Lemma below_le : forall x l, (below x l < S (length l))%nat.
Proof. intros. unfold below. pose proof (filter_len_le _ (fun i => i <? x) (keysn l)) as H. unfold keysn in *. rewrite map_length in H. lia. Qed.

(** The tree: all checkpoints hang off the head [h], identifiers and ticks grow away from it. *)
Record TI (l : nodes) (h c nx : N) : Prop := mkTI {
  ti_sorted : sorted l;
  ti_next : forall x, In x (keysn l) -> x < nx;
  ti_head : exists n, get h l = Some n /\ n_prev n = None /\ n_snap n = true;
  ti_cur : exists n, get c l = Some n;
  ti_prev : forall x n, get x l = Some n -> x <> h -> exists p pn, n_prev n = Some p /\ get p l = Some pn /\ p < x /\
    n_tick pn <= n_tick n /\ In x (n_nexts pn);
  ti_nexts : forall x n d, get x l = Some n -> In d (n_nexts n) -> exists dn, get d l = Some dn /\ n_prev dn = Some x;
  ti_nodup : forall x n, get x l = Some n -> NoDup (n_nexts n) }.

Lemma ti_child : forall l h c nx x n d, TI l h c nx -> get x l = Some n -> In d (n_nexts n) ->
  exists dn, get d l = Some dn /\ n_prev dn = Some x /\ x < d /\ n_tick n <= n_tick dn.
Proof.
  intros l h c nx x n d T G I. destruct (ti_nexts _ _ _ _ T x n d G I) as [dn [D1 D2]]. exists dn.
  destruct (N.eq_dec d h) as [->|N1].
  - destruct (ti_head _ _ _ _ T) as [hn [H1 [H2 _]]]. congruence.
  - destruct (ti_prev _ _ _ _ T d dn D1 N1) as [p [pn [P1 [P2 [P3 [P4 P5]]]]]]. assert (p = x) by congruence. subst p.
    assert (pn = n) by congruence. subst pn. auto.
Qed.

Lemma mem_in : forall x l, mem x l = true <-> In x l.
Proof.
  induction l as [|y l IH]; cbn [mem]; [split; [discriminate|intros []]|]. rewrite orb_true_iff, N.eqb_eq, IH. cbn. tauto.
Qed.
Lemma mem_out : forall x l, mem x l = false <-> ~ In x l.
Proof. intros. rewrite <- mem_in. destruct (mem x l); split; congruence. Qed.
Lemma remove1_in : forall x l y, NoDup l -> (In y (remove1 x l) <-> In y l /\ y <> x).
Proof.
  induction l as [|z l IH]; intros y ND; cbn [remove1]; [split; [intros []|intros [[] _]]|]. inversion ND as [|? ? N1 N2]; subst.
  destruct (N.eqb_spec z x) as [->|N3].
  - split; [intros H; split; [right; exact H|intros ->; contradiction]|]. intros [[->|H] Q]; [congruence|exact H].
  - cbn [In]. rewrite (IH y N2). split; [intros [->|[H Q]]; split; auto|]. intros [[->|H] Q]; auto.
Qed.
Lemma remove1_nodup : forall x l, NoDup l -> NoDup (remove1 x l).
Proof.
  induction l as [|z l IH]; intros ND; cbn [remove1]; [constructor|]. inversion ND as [|? ? N1 N2]; subst.
  destruct (z =? x); [exact N2|]. constructor; [|auto]. intros H. apply remove1_in in H; [|exact N2]. tauto.
Qed.
Lemma is_spec : forall o x, is o x = true <-> o = Some x.
Proof. intros [y|] x; cbn [is]; [rewrite N.eqb_eq; split; congruence|split; discriminate]. Qed.

(** What relink and erase do, checkpoint by checkpoint. *)
Definition moved (p : N) (ds : list N) (y : N) (m : node) : node :=
  mkNode (n_tick m) (n_dead m) (if mem y ds then Some p else n_prev m)
    (if y =? p then n_nexts m ++ ds else n_nexts m) (n_snap m) (n_data m).
Lemma relink_ok : forall ds p l pn, get p l = Some pn -> NoDup ds -> ~ In p ds -> (forall d, In d ds -> ~ In d (n_nexts pn)) ->
  (forall d, In d ds -> exists dn, get d l = Some dn /\ n_tick pn <= n_tick dn) ->
  exists l', relink (Some p) ds l = Done l' /\ keysn l' = keysn l /\ flags l' = flags l /\
    forall y, get y l' = option_map (moved p ds y) (get y l).
Proof.
  induction ds as [|d ds IH]; intros p l pn GP ND NP NN HD; cbn [relink].
  - exists l. repeat split; auto. intros y. destruct (get y l) as [m|]; cbn [option_map]; [|reflexivity]. unfold moved. cbn [mem].
    rewrite app_nil_r. destruct m, (y =? p); reflexivity.
  - inversion ND as [|? ? N1 N2]; subst. destruct (HD d (or_introl eq_refl)) as [dn [D1 D2]].
    assert (DP : d <> p) by (intros ->; apply NP; left; reflexivity).
    unfold deref at 1. rewrite D1. cbn [obind]. unfold add_next, deref. rewrite !get_upd, N.eqb_refl, D1.
    destruct (N.eqb_spec p d) as [E|_]; [congruence|]. rewrite GP. cbn [obind option_map set_prev n_prev n_tick is]. rewrite N.eqb_refl. cbn [negb].
    destruct (N.ltb_spec (n_tick dn) (n_tick pn)) as [C|_]; [lia|].
    assert (M : mem d (n_nexts pn) = false) by (apply mem_out; apply NN; left; reflexivity). rewrite M. cbn [obind].
    set (l2 := upd p _ _).
    assert (G2 : forall y, get y l2 = if y =? p then Some (set_nexts (n_nexts pn ++ [d]) pn) else if y =? d then Some (set_prev (Some p) dn) else get y l).
    { intros y. unfold l2. rewrite !get_upd. destruct (N.eqb_spec y p) as [->|].
      - destruct (N.eqb_spec p d); [congruence|]. rewrite GP. reflexivity.
      - destruct (N.eqb_spec y d) as [->|]; [|reflexivity]. rewrite D1. reflexivity. }
    destruct (IH p l2 (set_nexts (n_nexts pn ++ [d]) pn)) as [l' [E1 [E2 [E3 E4]]]].
    + rewrite G2, N.eqb_refl. reflexivity.
    + exact N2.
    + intros H. apply NP. right. exact H.
    + intros e He H. cbn [set_nexts n_nexts] in H. apply in_app_or in H. destruct H as [H|[<-|[]]]; [|contradiction].
      apply (NN e); [right; exact He|exact H].
    + intros e He. destruct (HD e (or_intror He)) as [en [F1 F2]]. rewrite G2. destruct (N.eqb_spec e p) as [->|]; [exfalso; apply NP; right; exact He|].
      destruct (N.eqb_spec e d) as [->|]; [contradiction|]. cbn [set_nexts n_tick]. eauto.
    + exists l'. split; [exact E1|]. split; [rewrite E2; unfold l2; rewrite !keys_upd; reflexivity|].
      split; [rewrite E3; unfold l2; rewrite !flags_upd by (intros; reflexivity); reflexivity|].
      intros y. rewrite E4, G2. unfold moved. cbn [mem]. destruct (N.eqb_spec y p) as [->|NY].
      * rewrite GP. cbn [option_map set_nexts n_tick n_dead n_prev n_nexts n_snap n_data]. destruct (N.eqb_spec d p); [congruence|].
        cbn [orb]. rewrite <- app_assoc. reflexivity.
      * destruct (N.eqb_spec y d) as [->|ND2].
        -- rewrite D1. cbn [option_map set_prev n_tick n_dead n_prev n_nexts n_snap n_data]. rewrite N.eqb_refl. cbn [orb].
           destruct (mem d ds); reflexivity.
        -- destruct (N.eqb_spec d y); [congruence|]. cbn [orb]. reflexivity.
Qed.

Definition erased (x p : N) (ds : list N) (y : N) (m : node) : node :=
  mkNode (n_tick m) (n_dead m) (if mem y ds then Some p else n_prev m)
    (if y =? p then remove1 x (n_nexts m) ++ ds else n_nexts m) (n_snap m) (n_data m).
Lemma erase_ok : forall l h c nx x n, TI l h c nx -> get x l = Some n -> x <> h -> x <> c ->
  exists l' p, n_prev n = Some p /\ erase x l = Done l' /\ TI l' h c nx /\
    flags l' = filter (fun q => negb (fst q =? x)) (flags l) /\
    forall y, get y l' = if y =? x then None else option_map (erased x p (n_nexts n) y) (get y l).
Proof.
  intros l h c nx x n T G XH XC. destruct (ti_prev _ _ _ _ T x n G XH) as [p [pn [P1 [P2 [P3 [P4 P5]]]]]].
  pose proof (sorted_nodup _ (ti_sorted _ _ _ _ T)) as ND.
  assert (CH : forall d, In d (n_nexts n) -> exists dn, get d l = Some dn /\ n_prev dn = Some x /\ x < d /\ n_tick n <= n_tick dn)
    by (intros d Hd; exact (ti_child _ _ _ _ x n d T G Hd)).
  unfold erase, deref. rewrite G. cbn [obind]. rewrite P1. unfold remove_next, deref. rewrite P2, G. cbn [obind]. rewrite P1. cbn [is].
  rewrite N.eqb_refl. cbn [negb]. rewrite (proj2 (mem_in x (n_nexts pn)) P5). cbn [negb].
  set (l1 := upd p _ l).
  assert (G1 : forall y, get y l1 = if y =? p then Some (set_nexts (remove1 x (n_nexts pn)) pn) else get y l).
  { intros y. unfold l1. rewrite get_upd, P2. reflexivity. }
  destruct (relink_ok (n_nexts n) p l1 (set_nexts (remove1 x (n_nexts pn)) pn)) as [l2 [E1 [E2 [E3 E4]]]].
  { rewrite G1, N.eqb_refl. reflexivity. }
  { exact (ti_nodup _ _ _ _ T x n G). }
  { intros H. destruct (CH p H) as [? [_ [_ [H1 _]]]]. lia. }
  { intros d Hd H. cbn [set_nexts n_nexts] in H. apply remove1_in in H; [|exact (ti_nodup _ _ _ _ T p pn P2)]. destruct H as [H _].
    destruct (CH d Hd) as [dn [D1 [D2 _]]]. destruct (ti_nexts _ _ _ _ T p pn d P2 H) as [dn' [D3 D4]]. assert (p = x) by congruence. lia. }
  { intros d Hd. destruct (CH d Hd) as [dn [D1 [D2 [D3 D4]]]]. rewrite G1. destruct (N.eqb_spec d p) as [->|]; [lia|].
    exists dn. split; [exact D1|]. cbn [set_nexts n_tick]. lia. }
  rewrite E1. exists (del x l2), p. split; [reflexivity|]. split; [reflexivity|].
  assert (K2 : keysn l2 = keysn l) by (rewrite E2; unfold l1; apply keys_upd).
  assert (GG : forall y, get y (del x l2) = if y =? x then None else option_map (erased x p (n_nexts n) y) (get y l)).
  { intros y. rewrite get_del by (rewrite K2; exact ND). destruct (y =? x); [reflexivity|]. rewrite E4, G1.
    destruct (N.eqb_spec y p) as [->|NY].
    - rewrite P2. cbn [option_map]. unfold moved, erased. cbn [set_nexts n_tick n_dead n_prev n_nexts n_snap n_data]. rewrite N.eqb_refl. reflexivity.
    - destruct (get y l) as [m|]; cbn [option_map]; [|reflexivity]. unfold moved, erased. destruct (N.eqb_spec y p); [congruence|reflexivity]. }
  assert (FF : flags (del x l2) = filter (fun q => negb (fst q =? x)) (flags l)).
  { rewrite flags_del by (rewrite K2; exact ND). rewrite E3. unfold l1. rewrite flags_upd by (intros; reflexivity). reflexivity. }
  split; [|split; [exact FF|exact GG]].
  assert (KK : keysn (del x l2) = filter (fun i => negb (i =? x)) (keysn l)).
  { rewrite keys_flags, FF, (map_fst_filter _ (fun i => negb (i =? x))), <- keys_flags. reflexivity. }
  assert (DX : ~ In x (n_nexts n)) by (intros H; destruct (CH x H) as [? [_ [_ [H1 _]]]]; lia).
  constructor.
  - unfold sorted. rewrite KK. apply SS_filter. exact (ti_sorted _ _ _ _ T).
  - intros y Hy. rewrite KK in Hy. apply filter_In in Hy. apply (ti_next _ _ _ _ T). tauto.
  - destruct (ti_head _ _ _ _ T) as [hn [H1 [H2 H3]]]. rewrite GG. destruct (N.eqb_spec h x); [congruence|]. rewrite H1. cbn [option_map].
    eexists. split; [reflexivity|]. unfold erased. cbn [n_prev n_snap]. split; [|exact H3].
    destruct (mem h (n_nexts n)) eqn:EM; [|exact H2]. apply mem_in in EM. destruct (CH h EM) as [dn [D1 [D2 _]]]. congruence.
  - destruct (ti_cur _ _ _ _ T) as [cn Hc]. rewrite GG. destruct (N.eqb_spec c x); [congruence|]. rewrite Hc. cbn [option_map]. eauto.
  - intros y m Hm Hh. rewrite GG in Hm. destruct (N.eqb_spec y x) as [->|NX]; [discriminate|]. destruct (get y l) as [m0|] eqn:Gy; [|discriminate].
    cbn [option_map] in Hm. injection Hm as <-. destruct (ti_prev _ _ _ _ T y m0 Gy Hh) as [q [qn [Q1 [Q2 [Q3 [Q4 Q5]]]]]].
    unfold erased at 1. cbn [n_prev]. destruct (mem y (n_nexts n)) eqn:EM.
    + apply mem_in in EM. destruct (CH y EM) as [yn [D1 [D2 [D3 D4]]]]. assert (yn = m0) by congruence. subst yn.
      exists p, (erased x p (n_nexts n) p pn). split; [reflexivity|]. rewrite GG. destruct (N.eqb_spec p x); [lia|]. rewrite P2. split; [reflexivity|].
      split; [lia|]. cbn [erased n_tick n_nexts]. split; [lia|]. rewrite N.eqb_refl. apply in_or_app. right. exact EM.
    + apply mem_out in EM. assert (QX : q <> x).
      { intros ->. apply EM. assert (qn = n) by congruence. subst qn. exact Q5. }
      exists q, (erased x p (n_nexts n) q qn). split; [exact Q1|]. rewrite GG. destruct (N.eqb_spec q x); [congruence|]. rewrite Q2. split; [reflexivity|].
      split; [exact Q3|]. split; [exact Q4|]. cbn [erased n_nexts]. destruct (N.eqb_spec q p) as [->|]; [|exact Q5].
      apply in_or_app. left. apply remove1_in; [exact (ti_nodup _ _ _ _ T p qn Q2)|]. split; assumption.
  - intros y m d Hm Hd. rewrite GG in Hm. destruct (N.eqb_spec y x) as [->|NX]; [discriminate|]. destruct (get y l) as [m0|] eqn:Gy; [|discriminate].
    cbn [option_map] in Hm. injection Hm as <-. cbn [erased n_nexts] in Hd.
    assert (CASE : (In d (n_nexts m0) /\ d <> x) \/ (y = p /\ In d (n_nexts n))).
    { destruct (N.eqb_spec y p) as [->|NP].
      - apply in_app_or in Hd. destruct Hd as [Hd|Hd]; [|right; auto]. apply remove1_in in Hd; [left; exact Hd|exact (ti_nodup _ _ _ _ T p m0 Gy)].
      - left. split; [exact Hd|]. intros ->. destruct (ti_nexts _ _ _ _ T y m0 x Gy Hd) as [z [Z1 Z2]]. assert (Some y = Some p) by congruence. congruence. }
    destruct CASE as [[C1 C2]|[-> C1]].
    + destruct (ti_nexts _ _ _ _ T y m0 d Gy C1) as [dn [D1 D2]]. rewrite GG. destruct (N.eqb_spec d x); [congruence|]. rewrite D1. cbn [option_map].
      eexists. split; [reflexivity|]. cbn [erased n_prev]. destruct (mem d (n_nexts n)) eqn:EM; [|exact D2]. apply mem_in in EM.
      destruct (CH d EM) as [dn' [D3 [D4 _]]]. assert (Some x = Some y) by congruence. congruence.
    + destruct (CH d C1) as [dn [D1 [D2 [D3 _]]]]. rewrite GG. destruct (N.eqb_spec d x); [lia|]. rewrite D1. cbn [option_map].
      eexists. split; [reflexivity|]. cbn [erased n_prev]. rewrite (proj2 (mem_in d (n_nexts n)) C1). reflexivity.
  - intros y m Hm. rewrite GG in Hm. destruct (N.eqb_spec y x) as [->|NX]; [discriminate|]. destruct (get y l) as [m0|] eqn:Gy; [|discriminate].
    cbn [option_map] in Hm. injection Hm as <-. cbn [erased n_nexts]. pose proof (ti_nodup _ _ _ _ T y m0 Gy) as N0.
    destruct (N.eqb_spec y p) as [->|]; [|exact N0]. assert (m0 = pn) by congruence. subst m0.
    pose proof (remove1_nodup x _ N0) as N1. pose proof (ti_nodup _ _ _ _ T x n G) as N2.
    assert (DJ : forall d, In d (remove1 x (n_nexts pn)) -> ~ In d (n_nexts n)).
    { intros d Hd H. apply remove1_in in Hd; [|exact N0]. destruct (CH d H) as [dn [D1 [D2 _]]].
      destruct (ti_nexts _ _ _ _ T p pn d P2 (proj1 Hd)) as [dn' [D3 D4]]. assert (p = x) by congruence. lia. }
    clear - N1 N2 DJ. induction (remove1 x (n_nexts pn)) as [|z r IH]; cbn [app]; [exact N2|]. inversion N1 as [|? ? M1 M2]; subst.
    constructor; [|apply IH; [exact M2|intros d Hd; apply DJ; right; exact Hd]]. intros H. apply in_app_or in H. destruct H as [H|H]; [contradiction|].
    apply (DJ z); [left; reflexivity|exact H].
Qed.
