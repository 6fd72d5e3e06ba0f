(** The walks over the checkpoint tree end, and cleaning up takes away dead checkpoints that nothing living depends on. *)
From Coq Require Import List NArith Arith Bool Lia Sorting.Sorted.
From Verif Require Import LayoutModel ArchDataModel StorageModel CkptModel CkptTree.
Import ListNotations.
Open Scope N_scope.

(** [fw l x y]: restoring [y] needs [x]. *)
Inductive fw (l : nodes) : N -> N -> Prop :=
  | fw1 : forall x n d dn, get x l = Some n -> In d (n_nexts n) -> get d l = Some dn -> n_snap dn = false -> fw l x d
  | fw2 : forall x n d dn y, get x l = Some n -> In d (n_nexts n) -> get d l = Some dn -> n_snap dn = false -> fw l d y -> fw l x y.
Lemma fw_snoc : forall l x z, fw l x z -> forall zn d dn, get z l = Some zn -> In d (n_nexts zn) -> get d l = Some dn -> n_snap dn = false -> fw l x d.
Proof.
  intros l x z H. induction H as [x n y yn H1 H2 H3 H4|x n y yn z H1 H2 H3 H4 H5 IH]; intros zn d dn G I D S0.
  - eapply fw2; [exact H1|exact H2|exact H3|exact H4|]. eapply fw1; eauto.
  - eapply fw2; [exact H1|exact H2|exact H3|exact H4|]. eapply IH; eauto.
Qed.

Definition dead_at (l : nodes) (y : N) : Prop := exists n, get y l = Some n /\ n_dead n = true.
Definition live_at (l : nodes) (y : N) : Prop := exists n, get y l = Some n /\ n_dead n = false.
(** Nothing but dead checkpoints needs [x]. *)
Definition unneeded (l : nodes) (x : N) : Prop := dead_at l x /\ forall y, fw l x y -> dead_at l y.

Lemma all_deletable_ok : forall l cd ds, (forall d, In d ds -> (exists dn, get d l = Some dn) /\ exists b, cd d = Done b /\ (b = true -> unneeded l d)) ->
  exists b, all_deletable cd l ds = Done b /\
    (b = true -> forall d dn, In d ds -> get d l = Some dn -> n_snap dn = true \/ unneeded l d).
Proof.
  induction ds as [|d ds IH]; intros H; cbn [all_deletable].
  - exists true. split; [reflexivity|]. intros _ d dn [].
  - destruct (H d (or_introl eq_refl)) as [[dn G] [b [E1 E2]]]. rewrite E1. cbn [obind]. unfold deref. rewrite G. cbn [obind].
    destruct (negb b && negb (n_snap dn)) eqn:EB; [exists false; split; [reflexivity|discriminate]|].
    destruct (IH (fun e He => H e (or_intror He))) as [b2 [F1 F2]]. exists b2. split; [exact F1|]. intros Q e en [->|He] Ge; [|eauto].
    assert (en = dn) by congruence. subst en. destruct b; [right; auto|]. destruct (n_snap dn); [left; reflexivity|discriminate].
Qed.
Lemma can_delete_ok : forall l h c nx, TI l h c nx -> forall fuel x n, get x l = Some n -> (above x l < fuel)%nat ->
  exists b, can_delete fuel l x = Done b /\ (b = true -> unneeded l x).
Proof.
  intros l h c nx T. induction fuel as [|f IH]; intros x n G A; [lia|]. cbn [can_delete]. unfold deref. rewrite G. cbn [obind].
  destruct (n_dead n) eqn:ED; [|exists false; split; [reflexivity|discriminate]].
  destruct (all_deletable_ok l (can_delete f l) (n_nexts n)) as [b [E1 E2]].
  { intros d Hd. destruct (ti_child _ _ _ _ x n d T G Hd) as [dn [D1 [D2 [D3 D4]]]]. split; [eauto|].
    apply (IH d dn D1). pose proof (above_lt x d l D3 (get_key _ _ _ D1)). lia. }
  exists b. split; [exact E1|]. intros Q. specialize (E2 Q). split; [exists n; auto|].
  intros y HF. inversion HF as [x0 n0 d dn H1 H2 H3 H4|x0 n0 d dn y0 H1 H2 H3 H4 H5]; subst; assert (n0 = n) by congruence; subst n0;
    (destruct (E2 _ dn H2 H3) as [C|[C1 C2]]; [congruence|]); auto.
Qed.
Lemma any_alive_ok : forall l rf cur ds, (forall d, In d ds -> (exists dn, get d l = Some dn) /\ exists b, rf d = Done b) ->
  exists b, any_alive rf cur l ds = Done b.
Proof.
  induction ds as [|d ds IH]; intros H; cbn [any_alive]; [eauto|]. destruct (H d (or_introl eq_refl)) as [[dn G] [b E]].
  unfold deref. rewrite G. cbn [obind]. destruct (n_snap dn); [eauto|]. destruct (is cur d); [eauto|]. destruct (negb (n_dead dn)); [eauto|].
  rewrite E. cbn [obind]. destruct b; [eauto|]. apply IH. intros e He. apply H. right. exact He.
Qed.
Lemma find_alive_ok : forall l h c nx cur, TI l h c nx -> forall fuel x n, get x l = Some n -> (above x l < fuel)%nat ->
  exists b, find_alive fuel cur l x = Done b.
Proof.
  intros l h c nx cur T. induction fuel as [|f IH]; intros x n G A; [lia|]. cbn [find_alive]. unfold deref. rewrite G. cbn [obind].
  apply any_alive_ok. intros d Hd. destruct (ti_child _ _ _ _ x n d T G Hd) as [dn [D1 [D2 [D3 D4]]]]. split; [eauto|].
  apply (IH d dn D1). pose proof (above_lt x d l D3 (get_key _ _ _ D1)). lia.
Qed.

(** Cleaning up: a series of erasures. *)
Inductive shr (h c nx : N) : nodes -> nodes -> Prop :=
  | shr0 : forall l, TI l h c nx -> shr h c nx l l
  | shr1 : forall l l' l'' x n p, TI l h c nx -> get x l = Some n -> x <> h -> x <> c -> n_prev n = Some p -> unneeded l x ->
      flags l' = filter (fun q => negb (fst q =? x)) (flags l) ->
      (forall y, get y l' = if y =? x then None else option_map (erased x p (n_nexts n) y) (get y l)) ->
      shr h c nx l' l'' -> shr h c nx l l''.
Lemma shr_TI : forall h c nx l l', shr h c nx l l' -> TI l h c nx.
Proof. intros h c nx l l' H. destruct H; assumption. Qed.
Lemma shr_TI' : forall h c nx l l', shr h c nx l l' -> TI l' h c nx.
Proof. intros h c nx l l' H. induction H; assumption. Qed.

(** The checkpoints with an identifier, and the others. *)
Definition fdead (q : N * (bool * bool * N)) : bool := fst (fst (snd q)).
Definition fsnap (q : N * (bool * bool * N)) : bool := snd (fst (snd q)).
Definition ftick (q : N * (bool * bool * N)) : N := snd (snd q).
Definition alives (l : nodes) := filter (fun q => negb (fdead q)) (flags l).
Definition deads (l : nodes) := filter fdead (flags l).

Lemma get_flag : forall x l n, get x l = Some n -> In (flag (x, n)) (flags l).
Proof. intros. apply in_map. apply get_in. assumption. Qed.
Lemma flag_get : forall q l, NoDup (keysn l) -> In q (flags l) -> exists n, get (fst q) l = Some n /\ q = flag (fst q, n).
Proof.
  intros q l ND H. apply in_map_iff in H. destruct H as [[i n] [<- H]]. exists n. cbn [fst flag]. split; [|reflexivity]. apply in_get; assumption.
Qed.
Lemma filter_filter : forall (A : Type) (f g : A -> bool) l, filter f (filter g l) = filter (fun a => g a && f a) l.
Proof. induction l as [|a l IH]; cbn [filter]; [reflexivity|]. destruct (g a); cbn [filter andb]; [destruct (f a)|]; congruence. Qed.
Lemma filter_ext_in' : forall (A : Type) (f g : A -> bool) l, (forall a, In a l -> f a = g a) -> filter f l = filter g l.
Proof.
  induction l as [|a l IH]; intros H; cbn [filter]; [reflexivity|]. rewrite (H a (or_introl eq_refl)), IH; [reflexivity|]. intros b Hb. apply H. right. exact Hb.
Qed.
Lemma erase_alives : forall l l' x n, NoDup (keysn l) -> get x l = Some n -> n_dead n = true ->
  flags l' = filter (fun q => negb (fst q =? x)) (flags l) -> alives l' = alives l.
Proof.
  intros l l' x n ND G D F. unfold alives. rewrite F, filter_filter. apply filter_ext_in'. intros q Hq.
  destruct (flag_get q l ND Hq) as [m [G1 E]]. destruct (N.eqb_spec (fst q) x) as [Q|]; [|reflexivity]. cbn [negb andb].
  rewrite Q in G1. assert (m = n) by congruence. subst m. rewrite E. unfold fdead, flag. cbn [fst snd]. rewrite D. reflexivity.
Qed.
Lemma remove_len : forall (A : Type) (g : N * A -> bool) (l : list (N * A)) q, NoDup (map fst l) -> In q l -> g q = true ->
  length (filter g l) = S (length (filter g (filter (fun r => negb (fst r =? fst q)) l))).
Proof.
  induction l as [|[i a] l IH]; intros q ND H G; [destruct H|]. cbn [map fst] in ND. inversion ND as [|? ? N1 N2]; subst. cbn [filter fst].
  destruct H as [<-|H].
  - cbn [fst]. rewrite N.eqb_refl. cbn [negb]. rewrite G. cbn [length]. f_equal. f_equal. f_equal. clear - N1.
    induction l as [|[j b] l IH]; cbn [filter fst]; [reflexivity|]. destruct (N.eqb_spec j i) as [->|]; [exfalso; apply N1; left; reflexivity|].
    cbn [negb]. f_equal. apply IH. intros H. apply N1. right. exact H.
  - destruct (N.eqb_spec i (fst q)) as [->|]; [exfalso; apply N1; apply in_map; exact H|]. cbn [negb filter]. destruct (g (i, a)); cbn [length]; rewrite (IH q N2 H G); reflexivity.
Qed.
Lemma erase_deads : forall l l' x n, NoDup (keysn l) -> get x l = Some n -> n_dead n = true ->
  flags l' = filter (fun q => negb (fst q =? x)) (flags l) -> length (deads l) = S (length (deads l')).
Proof.
  intros l l' x n ND G D F. unfold deads. rewrite F. apply (remove_len _ fdead (flags l) (flag (x, n))).
  - rewrite <- keys_flags. exact ND.
  - apply get_flag. exact G.
  - exact D.
Qed.
Lemma dec_ok : forall n, dec (N.of_nat (S n) mod 4294967296) = N.of_nat n mod 4294967296.
Proof.
  intros. unfold dec. rewrite N.add_mod_idemp_l by discriminate. replace (N.of_nat (S n) + 4294967295) with (N.of_nat n + 1 * 4294967296) by lia.
  apply N.mod_add. discriminate.
Qed.
Lemma inc_ok : forall n, inc (N.of_nat n mod 4294967296) = N.of_nat (S n) mod 4294967296.
Proof. intros. unfold inc. rewrite N.add_mod_idemp_l by discriminate. f_equal. lia. Qed.
Lemma shr_alives : forall h c nx l l', shr h c nx l l' -> alives l' = alives l.
Proof.
  intros h c nx l l' H. induction H as [|l l' l'' x n p T G X1 X2 P [[m [U1 U2]] _] F E H IH]; [reflexivity|]. rewrite IH.
  apply (erase_alives l l' x n); [apply sorted_nodup; exact (ti_sorted _ _ _ _ T)|exact G|congruence|exact F].
Qed.
(** Checkpoints that stay keep everything but their links. *)
Lemma shr_get : forall h c nx l l', shr h c nx l l' -> forall y m', get y l' = Some m' -> exists m, get y l = Some m /\
  n_tick m' = n_tick m /\ n_dead m' = n_dead m /\ n_snap m' = n_snap m /\ n_data m' = n_data m.
Proof.
  intros h c nx l l' H. induction H as [|l l' l'' x n p T G X1 X2 P U F E H IH]; intros y m' Gy; [eauto 8|].
  destruct (IH y m' Gy) as [m1 [G1 [A1 [A2 [A3 A4]]]]]. rewrite E in G1. destruct (y =? x); [discriminate|].
  destruct (get y l) as [m|] eqn:G0; [|discriminate]. cbn [option_map] in G1. injection G1 as <-. cbn [erased n_tick n_dead n_snap n_data] in *. eauto 8.
Qed.
Lemma shr_live : forall h c nx l l', shr h c nx l l' -> forall y, live_at l y -> live_at l' y.
Proof.
  intros h c nx l l' H. induction H as [|l l' l'' x n p T G X1 X2 P [[m [U1 U2]] _] F E H IH]; intros y [yn [Y1 Y2]]; [exists yn; auto|].
  apply IH. unfold live_at. rewrite E. destruct (N.eqb_spec y x) as [->|]; [congruence|]. rewrite Y1. cbn [option_map]. eexists. split; [reflexivity|exact Y2].
Qed.

Definition cd_ok (k : ckpt) : Prop := k_deadn k = N.of_nat (length (deads (k_nodes k))) mod 4294967296.
Lemma below_filter : forall p l l' x, flags l' = filter (fun q => negb (fst q =? x)) (flags l) -> (below p l' <= below p l)%nat.
Proof.
  intros p l l' x F. unfold below. rewrite (keys_flags l'), F, (map_fst_filter _ (fun i => negb (i =? x))), <- keys_flags.
  rewrite filter_filter. induction (keysn l) as [|i r IH]; cbn [filter]; [lia|]. destruct (negb (i =? x)); cbn [andb];
    destruct (i <? p); cbn [length]; lia.
Qed.
Lemma cleanup_loop_ok : forall fuel k h c nx d, k_head k = Some h -> k_cur k = Some c -> TI (k_nodes k) h c nx -> cd_ok k ->
  (match d with None => (0 < fuel)%nat | Some x => (exists n, get x (k_nodes k) = Some n) /\ (below x (k_nodes k) + 1 < fuel)%nat end) ->
  exists l' dn, cleanup_loop fuel k d = Done (with_nodes k l' dn) /\ shr h c nx (k_nodes k) l' /\ cd_ok (with_nodes k l' dn).
Proof.
  induction fuel as [|f IH]; intros k h c nx d HH HC T CD HD; [destruct d; lia|].
  assert (SAME : with_nodes k (k_nodes k) (k_deadn k) = k) by (destruct k; reflexivity).
  assert (STOP : exists l' dn, Done k = Done (with_nodes k l' dn) /\ shr h c nx (k_nodes k) l' /\ cd_ok (with_nodes k l' dn)).
  { exists (k_nodes k), (k_deadn k). rewrite SAME. split; [reflexivity|]. split; [apply shr0; exact T|exact CD]. }
  cbn [cleanup_loop]. destruct d as [x|]; [|exact STOP]. destruct HD as [[n G] HF]. destruct (is (k_head k) x) eqn:EH; [exact STOP|].
  assert (XH : x <> h) by (intros ->; rewrite HH in EH; cbn [is] in EH; rewrite N.eqb_refl in EH; discriminate).
  unfold deref. rewrite G. cbn [obind]. destruct (n_dead n) eqn:ED; cbn [negb]; [|exact STOP]. destruct (is (k_cur k) x) eqn:EC; [exact STOP|].
  assert (XC : x <> c) by (intros ->; rewrite HC in EC; cbn [is] in EC; rewrite N.eqb_refl in EC; discriminate).
  destruct (can_delete_ok _ _ _ _ T (depth k) x n G (above_le _ _)) as [b [B1 B2]]. rewrite B1. cbn [obind].
  destruct (ti_prev _ _ _ _ T x n G XH) as [p [pn [P1 [P2 [P3 [P4 P5]]]]]]. pose proof (below_lt p x _ P3 (get_key _ _ _ P2)) as BL.
  destruct b.
  - destruct (erase_ok _ _ _ _ x n T G XH XC) as [l1 [q [Q1 [Q2 [Q3 [Q4 Q5]]]]]]. rewrite Q2. cbn [obind]. assert (q = p) by congruence. subst q.
    rewrite P1. destruct (IH (with_nodes k l1 (dec (k_deadn k))) h c nx (Some p)) as [l' [dn [R1 [R2 R3]]]]; try assumption.
    + unfold cd_ok in *. cbn [with_nodes k_deadn k_nodes]. rewrite CD, (erase_deads _ l1 x n (sorted_nodup _ (ti_sorted _ _ _ _ T)) G ED Q4). apply dec_ok.
    + cbn [with_nodes k_nodes]. split.
      * rewrite Q5. destruct (N.eqb_spec p x); [lia|]. rewrite P2. cbn [option_map]. eauto.
      * pose proof (below_filter p _ _ x Q4). lia.
    + exists l', dn. split; [rewrite R1; reflexivity|]. split; [|exact R3]. exact (shr1 h c nx _ l1 l' x n p T G XH XC P1 (B2 eq_refl) Q4 Q5 R2).
  - cbn [obind]. rewrite P1. apply (IH k h c nx (Some p)); auto. split; [eauto|]. lia.
Qed.
Lemma cleanup_ok : forall k h c nx x n, k_head k = Some h -> k_cur k = Some c -> TI (k_nodes k) h c nx -> cd_ok k -> get x (k_nodes k) = Some n ->
  exists l' dn, cleanup k x = Done (with_nodes k l' dn) /\ shr h c nx (k_nodes k) l' /\ cd_ok (with_nodes k l' dn) /\
    (x = c -> n_snap n = false -> l' = k_nodes k).
Proof.
  intros k h c nx x n HH HC T CD G. unfold cleanup.
  assert (STOP : exists l' dn, Done k = Done (with_nodes k l' dn) /\ shr h c nx (k_nodes k) l' /\ cd_ok (with_nodes k l' dn) /\
    (x = c -> n_snap n = false -> l' = k_nodes k)).
  { exists (k_nodes k), (k_deadn k). replace (with_nodes k (k_nodes k) (k_deadn k)) with k by (destruct k; reflexivity).
    split; [reflexivity|]. split; [apply shr0; exact T|]. split; [exact CD|reflexivity]. }
  destruct (is (k_head k) x) eqn:EH; [exact STOP|].
  assert (XH : x <> h) by (intros ->; rewrite HH in EH; cbn [is] in EH; rewrite N.eqb_refl in EH; discriminate).
  assert (ND : exists b, (if is (k_cur k) x then Done true else find_alive (depth k) (k_cur k) (k_nodes k) x) = Done b /\ (x = c -> b = true)).
  { destruct (is (k_cur k) x) eqn:EC; [exists true; auto|]. destruct (find_alive_ok _ _ _ _ (k_cur k) T (depth k) x n G (above_le _ _)) as [b Hb].
    exists b. split; [exact Hb|]. intros ->. rewrite HC in EC. cbn [is] in EC. rewrite N.eqb_refl in EC. discriminate. }
  destruct ND as [b [N1 N2]]. rewrite N1. cbn [obind]. unfold deref. rewrite G. cbn [obind].
  destruct (ti_prev _ _ _ _ T x n G XH) as [p [pn [P1 [P2 [P3 [P4 P5]]]]]].
  pose proof (below_le p (k_nodes k)) as B1. pose proof (below_le x (k_nodes k)) as B2. pose proof (below_lt p x _ P3 (get_key _ _ _ P2)) as BL.
  destruct b.
  - destruct (n_snap n) eqn:ES; [|exact STOP]. rewrite P1.
    destruct (cleanup_loop_ok (S (depth k)) k h c nx (Some p) HH HC T CD) as [l' [dn [R1 [R2 R3]]]]; [split; [eauto|unfold depth; lia]|].
    exists l', dn. split; [exact R1|]. split; [exact R2|]. split; [exact R3|]. discriminate.
  - destruct (cleanup_loop_ok (S (depth k)) k h c nx (Some x) HH HC T CD) as [l' [dn [R1 [R2 R3]]]]; [split; [eauto|unfold depth; lia]|].
    exists l', dn. split; [exact R1|]. split; [exact R2|]. split; [exact R3|]. intros Q. specialize (N2 Q). discriminate.
Qed.
