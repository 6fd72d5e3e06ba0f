(** C32: TieredMap is a finite map. *)
From Coq Require Import List NArith ZArith Arith Bool Lia.
From Verif Require Import MathUtilsModel MathUtilsProofs TieredMapModel.
Import ListNotations.
Open Scope N_scope.

Section K.
Variable k : N.
Let mask := 2 ^ k - 1.

(** Shifts of [m] tiers. *)
Fixpoint desc (m : nat) : list N := match m with O => [] | S m' => N.of_nat m' * k :: desc m' end.
Fixpoint wf (m : nat) (t : tn) : Prop :=
  match m with
  | O => exists p, t = Lf p
  | S m' => exists l, t = Nd l /\ Forall (fun o => match o with None => True | Some c => wf m' c end) l
  end.
Definition idx (m : nat) (key : N) : nat := N.to_nat ((key / 2 ^ (N.of_nat m * k)) mod 2 ^ k).

Lemma idx_eq : forall m key, N.to_nat (N.land (N.shiftr key (N.of_nat m * k)) mask) = idx m key.
Proof.
  intros. unfold idx, mask. f_equal. rewrite N.shiftr_div_pow2.
  replace (2 ^ k - 1) with (N.ones k) by (rewrite N.ones_equiv; lia). apply N.land_ones.
Qed.
Lemma pnz : forall x, 2 ^ x <> 0.
Proof. intros. apply N.pow_nonzero. discriminate. Qed.
Lemma low_split : forall m a b, a mod 2 ^ (N.of_nat (S m) * k) = b mod 2 ^ (N.of_nat (S m) * k) <->
  idx m a = idx m b /\ a mod 2 ^ (N.of_nat m * k) = b mod 2 ^ (N.of_nat m * k).
Proof.
  intros m a b. rewrite Nat2N.inj_succ, N.mul_succ_l, N.pow_add_r.
  rewrite !N.mod_mul_r by apply pnz. unfold idx.
  set (P := 2 ^ (N.of_nat m * k)). set (ia := (a / P) mod 2 ^ k). set (ib := (b / P) mod 2 ^ k).
  pose proof (N.mod_lt a P (pnz _)) as LA. pose proof (N.mod_lt b P (pnz _)) as LB. split.
  - intros E. assert (M : a mod P = b mod P).
    { rewrite <- (N.mod_small (a mod P) P), <- (N.mod_small (b mod P) P) by auto.
      rewrite <- (N.mod_add (a mod P) ia P), <- (N.mod_add (b mod P) ib P) by apply pnz.
      rewrite (N.mul_comm ia), (N.mul_comm ib), E. auto. }
    split; [|auto]. rewrite M in E. apply N.add_cancel_l in E. apply N.mul_cancel_l in E; [congruence|apply pnz].
  - intros [E1 E2]. rewrite E2. apply N2Nat.inj in E1. now rewrite E1.
Qed.

Lemma get_wf : forall m t key, wf m t -> exists o, tget mask (desc m) t key = Some o.
Proof.
  induction m; intros t key W.
  - destruct W as [p ->]. eexists. reflexivity.
  - destruct W as [l [-> F]]. cbn [desc tget]. rewrite idx_eq. destruct (nth_error l (idx m key)) as [[c|]|] eqn:E; eauto.
    apply IHm. apply nth_error_In in E. apply (proj1 (Forall_forall _ _) F) in E. auto.
Qed.
Lemma get_low : forall m t a b, a mod 2 ^ (N.of_nat m * k) = b mod 2 ^ (N.of_nat m * k) -> tget mask (desc m) t a = tget mask (desc m) t b.
Proof.
  induction m; intros t a b E; [reflexivity|]. apply low_split in E. destruct E as [E1 E2]. cbn [desc tget]. rewrite !idx_eq, E1.
  destruct t; [|auto]. destruct (nth_error l (idx m b)) as [[c|]|]; auto.
Qed.
Lemma get_empty : forall m key, tget mask (desc (S m)) (Nd []) key = Some None.
Proof. intros. cbn [desc tget]. destruct (N.to_nat _); reflexivity. Qed.

Lemma tput_nth : forall l i c j, (i < length l)%nat -> nth_error (tput l i c) j = if (j =? i)%nat then Some (Some c) else nth_error l j.
Proof.
  induction l as [|x l IH]; intros i c j H; cbn [length] in H; [lia|]. destruct i as [|i]; destruct j as [|j]; cbn [tput nth_error Nat.eqb]; auto.
  apply IH. lia.
Qed.
Lemma resize_nth : forall l i j, nth_error (resize l i) j =
  match nth_error l j with Some x => Some x | None => if (j <? Nat.max (length l) (S i))%nat then Some None else None end.
Proof.
  intros l i j. unfold resize. destruct (nth_error l j) eqn:E.
  - rewrite nth_error_app1; auto. apply nth_error_Some. congruence.
  - apply nth_error_None in E. rewrite nth_error_app2 by auto. destruct (Nat.ltb_spec j (Nat.max (length l) (S i))).
    + assert (L : (j - length l < S i - length l)%nat) by lia. revert L. generalize (j - length l)%nat, (S i - length l)%nat. clear.
      intros a b. revert a. induction b; intros a L; [lia|]. destruct a; cbn; auto. apply IHb. lia.
    + apply nth_error_None. rewrite repeat_length. lia.
Qed.
Lemma resize_len : forall l i, (i < length (resize l i))%nat.
Proof. intros. unfold resize. rewrite app_length, repeat_length. lia. Qed.
Lemma resize_in : forall l i o, In o (resize l i) -> In o l \/ o = None.
Proof. intros l i o H. unfold resize in H. apply in_app_or in H. destruct H; auto. right. apply repeat_spec in H. auto. Qed.
Lemma tput_in : forall l i c o, In o (tput l i c) -> In o l \/ o = Some c.
Proof.
  induction l as [|x l IH]; intros i c o H; cbn [tput] in H; [destruct H|]. destruct i; destruct H as [<-|H]; auto.
  - left. right. auto.
  - left. left. auto.
  - apply IH in H. destruct H; auto. left. right. auto.
Qed.

Lemma set_wf : forall m t key p, wf (S m) t -> tget mask (desc (S m)) t key = Some None ->
  exists t', tset mask (desc (S m)) t key p = Some (t', None) /\ wf (S m) t' /\
  forall key', tget mask (desc (S m)) t' key' =
    if key' mod 2 ^ (N.of_nat (S m) * k) =? key mod 2 ^ (N.of_nat (S m) * k) then Some (Some p) else tget mask (desc (S m)) t key'.
Proof.
  induction m; intros t key p W G.
  - destruct W as [l [-> F]]. change (desc 1) with [N.of_nat 0 * k] in *. cbn [tset]. cbn [tget] in G. rewrite idx_eq in *.
    set (i := idx 0 key) in *.
    assert (NI : nth i (resize l i) None = None).
    { destruct (nth_error l i) as [[c|]|] eqn:E.
      - exfalso. apply nth_error_In in E. apply (proj1 (Forall_forall _ _) F) in E. destruct E as [q ->]. discriminate.
      - apply nth_error_nth. rewrite resize_nth, E. auto.
      - apply nth_error_nth. rewrite resize_nth, E. destruct (Nat.ltb_spec i (Nat.max (length l) (S i))); [auto|lia]. }
    rewrite NI. eexists. split; [reflexivity|]. split.
    + eexists. split; [reflexivity|]. apply Forall_forall. intros o H. apply tput_in in H. destruct H as [H| ->]; [|cbn; eauto].
      apply resize_in in H. destruct H as [H| ->]; [|auto]. apply (proj1 (Forall_forall _ _) F) in H. auto.
    + intros key'. cbn [tget]. rewrite idx_eq, tput_nth by apply resize_len.
      destruct (N.eqb_spec (key' mod 2 ^ (N.of_nat 1 * k)) (key mod 2 ^ (N.of_nat 1 * k))) as [E|E].
      * apply low_split in E. destruct E as [E _]. fold i in E. rewrite E, Nat.eqb_refl. reflexivity.
      * destruct (Nat.eqb_spec (idx 0 key') i) as [E2|E2].
        -- exfalso. apply E. apply low_split. split; [auto|]. change (N.of_nat 0 * k) with 0. rewrite N.pow_0_r, !N.mod_1_r. auto.
        -- rewrite resize_nth. destruct (nth_error l (idx 0 key')) as [[c|]|]; auto. destruct (_ <? _)%nat; auto.
  - destruct W as [l [-> F]]. set (D := desc (S m)) in *. change (desc (S (S m))) with (N.of_nat (S m) * k :: D) in *.
    cbn [tset]. cbn [tget] in G. rewrite idx_eq in *. set (i := idx (S m) key) in *.
    set (c0 := match nth i (resize l i) None with None => Nd [] | Some c => c end).
    assert (C0 : wf (S m) c0 /\ tget mask D c0 key = Some None /\
       forall key', idx (S m) key' = i -> tget mask D c0 key' = match nth_error l i with Some (Some c) => tget mask D c key' | _ => Some None end).
    { unfold c0. destruct (nth_error l i) as [[c|]|] eqn:E.
      - rewrite (nth_error_nth (resize l i) i None (x := Some c)) by (rewrite resize_nth, E; auto).
        split; [|auto]. apply nth_error_In in E. apply (proj1 (Forall_forall _ _) F) in E. auto.
      - rewrite (nth_error_nth (resize l i) i None (x := None)) by (rewrite resize_nth, E; auto).
        split; [exists []; auto|]. split; [apply get_empty|intros; apply get_empty].
      - rewrite (nth_error_nth (resize l i) i None (x := None)).
        2:{ rewrite resize_nth, E. destruct (Nat.ltb_spec i (Nat.max (length l) (S i))); [auto|lia]. }
        split; [exists []; auto|]. split; [apply get_empty|intros; apply get_empty]. }
    destruct C0 as [W0 [G0 G1]]. destruct (IHm c0 key p W0 G0) as [c' [S1 [S2 S3]]]. fold D in S1, S3.
    assert (DN : exists a b, D = a :: b) by (unfold D; cbn [desc]; eauto). destruct DN as [da [db DN]].
    assert (TS : (match D with [] => match nth i (resize l i) None with None => Some (Nd (tput (resize l i) i (Lf p)), None)
        | Some (Lf q) => Some (Nd (resize l i), Some q) | Some (Nd _) => None end
       | _ :: _ => match tset mask D c0 key p with Some (c, e) => Some (Nd (tput (resize l i) i c), e) | None => None end end)
       = Some (Nd (tput (resize l i) i c'), None)).
    { rewrite DN in *. rewrite S1. auto. }
    rewrite TS. eexists. split; [reflexivity|]. split.
    + eexists. split; [reflexivity|]. apply Forall_forall. intros o H. apply tput_in in H. destruct H as [H| ->]; [|auto].
      apply resize_in in H. destruct H as [H| ->]; [|auto]. apply (proj1 (Forall_forall _ _) F) in H. auto.
    + intros key'. cbn [tget]. rewrite idx_eq, tput_nth by apply resize_len.
      destruct (N.eqb_spec (key' mod 2 ^ (N.of_nat (S (S m)) * k)) (key mod 2 ^ (N.of_nat (S (S m)) * k))) as [E|E].
      * apply low_split in E. destruct E as [E1 E2]. fold i in E1. rewrite E1, Nat.eqb_refl, S3, E2, N.eqb_refl. reflexivity.
      * destruct (Nat.eqb_spec (idx (S m) key') i) as [E2|E2].
        -- rewrite S3. destruct (N.eqb_spec (key' mod 2 ^ (N.of_nat (S m) * k)) (key mod 2 ^ (N.of_nat (S m) * k))) as [E3|E3].
           ++ exfalso. apply E. apply low_split. split; auto.
           ++ rewrite E2. apply G1. auto.
        -- rewrite resize_nth. destruct (nth_error l (idx (S m) key')) as [[c|]|]; auto. destruct (_ <? _)%nat; auto.
Qed.
End K.

(** Specification: an association list in insertion order. *)
Fixpoint sget (l : list (N * N)) (k : N) : option (N * N) :=
  match l with [] => None | (a, v) :: r => if a =? k then Some (a, v) else sget r k end.
Fixpoint sput (l : list (N * N)) (k v : N) : list (N * N) :=
  match l with [] => [(k, v)] | (a, w) :: r => if a =? k then (a, v) :: r else (a, w) :: sput r k v end.
Definition sstep (l : list (N * N)) (o : tmop) : list (N * N) :=
  match o with
  | TStore k v => sput l k v
  | TTouch k => match sget l k with Some _ => l | None => l ++ [(k, 0)] end
  | TClear => []
  end.

(** The invariant: [m] tiers (numbered from 1). *)
Record TI (k : N) (s : tmap) : Prop := {
  ti_k : 1 <= k; ti_size : t_size s = 2 ^ k; ti_shift : t_shift s = k; ti_mask : t_mask s = 2 ^ k - 1;
  ti_tree : exists m, t_shifts s = desc k (S m) /\ wf (S m) (t_root s) /\ N.of_nat m * k < 64
    /\ (forall x, In x (t_pairs s) -> fst x < 2 ^ (N.of_nat (S m) * k))
    /\ (forall key, key < 2 ^ (N.of_nat (S m) * k) -> forall p,
         tget (2 ^ k - 1) (desc k (S m)) (t_root s) key = Some (Some p) <-> exists v, nth_error (t_pairs s) p = Some (key, v))
}.

Lemma ti_nodup : forall k s, TI k s -> NoDup (map fst (t_pairs s)).
Proof.
  intros k s [A B C D [m [E1 [E2 [E3 [E4 E5]]]]]]. apply (proj2 (NoDup_nth_error _)). intros i j Hi E.
  rewrite map_length in Hi. rewrite !nth_error_map in E. destruct (nth_error (t_pairs s) i) as [[a v]|] eqn:NI.
  2:{ apply nth_error_None in NI. lia. }
  cbn [option_map fst] in E. destruct (nth_error (t_pairs s) j) as [[b w]|] eqn:NJ; [|discriminate]. cbn in E. injection E as <-.
  assert (LA : a < 2 ^ (N.of_nat (S m) * k)) by (apply (E4 (a, v)); eapply nth_error_In; eauto).
  pose proof (proj2 (E5 a LA i) (ex_intro _ v NI)) as P1. pose proof (proj2 (E5 a LA j) (ex_intro _ w NJ)) as P2. congruence.
Qed.
Lemma sget_nth : forall l key, NoDup (map fst l) ->
  (forall p v, nth_error l p = Some (key, v) -> sget l key = Some (key, v)) /\
  ((forall p v, nth_error l p <> Some (key, v)) -> sget l key = None).
Proof.
  induction l as [|[a w] l IH]; intros key ND.
  - split; [intros [|p] v H; discriminate|auto].
  - cbn [map fst] in ND. inversion ND as [|? ? NI ND']; subst. destruct (IH key ND') as [A B]. cbn [sget]. split.
    + intros [|p] v H; cbn [nth_error] in H.
      * injection H as -> ->. now rewrite N.eqb_refl.
      * destruct (N.eqb_spec a key) as [->|NE]; [|eauto]. exfalso. apply NI.
        change key with (fst (key, v)). apply in_map. eapply nth_error_In; eauto.
    + intros H. destruct (N.eqb_spec a key) as [->|NE]; [exfalso; apply (H 0%nat w); reflexivity|].
      apply B. intros p v. apply (H (S p) v).
Qed.

Lemma root_shift : forall k m, hd 0 (desc k (S m)) = N.of_nat m * k.
Proof. reflexivity. Qed.
Lemma above_root : forall k m key, 1 <= k -> (2 ^ k <=? N.shiftr key (N.of_nat m * k)) = (2 ^ (N.of_nat (S m) * k) <=? key).
Proof.
  intros k m key K. rewrite N.shiftr_div_pow2, Nat2N.inj_succ, N.mul_succ_l, N.pow_add_r.
  assert (P : 2 ^ (N.of_nat m * k) <> 0) by apply pnz.
  destruct (N.leb_spec (2 ^ (N.of_nat m * k) * 2 ^ k) key) as [L|L]; [apply N.leb_le|apply N.leb_gt].
  - apply N.div_le_lower_bound; auto.
  - apply N.div_lt_upper_bound; auto.
Qed.

Lemma tryget_spec : forall k s key, TI k s -> key < 2 ^ 64 ->
  exists o, tm_tryget s key = Some o /\ match o with
   | Some p => exists v, nth_error (t_pairs s) p = Some (key, v)
   | None => forall p v, nth_error (t_pairs s) p <> Some (key, v)
   end.
Proof.
  intros k s key [A B C D [m [E1 [E2 [E3 [E4 E5]]]]]] KB. unfold tm_tryget. rewrite E1. change (desc k (S m)) with (N.of_nat m * k :: desc k m) at 1. cbv beta iota.
  destruct (N.leb_spec 64 (N.of_nat m * k)); [lia|]. rewrite B, above_root by auto. destruct (N.leb_spec (2 ^ (N.of_nat (S m) * k)) key).
  - exists None. split; [auto|]. intros p v H1. apply nth_error_In in H1. apply E4 in H1. cbn [fst] in H1. lia.
  - destruct (get_wf k (S m) (t_root s) key E2) as [o G]. rewrite D. exists o. split; [exact G|]. destruct o as [p|].
    + apply E5; auto.
    + intros p v H1. assert (X : exists v, nth_error (t_pairs s) p = Some (key, v)) by eauto. apply E5 in X; [|auto]. congruence.
Qed.

Lemma add_tier_TI : forall k s, TI k s -> (forall m, t_shifts s = desc k (S m) -> N.of_nat (S m) * k < 64) -> TI k (add_tier s).
Proof.
  intros k s [A B C D [m [E1 [E2 [E3 [E4 E5]]]]]] HB. constructor; cbn [add_tier t_size t_shift t_mask]; auto.
  exists (S m). cbn [add_tier t_shifts t_root t_pairs]. split.
  { rewrite E1, C, root_shift. change (desc k (S (S m))) with (N.of_nat (S m) * k :: desc k (S m)). f_equal. lia. }
  split; [exists [Some (t_root s)]; split; [auto|constructor; auto]|]. split; [apply HB; auto|].
  assert (PM : 2 ^ (N.of_nat (S m) * k) <= 2 ^ (N.of_nat (S (S m)) * k)) by (apply N.pow_le_mono_r; [discriminate|nia]).
  split; [intros x Hx; specialize (E4 x Hx); lia|].
  intros key KB p. change (desc k (S (S m))) with (N.of_nat (S m) * k :: desc k (S m)). cbn [tget]. rewrite idx_eq. unfold idx.
  assert (Q : key / 2 ^ (N.of_nat (S m) * k) < 2 ^ k).
  { apply N.div_lt_upper_bound; [apply pnz|]. rewrite <- N.pow_add_r. replace (N.of_nat (S m) * k + k) with (N.of_nat (S (S m)) * k) by lia. auto. }
  rewrite (N.mod_small _ _ Q). destruct (N.lt_ge_cases key (2 ^ (N.of_nat (S m) * k))) as [L|L].
  - rewrite N.div_small by auto. cbn [N.to_nat nth_error]. apply E5. auto.
  - assert (1 <= key / 2 ^ (N.of_nat (S m) * k)) by (apply N.div_le_lower_bound; [apply pnz|lia]).
    destruct (N.to_nat (key / 2 ^ (N.of_nat (S m) * k))) as [|n] eqn:EN; [lia|]. cbn [nth_error].
    replace (nth_error (@nil (option tn)) n) with (@None (option tn)) by (destruct n; auto). split; [discriminate|].
    intros [v H1]. apply nth_error_In in H1. apply E4 in H1. cbn [fst] in H1. lia.
Qed.

Lemma set_spec : forall k fuel s key v m, TI k s -> key < 2 ^ 64 -> t_shifts s = desc k (S m) -> (64 <= fuel + m)%nat ->
  (forall p w, nth_error (t_pairs s) p <> Some (key, w)) ->
  exists s', tm_set fuel s key v = Some (s', length (t_pairs s)) /\ t_pairs s' = t_pairs s ++ [(key, v)] /\ TI k s'.
Proof.
  intros k. induction fuel; intros s key v m H KB EM HF HN.
  - exfalso. destruct H as [A B C D [m' [E1 [E2 [E3 _]]]]]. rewrite E1 in EM.
    assert (m' = m). { apply (f_equal (@length N)) in EM. assert (DL : forall j, length (desc k j) = j) by (induction j; cbn [desc length]; auto). rewrite !DL in EM. lia. }
    subst. nia.
  - pose proof H as [A B C D [m' [E1 [E2 [E3 [E4 E5]]]]]].
    assert (EMM : m' = m). { rewrite E1 in EM. apply (f_equal (@length N)) in EM. assert (DL : forall j, length (desc k j) = j) by (induction j; cbn [desc length]; auto). rewrite !DL in EM. lia. }
    subst m'. cbn [tm_set]. rewrite EM. change (desc k (S m)) with (N.of_nat m * k :: desc k m) at 1. cbv beta iota.
    destruct (N.leb_spec 64 (N.of_nat m * k)); [lia|]. rewrite B, above_root by auto. destruct (N.leb_spec (2 ^ (N.of_nat (S m) * k)) key) as [L|L].
    + assert (SB : N.of_nat (S m) * k < 64).
      { destruct (N.lt_ge_cases (N.of_nat (S m) * k) 64) as [|G]; auto. exfalso.
        assert (2 ^ 64 <= 2 ^ (N.of_nat (S m) * k)) by (apply N.pow_le_mono_r; [discriminate|auto]). lia. }
      assert (T : TI k (add_tier s)).
      { apply add_tier_TI; auto. intros m0 EM0. rewrite EM in EM0. apply (f_equal (@length N)) in EM0.
        assert (DL : forall j, length (desc k j) = j) by (induction j; cbn [desc length]; auto). rewrite !DL in EM0.
        replace m0 with m by lia. auto. }
      destruct (IHfuel (add_tier s) key v (S m) T KB) as [s' [S1 [S2 S3]]].
      * cbn [add_tier t_shifts]. rewrite EM, root_shift, C. change (desc k (S (S m))) with (N.of_nat (S m) * k :: desc k (S m)). f_equal. lia.
      * lia.
      * intros p w. cbn [add_tier t_pairs]. auto.
      * exists s'. auto.
    + destruct (get_wf k (S m) (t_root s) key E2) as [o G]. destruct o as [p|].
      { exfalso. pose proof (proj1 (E5 key L p) G) as [w X]. apply (HN p w X). }
      destruct (set_wf k m (t_root s) key (length (t_pairs s)) E2 G) as [t' [S1 [S2 S3]]].
      rewrite D, S1. eexists. split; [reflexivity|]. cbn [t_pairs]. split; [auto|].
      constructor; cbn [t_size t_shift t_mask]; auto. exists m. cbn [t_shifts t_root t_pairs]. split; [auto|]. split; [auto|]. split; [auto|].
      split.
      * intros x Hx. apply in_app_or in Hx. destruct Hx as [Hx|[<-|[]]]; auto.
      * intros key' KB' p. rewrite S3. rewrite !N.mod_small by auto. destruct (N.eqb_spec key' key) as [->|NE].
        -- split.
           ++ intros E. injection E as <-. exists v. rewrite nth_error_app2, Nat.sub_diag by lia. reflexivity.
           ++ intros [w X]. f_equal. f_equal. destruct (Nat.lt_ge_cases p (length (t_pairs s))) as [LP|LP].
              ** rewrite nth_error_app1 in X by auto. exfalso. apply (HN p w X).
              ** rewrite nth_error_app2 in X by auto. destruct (p - length (t_pairs s))%nat as [|q] eqn:EQ; [lia|]. destruct q; discriminate.
        -- rewrite E5 by auto. split; intros [w X].
           ++ exists w. rewrite nth_error_app1; auto. apply nth_error_Some. congruence.
           ++ exists w. destruct (Nat.lt_ge_cases p (length (t_pairs s))) as [LP|LP]; [rewrite nth_error_app1 in X; auto|].
              exfalso. rewrite nth_error_app2 in X by auto. destruct (p - length (t_pairs s))%nat as [|q]; [|destruct q; discriminate].
              cbn in X. congruence.
Qed.

Lemma pput_nth : forall l p v q, nth_error (pput l p v) q = if (q =? p)%nat then option_map (fun x => (fst x, v)) (nth_error l q) else nth_error l q.
Proof.
  induction l as [|[a w] l IH]; intros p v q.
  - cbn [pput]. destruct q; destruct (_ =? p)%nat; reflexivity.
  - destruct p as [|p]; destruct q as [|q]; cbn [pput nth_error Nat.eqb option_map]; auto.
Qed.
Lemma pput_len : forall l p v, length (pput l p v) = length l.
Proof. induction l as [|[a w] l IH]; intros [|p] v; cbn; auto. Qed.
Lemma pput_TI : forall k s p v, TI k s -> TI k (mkTM (t_size s) (t_shift s) (t_mask s) (pput (t_pairs s) p v) (t_shifts s) (t_root s)).
Proof.
  intros k s p v [A B C D [m [E1 [E2 [E3 [E4 E5]]]]]]. constructor; auto. exists m. cbn [t_shifts t_root t_pairs].
  split; [auto|]. split; [auto|]. split; [auto|]. split.
  - intros x Hx. apply In_nth_error in Hx. destruct Hx as [q Hq]. rewrite pput_nth in Hq. destruct (q =? p)%nat.
    + destruct (nth_error (t_pairs s) q) as [y|] eqn:E; [|discriminate]. cbn in Hq. injection Hq as <-. cbn. apply E4. eapply nth_error_In; eauto.
    + apply E4. eapply nth_error_In; eauto.
  - intros key KB q. rewrite E5 by auto. rewrite pput_nth. destruct (q =? p)%nat; [|tauto].
    split; intros [w X].
    + rewrite X. cbn. eauto.
    + destruct (nth_error (t_pairs s) q) as [[a u]|]; [|discriminate]. cbn in X. injection X as -> ->. eauto.
Qed.
Lemma pput_sput : forall l p key w v, NoDup (map fst l) -> nth_error l p = Some (key, w) -> pput l p v = sput l key v.
Proof.
  induction l as [|[a u] l IH]; intros p key w v ND H; [destruct p; discriminate|].
  cbn [map fst] in ND. inversion ND as [|? ? NI ND']; subst. destruct p as [|p]; cbn [nth_error] in H; cbn [pput sput].
  - injection H as -> ->. now rewrite N.eqb_refl.
  - destruct (N.eqb_spec a key) as [->|NE].
    + exfalso. apply NI. change key with (fst (key, w)). apply in_map. eapply nth_error_In; eauto.
    + f_equal. eapply IH; eauto.
Qed.
Lemma sput_absent : forall l key v, sget l key = None -> sput l key v = l ++ [(key, v)].
Proof.
  induction l as [|[a u] l IH]; intros key v H; cbn [sget sput app] in *; [auto|]. destruct (a =? key); [discriminate|]. f_equal. auto.
Qed.
Lemma pput_last : forall l key w v, pput (l ++ [(key, w)]) (length l) v = l ++ [(key, v)].
Proof. induction l as [|[a u] l IH]; intros; cbn [app length pput]; auto. now rewrite IH. Qed.

(** Keys are 64-bit. *)
Definition op_ok (o : tmop) : Prop := match o with TStore k _ => k < 2 ^ 64 | TTouch k => k < 2 ^ 64 | TClear => True end.

Lemma empty_TI : forall k s, 1 <= k -> t_size s = 2 ^ k -> t_shift s = k -> t_mask s = 2 ^ k - 1 -> t_pairs s = [] ->
  t_shifts s = [0] -> t_root s = Nd [] -> TI k s.
Proof.
  intros k s K1 H1 H2 H3 H4 H5 H6. constructor; auto. exists 0%nat. rewrite H5, H6, H4.
  split; [reflexivity|]. split; [exists []; auto|]. split; [lia|]. split; [intros x []|].
  intros key _ p. rewrite get_empty. split; [discriminate|]. intros [v X]. destruct p; discriminate.
Qed.
Lemma index_spec : forall k s key, TI k s -> key < 2 ^ 64 ->
  exists s' p, tm_index s key = Some (s', p) /\ TI k s' /\ t_pairs s' = (match sget (t_pairs s) key with Some _ => t_pairs s | None => t_pairs s ++ [(key, 0)] end)
   /\ exists w, nth_error (t_pairs s') p = Some (key, w).
Proof.
  intros k s key H KB. unfold tm_index. destruct (tryget_spec k s key H KB) as [o [E P]]. rewrite E.
  destruct (sget_nth (t_pairs s) key (ti_nodup k s H)) as [SG1 SG2]. destruct o as [p|].
  - destruct P as [v P]. exists s, p. split; [auto|]. split; [auto|]. rewrite (SG1 _ _ P). split; [auto|]. eauto.
  - destruct (ti_tree k s H) as [m [E1 _]]. destruct (set_spec k 64 s key 0 m H KB E1 ltac:(lia) P) as [s' [S1 [S2 S3]]].
    exists s', (length (t_pairs s)). split; [auto|]. split; [auto|]. rewrite (SG2 P). split; [auto|].
    exists 0. rewrite S2, nth_error_app2, Nat.sub_diag by lia. reflexivity.
Qed.
Lemma step_TI : forall k s o, TI k s -> op_ok o -> exists s', tm_step s o = Some s' /\ TI k s' /\ t_pairs s' = sstep (t_pairs s) o.
Proof.
  intros k s o H OK. destruct o as [key v|key|]; cbn [tm_step sstep op_ok] in *.
  - unfold tm_store. destruct (index_spec k s key H OK) as [s' [p [E [T [P [w N]]]]]]. rewrite E. eexists. split; [reflexivity|].
    split; [apply pput_TI; auto|]. cbn [t_pairs]. rewrite (pput_sput _ p key w v (ti_nodup k s' T) N), P.
    destruct (sget (t_pairs s) key) eqn:G; [auto|]. rewrite (sput_absent (t_pairs s) key v) by auto.
    rewrite <- (pput_sput (t_pairs s ++ [(key, 0)]) (length (t_pairs s)) key 0 v).
    + apply pput_last.
    + rewrite <- P. apply (ti_nodup k s' T).
    + rewrite nth_error_app2, Nat.sub_diag by lia. reflexivity.
  - destruct (index_spec k s key H OK) as [s' [p [E [T [P _]]]]]. rewrite E. exists s'. auto.
  - eexists. split; [reflexivity|]. split; [|auto]. destruct H. apply empty_TI; auto.
Qed.
Lemma run_TI : forall k l s, TI k s -> Forall op_ok l -> exists s', tm_run s l = Some s' /\ TI k s' /\ t_pairs s' = fold_left sstep l (t_pairs s).
Proof.
  intros k. induction l as [|o l IH]; intros s H F; cbn [tm_run fold_left]; [eauto|]. inversion F as [|? ? F1 F2]; subst.
  destruct (step_TI k s o H F1) as [s' [E [T P]]]. rewrite E, <- P. apply IH; auto.
Qed.
Lemma make_TI : forall k s, 1 <= k -> tm_make (2 ^ k) = Some s -> TI k s.
Proof.
  intros k s K1 H. unfold tm_make, compute_mask in H. rewrite N.log2_pow2 in H by lia.
  destruct (is_power_of_2 (2 ^ k)); [|discriminate]. destruct (k <? 31); [|discriminate]. injection H as <-. apply empty_TI; auto.
Qed.

(** For every node size 2^k, k from 1 to 30, and every history on 64-bit keys: no operation fails, the pairs are those
    stored, in insertion order, and find gives exactly the stored pair. *)
Theorem C32_map_partial : forall k l, 1 <= k -> k <= 30 -> Forall op_ok l ->
  exists s0 s, tm_make (2 ^ k) = Some s0 /\ tm_run s0 l = Some s /\ t_pairs s = fold_left sstep l []
   /\ forall key, key < 2 ^ 64 -> tm_find s key = Some (sget (fold_left sstep l []) key).
Proof.
  intros k l K1 K2 F. assert (M : exists s0, tm_make (2 ^ k) = Some s0 /\ t_pairs s0 = []).
  { unfold tm_make, compute_mask. rewrite N.log2_pow2 by lia.
    assert (P : is_power_of_2 (2 ^ k) = true).
    { apply is_power_of_2_correct; [apply N.pow_lt_mono_r; lia|eauto]. }
    rewrite P. destruct (N.ltb_spec k 31); [|lia]. eexists. split; reflexivity. }
  destruct M as [s0 [M P0]]. pose proof (make_TI k s0 K1 M) as T0.
  destruct (run_TI k l s0 T0 F) as [s [R [T P]]]. exists s0, s. rewrite P0 in P. split; [auto|]. split; [auto|]. split; [auto|].
  intros key KB. unfold tm_find. destruct (tryget_spec k s key T KB) as [o [E Q]]. rewrite E, <- P.
  destruct (sget_nth (t_pairs s) key (ti_nodup k s T)) as [SG1 SG2]. destruct o as [p|].
  - destruct Q as [v Q]. rewrite Q. rewrite (SG1 _ _ Q). auto.
  - rewrite (SG2 Q). auto.
Qed.
Definition ops32 : list tmop := [TStore 5 50; TStore (2 ^ 40) 7; TTouch 6; TStore 5 51; TStore (2 ^ 64 - 1) 9; TStore 6 1].
Example C32_map_ex : Forall op_ok ops32 /\ fold_left sstep ops32 [] = [(5, 51); (2 ^ 40, 7); (6, 1); (2 ^ 64 - 1, 9)]
  /\ option_map (fun s => (tm_find s 6, tm_find s 7, length (t_shifts s))) (match tm_make 16 with Some s => tm_run s ops32 | None => None end)
     = Some (Some (Some (6, 1)), Some None, 16%nat).
Proof. split; [repeat constructor|]. split; vm_compute; reflexivity. Qed.
Print Assumptions C32_map_partial.

(** Laws of the specification: the value last stored is found, other keys are not affected, keys are distinct. *)
Theorem C32_laws : forall l, let s := fold_left sstep l [] in NoDup (map fst s) /\
  forall key v key', sget (sstep s (TStore key v)) key' = if key =? key' then Some (key, v) else sget s key'.
Proof.
  intros l s. split.
  - unfold s. assert (G : forall l s, NoDup (map fst s) -> NoDup (map fst (fold_left sstep l s))).
    { assert (IN : forall s key v x, In x (map fst (sput s key v)) -> x = key \/ In x (map fst s)).
      { induction s0 as [|[a w] s0 IH]; intros key v x; cbn [sput map fst In].
        - intros [<-|[]]; auto.
        - destruct (N.eqb_spec a key); cbn [map fst In]; [tauto|]. intros [<-|H]; auto. apply IH in H. tauto. }
      assert (SP : forall s key v, NoDup (map fst s) -> NoDup (map fst (sput s key v))).
      { induction s0 as [|[a w] s0 IH]; intros key v ND; cbn [sput map fst]; [repeat constructor; auto|].
        cbn [map fst] in ND. inversion ND as [|? ? NI ND']; subst. destruct (N.eqb_spec a key); cbn [map fst]; constructor; auto.
        intros C. apply IN in C. tauto. }
      induction l0 as [|o l0 IH]; intros s0 ND; cbn [fold_left]; [auto|]. apply IH. destruct o as [key v|key|]; cbn [sstep]; auto.
      - destruct (sget s0 key) eqn:E; auto. rewrite <- sput_absent by auto. auto.
      - constructor. }
    apply G. constructor.
  - intros key v key'. cbn [sstep]. clearbody s. induction s as [|[a w] s IH]; cbn [sput sget].
    + auto.
    + destruct (N.eqb_spec a key) as [->|NE]; cbn [sget].
      * destruct (N.eqb_spec key key'); auto.
      * rewrite IH. destruct (N.eqb_spec a key') as [->|NE2]; auto. destruct (N.eqb_spec key key'); congruence.
Qed.
Example C32_laws_ex : sget (sstep (fold_left sstep ops32 []) (TStore 6 77)) 6 = Some (6, 77).
Proof. vm_compute. reflexivity. Qed.
Print Assumptions C32_laws.

(** A node size of 1 is accepted by the constructor, but storing any key other than 0 recurses without end. *)
Theorem C32_size_one_refuted : exists s0, tm_make 1 = Some s0 /\ forall fuel key v s, 0 < key -> t_size s = 1 -> t_shift s = 0 ->
  (exists n, t_shifts s = repeat 0 (S n)) -> tm_set fuel s key v = None.
Proof.
  eexists. split; [vm_compute; reflexivity|]. induction fuel; intros key v s K S1 S2 [n S3]; cbn [tm_set]; rewrite S3; cbn [repeat];
  change (64 <=? 0) with false; cbn iota; rewrite S1, N.shiftr_0_r; (destruct (N.leb_spec 1 key); [|lia]); [auto|].
  apply IHfuel; auto. exists (S n). cbn [add_tier t_shifts]. rewrite S3, S2. reflexivity.
Qed.
Example C32_size_one_ex : exists s0, tm_make 1 = Some s0 /\ t_size s0 = 1 /\ t_shift s0 = 0 /\ t_shifts s0 = repeat 0 1 /\ tm_set 50 s0 1 9 = None.
Proof. eexists. split; [vm_compute; reflexivity|]. repeat split; vm_compute; reflexivity. Qed.
Print Assumptions C32_size_one_refuted.

(** From a node size of 2^31 on, the constructor shifts an int out of range (undefined behaviour). *)
Theorem C32_size_wide_refuted : forall k, 31 <= k -> k < 64 -> is_power_of_2 (2 ^ k) = true /\ tm_make (2 ^ k) = None.
Proof.
  intros k K1 K2. assert (P : is_power_of_2 (2 ^ k) = true) by (apply is_power_of_2_correct; [apply N.pow_lt_mono_r; lia|eauto]).
  split; [exact P|]. unfold tm_make, compute_mask. rewrite P, N.log2_pow2 by lia. destruct (N.ltb_spec k 31); [lia|auto].
Qed.
Example C32_size_wide_ex : tm_make (2 ^ 31) = None.
Proof. vm_compute. reflexivity. Qed.
Print Assumptions C32_size_wide_refuted.
