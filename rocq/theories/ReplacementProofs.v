(* Lemmas about ReplacementModel. *)
Require Import List Bool Arith Permutation Sorted ZArith Lia ZifyNat ZifyBool.
Require Import Verif.ReplacementModel.
Import ListNotations.
Ltac Zify.zify_post_hook ::= Z.div_mod_to_equations.

(* --- LRU --- *)
Lemma unlink_In w x s : In x (unlink w s) <-> In x s /\ x <> w.
Proof. unfold unlink. rewrite filter_In, negb_true_iff, Nat.eqb_neq. reflexivity. Qed.

Lemma unlink_SS (R : nat -> nat -> Prop) w s : StronglySorted R s -> StronglySorted R (unlink w s).
Proof.
  induction 1 as [|y q Hs IH Hall]; cbn; [constructor|]. destruct (y =? w); cbn; [assumption|].
  constructor; [assumption|]. rewrite Forall_forall in *. intros z Hz. apply unlink_In in Hz. now apply Hall.
Qed.

Lemma unlink_length w s : NoDup s -> In w s -> length s = S (length (unlink w s)).
Proof.
  induction 1 as [|y q Hy Hq IH]; cbn; [contradiction|].
  intros [->|Hin].
  - rewrite Nat.eqb_refl. cbn. f_equal. clear IH Hq. induction q as [|z q IH]; cbn; [reflexivity|].
    destruct (Nat.eqb_spec z w) as [->|]; [exfalso; apply Hy; now left|]. cbn. f_equal. apply IH.
    intros H. apply Hy. now right.
  - destruct (Nat.eqb_spec y w) as [->|]; [contradiction|]. cbn. f_equal. now apply IH.
Qed.

Lemma SS_snoc (R : nat -> nat -> Prop) s x : StronglySorted R s -> Forall (fun y => R y x) s ->
  StronglySorted R (s ++ [x]).
Proof.
  induction 1 as [|y q Hs IH Hall]; cbn; intros Hx; [constructor; constructor|].
  inversion Hx; subst. constructor; [now apply IH|].
  apply Forall_app. split; [assumption|]. constructor; [assumption|constructor].
Qed.

Lemma SS_impl (R R' : nat -> nat -> Prop) s :
  (forall x y, In x s -> In y s -> R x y -> R' x y) -> StronglySorted R s -> StronglySorted R' s.
Proof.
  intros H Hs. induction Hs as [|y q Hs IH Hall]; constructor.
  - apply IH. intros; apply H; cbn; auto.
  - rewrite Forall_forall in *. intros z Hz. apply H; cbn; auto.
Qed.

Open Scope Z_scope.
(* Time stamps: later touches are newer; a touchLRU makes the way older than everything so far. *)
Definition stamp (i : nat) (t : touch) (ts : nat -> Z) : nat -> Z :=
  match t with
  | TouchMRU w => fun x => if Nat.eqb x w then Z.of_nat i else ts x
  | TouchLRU w => fun x => if Nat.eqb x w then - Z.of_nat i else ts x
  end.
Fixpoint stamps (i : nat) (h : list touch) (ts : nat -> Z) : nat -> Z :=
  match h with [] => ts | t :: h' => stamps (S i) h' (stamp i t ts) end.

Definition lru_inv (n i : nat) (ts : nat -> Z) (s : list nat) : Prop :=
  Permutation s (seq 0 n) /\ StronglySorted (fun a b => ts a < ts b) s /\
  (forall x, (x < n)%nat -> - Z.of_nat i < ts x < Z.of_nat i).

Lemma lru_step_inv n i ts s t : lru_inv n i ts s ->
  (match t with TouchMRU w | TouchLRU w => (w < n)%nat end) ->
  exists s', lru_step t s = Some s' /\ lru_inv n (S i) (stamp i t ts) s'.
Proof.
  intros (Hp & Hs & Hb) Hw.
  assert (Hlen : length s = n) by (rewrite (Permutation_length Hp); apply seq_length).
  assert (Hnd : NoDup s) by (rewrite Hp; apply seq_NoDup).
  assert (Hin : forall x, In x s <-> (x < n)%nat).
  { intros x. rewrite Hp, in_seq. lia. }
  assert (Hun : forall w, (w < n)%nat -> Permutation s (w :: unlink w s)).
  { intros w Hw'. apply NoDup_Permutation; [assumption|constructor|].
    - rewrite unlink_In. tauto.
    - now apply NoDup_filter.
    - intros x. cbn. rewrite unlink_In. destruct (Nat.eq_dec x w) as [->|].
      + rewrite Hin. intuition.
      + intuition congruence. }
  destruct t as [w|w]; cbn [lru_step]; unfold lru_touch_lru, lru_touch_mru;
    rewrite (proj2 (Nat.ltb_lt _ _)) by lia; eexists; (split; [reflexivity|]); (split; [|split]).
  - rewrite <- (Hun w Hw). assumption.
  - constructor.
    + eapply SS_impl; [|apply unlink_SS, Hs]. cbn. intros x y Hx Hy.
      apply unlink_In in Hx. apply unlink_In in Hy.
      rewrite (proj2 (Nat.eqb_neq x w)), (proj2 (Nat.eqb_neq y w)) by tauto. auto.
    + rewrite Forall_forall. intros y Hy. apply unlink_In in Hy. cbn. rewrite Nat.eqb_refl.
      rewrite (proj2 (Nat.eqb_neq y w)) by tauto. apply Hb, Hin, Hy.
  - intros x Hx. cbn [stamp]. specialize (Hb x Hx). destruct (Nat.eqb_spec x w); lia.
  - rewrite Permutation_app_comm. cbn. rewrite <- (Hun w Hw). assumption.
  - apply SS_snoc.
    + eapply SS_impl; [|apply unlink_SS, Hs]. cbn. intros x y Hx Hy.
      apply unlink_In in Hx. apply unlink_In in Hy.
      rewrite (proj2 (Nat.eqb_neq x w)), (proj2 (Nat.eqb_neq y w)) by tauto. auto.
    + rewrite Forall_forall. intros y Hy. apply unlink_In in Hy. cbn. rewrite Nat.eqb_refl.
      rewrite (proj2 (Nat.eqb_neq y w)) by tauto. apply Hb, Hin, Hy.
  - intros x Hx. cbn [stamp]. specialize (Hb x Hx). destruct (Nat.eqb_spec x w); lia.
Qed.

Lemma lru_run_inv n h : Forall (fun t => match t with TouchMRU w | TouchLRU w => (w < n)%nat end) h ->
  forall i ts s, lru_inv n i ts s ->
  exists s', lru_run h s = Some s' /\ lru_inv n (length h + i) (stamps i h ts) s'.
Proof.
  induction 1 as [|t h Ht Hh IH]; intros i ts s Hi; cbn [lru_run stamps length].
  - eexists. split; [reflexivity|]. exact Hi.
  - destruct (lru_step_inv n i ts s t Hi Ht) as (s1 & -> & Hi1).
    destruct (IH _ _ _ Hi1) as (s2 & E & Hi2). exists s2. split; [exact E|].
    replace (S (length h) + i)%nat with (length h + S i)%nat by lia. exact Hi2.
Qed.
Close Scope Z_scope.

(* --- Tree PLRU --- *)
Fixpoint anc (i j : nat) : nat := match i with 0 => j | S i' => anc i' (j / 2) end.

Lemma anc_S i : forall j, anc (S i) j = anc i j / 2.
Proof. induction i as [|i IH]; intros j; [reflexivity|]. cbn [anc] in *. rewrite IH. reflexivity. Qed.

Lemma odd_half j : 2 * (j / 2) + b2n (Nat.odd j) = j.
Proof.
  unfold b2n. pose proof (Nat.div2_odd j) as H. rewrite Nat.div2_div in H.
  destruct (Nat.odd j); cbn [Nat.b2n] in H; lia.
Qed.

Lemma climb_other inv k : forall idx b j, (forall i, i < k -> j <> anc (S i) idx) -> climb inv k idx b j = b j.
Proof.
  induction k as [|k IH]; intros idx b j H; cbn [climb]; [reflexivity|].
  rewrite IH.
  - unfold set_bit. destruct (Nat.eqb_spec j (idx / 2)); [|reflexivity].
    exfalso. apply (H 0); [lia|]. subst. reflexivity.
  - intros i Hi. apply (H (S i)). lia.
Qed.

(* On a path from a node in range the ancestors are strictly decreasing, so the last write to each is
   its own. *)
Lemma anc_lt i : forall j, 0 < anc i j -> anc (S i) j < anc i j.
Proof. intros j H. rewrite anc_S. lia. Qed.

Lemma anc_pos i : forall j, 0 < anc i j -> 0 < j.
Proof. induction i as [|i IH]; cbn [anc]; intros j H; [exact H|]. apply IH in H. lia. Qed.

Lemma anc_lt_gen i : forall j, 0 < anc i j -> 0 < i -> anc i j < j.
Proof.
  induction i as [|i IH]; intros j H Hi; [lia|]. cbn [anc] in *.
  destruct i as [|i]; [cbn [anc] in *; lia|]. pose proof (anc_pos _ _ H). specialize (IH (j / 2) H). lia.
Qed.

Lemma climb_on inv k : forall idx b i, 0 < anc k idx -> i < k ->
  climb inv k idx b (anc (S i) idx) = xorb inv (Nat.odd (anc i idx)).
Proof.
  induction k as [|k IH]; intros idx b i Hpos Hi; [lia|].
  cbn [climb]. cbn [anc] in Hpos. destruct i as [|i].
  - cbn [anc]. rewrite climb_other.
    + unfold set_bit. now rewrite Nat.eqb_refl.
    + intros i Hi'. assert (Hp : 0 < anc (S i) (idx / 2)).
      { clear -Hpos Hi'. revert Hpos. generalize (idx / 2). clear idx. intros x.
        assert (H : forall m, 0 < anc (S i + m) x -> 0 < anc (S i) x).
        { induction m as [|m IHm]; [now rewrite Nat.add_0_r|].
          rewrite Nat.add_succ_r. rewrite anc_S. intros Hm. apply IHm. lia. }
        intros Hpos. apply (H (k - S i)). now replace (S i + (k - S i)) with k by lia. }
      pose proof (anc_lt_gen (S i) (idx / 2) Hp). lia.
  - cbn [anc]. change (anc i (idx / 2 / 2)) with (anc (S i) (idx / 2)). apply IH; [assumption|lia].
Qed.

Lemma anc_leaf k w : w < 2 ^ k -> anc k (w + 2 ^ k) = 1.
Proof.
  revert w. induction k as [|k IH]; intros w Hw; cbn [anc].
  - cbn in *. lia.
  - rewrite Nat.pow_succ_r' in *. replace ((w + 2 * 2 ^ k) / 2) with (w / 2 + 2 ^ k) by lia.
    apply IH. lia.
Qed.

Lemma descend_follow (inv : bool) k : forall leaf b,
  (forall i, i < k -> b (anc (S i) leaf) = xorb inv (Nat.odd (anc i leaf))) ->
  (if inv then descend_not else descend) k b (anc k leaf) = leaf.
Proof.
  induction k as [|k IH]; intros leaf b H.
  - destruct inv; reflexivity.
  - assert (E : 2 * anc (S k) leaf + b2n (xorb inv (b (anc (S k) leaf))) = anc k leaf).
    { rewrite H by lia. rewrite anc_S. rewrite <- xorb_assoc, xorb_nilpotent, xorb_false_l. apply odd_half. }
    destruct inv; [rewrite xorb_true_l in E|rewrite xorb_false_l in E]; cbn [descend descend_not]; rewrite E; apply (IH leaf b); intros i Hi; apply H; lia.
Qed.

Lemma plru_mru_after k w b : w < 2 ^ k -> plru_mru k (climb true k (w + 2 ^ k) b) = w.
Proof.
  intros Hw. unfold plru_mru.
  pose proof (descend_follow true k (w + 2 ^ k) (climb true k (w + 2 ^ k) b)) as E.
  cbn iota in E. rewrite (anc_leaf k w Hw) in E. rewrite E; [lia|].
  intros i Hi. apply climb_on; [rewrite anc_leaf; lia|assumption].
Qed.

Lemma plru_lru_after k w b : w < 2 ^ k -> plru_victim k (climb false k (w + 2 ^ k) b) = w.
Proof.
  intros Hw. unfold plru_victim.
  pose proof (descend_follow false k (w + 2 ^ k) (climb false k (w + 2 ^ k) b)) as E.
  cbn iota in E. rewrite (anc_leaf k w Hw) in E. rewrite E; [lia|].
  intros i Hi. apply climb_on; [rewrite anc_leaf; lia|assumption].
Qed.

Lemma descend_range k : forall b idx, idx * 2 ^ k <= descend k b idx < (idx + 1) * 2 ^ k.
Proof.
  induction k as [|k IH]; intros b idx; cbn [descend]; [cbn; lia|].
  specialize (IH b (2 * idx + b2n (b idx))). rewrite Nat.pow_succ_r'.
  unfold b2n in *. destruct (b idx); nia.
Qed.
Lemma descend_not_range k : forall b idx, idx * 2 ^ k <= descend_not k b idx < (idx + 1) * 2 ^ k.
Proof.
  induction k as [|k IH]; intros b idx; cbn [descend_not]; [cbn; lia|].
  specialize (IH b (2 * idx + b2n (negb (b idx)))). rewrite Nat.pow_succ_r'.
  unfold b2n in *. destruct (negb (b idx)); nia.
Qed.

Lemma plru_victim_range k b : plru_victim k b < 2 ^ k.
Proof. unfold plru_victim. pose proof (descend_range k b 1). lia. Qed.
Lemma plru_mru_range k b : plru_mru k b < 2 ^ k.
Proof. unfold plru_mru. pose proof (descend_not_range k b 1). lia. Qed.

Lemma victim_ne_mru k b : 0 < k -> plru_victim k b <> plru_mru k b.
Proof.
  intros Hk. unfold plru_victim, plru_mru. destruct k as [|k]; [lia|].
  cbn [descend descend_not]. pose proof (descend_range k b (2 * 1 + b2n (b 1))).
  pose proof (descend_not_range k b (2 * 1 + b2n (negb (b 1)))). rewrite Nat.pow_succ_r'.
  unfold b2n in *. destruct (b 1); cbn [negb] in *; nia.
Qed.

(* The tree view used for the rotation property. *)
Inductive bt := L | B (b : bool) (l r : bt).
Fixpoint victim (t : bt) : list bool :=
  match t with L => [] | B b l r => b :: victim (if b then r else l) end.
Fixpoint upd (t : bt) : bt :=
  match t with L => L | B true l r => B false l (upd r) | B false l r => B true (upd l) r end.
Fixpoint victims (n : nat) (t : bt) : list (list bool) :=
  match n with 0 => [] | S n' => victim t :: victims n' (upd t) end.
Fixpoint depth (k : nat) (t : bt) : Prop :=
  match k, t with 0, L => True | S k', B _ l r => depth k' l /\ depth k' r | _, _ => False end.
Fixpoint paths (k : nat) : list (list bool) :=
  match k with 0 => [[]] | S k' => map (cons false) (paths k') ++ map (cons true) (paths k') end.

Lemma upd_depth k : forall t, depth k t -> depth k (upd t).
Proof.
  induction k as [|k IH]; intros [|[] l r]; cbn; try tauto; intros [H1 H2]; split; auto.
Qed.

Lemma victims_two m b l r : victims (2 * S m) (B b l r) =
  (b :: victim (if b then r else l)) :: (negb b :: victim (if b then l else r)) ::
  victims (2 * m) (B b (upd l) (upd r)).
Proof. replace (2 * S m) with (S (S (2 * m))) by lia. destruct b; reflexivity. Qed.

Lemma victims_split m : forall b l r,
  Permutation (victims (2 * m) (B b l r))
    (map (cons false) (victims m l) ++ map (cons true) (victims m r)).
Proof.
  induction m as [|m IH]; intros b l r; [reflexivity|].
  rewrite victims_two. cbn [victims map app].
  rewrite (IH b (upd l) (upd r)). destruct b; cbn [negb].
  - rewrite perm_swap. constructor. apply Permutation_cons_app. reflexivity.
  - constructor. apply Permutation_cons_app. reflexivity.
Qed.

Lemma victims_all k : forall t, depth k t -> Permutation (victims (2 ^ k) t) (paths k).
Proof.
  induction k as [|k IH]; intros [|b l r]; cbn [depth]; try tauto; intros H.
  - reflexivity.
  - destruct H as [Hl Hr]. rewrite Nat.pow_succ_r', victims_split. cbn [paths].
    now rewrite (IH l Hl), (IH r Hr).
Qed.

Fixpoint tree_of (k : nat) (b : bits) (idx : nat) : bt :=
  match k with 0 => L | S k' => B (b idx) (tree_of k' b (2 * idx)) (tree_of k' b (2 * idx + 1)) end.
Lemma tree_depth k b : forall idx, depth k (tree_of k b idx).
Proof. induction k; cbn; auto. Qed.

Fixpoint follow (p : list bool) (idx : nat) : nat :=
  match p with [] => idx | b :: p' => follow p' (2 * idx + b2n b) end.

Lemma descend_victim k : forall b idx, descend k b idx = follow (victim (tree_of k b idx)) idx.
Proof.
  induction k as [|k IH]; intros b idx; cbn [descend tree_of victim follow]; [reflexivity|].
  rewrite IH. destruct (b idx); cbn [b2n]; rewrite ?Nat.add_0_r; reflexivity.
Qed.

(* tree_of only looks at nodes of the subtree. *)
Lemma tree_ext k : forall b b' idx, (forall i j, i < k -> anc i j = idx -> b j = b' j) ->
  tree_of k b idx = tree_of k b' idx.
Proof.
  induction k as [|k IH]; intros b b' idx H; cbn [tree_of]; [reflexivity|].
  f_equal.
  - apply (H 0); [lia|reflexivity].
  - apply IH. intros i j Hi E. apply (H (S i)); [lia|]. rewrite anc_S, E. lia.
  - apply IH. intros i j Hi E. apply (H (S i)); [lia|]. rewrite anc_S, E. lia.
Qed.

Lemma anc_unique i : forall i' j x, anc i j = x -> anc i' j = x -> 0 < x -> i = i'.
Proof.
  induction i as [|i IH]; intros [|i'] j x E E' Hx; auto.
  - cbn [anc] in E. subst j. pose proof (anc_lt_gen (S i') x). lia.
  - cbn [anc] in E'. subst j. pose proof (anc_lt_gen (S i) x). lia.
  - cbn [anc] in E, E'. f_equal. eapply IH; eassumption.
Qed.

Lemma anc_add i : forall i' j, anc (i + i') j = anc i (anc i' j).
Proof.
  induction i as [|i IH]; intros i' j; [reflexivity|].
  change (S i + i') with (S (i + i')). rewrite !anc_S. now rewrite IH.
Qed.

Lemma anc_descend k : forall b idx, anc k (descend k b idx) = idx.
Proof.
  induction k as [|k IH]; intros b idx; cbn [descend]; [reflexivity|].
  rewrite anc_S, IH. unfold b2n. destruct (b idx); lia.
Qed.

(* flipping exactly the bits on the victim path is [upd] *)
Lemma tree_flip k : forall b b' idx, 0 < idx ->
  (forall i, i < k -> b' (anc (S i) (descend k b idx)) = negb (b (anc (S i) (descend k b idx)))) ->
  (forall j, (forall i, i < k -> j <> anc (S i) (descend k b idx)) -> b' j = b j) ->
  tree_of k b' idx = upd (tree_of k b idx).
Proof.
  induction k as [|k IH]; intros b b' idx Hidx Hon Hoff; [reflexivity|].
  cbn [tree_of upd].
  pose proof (anc_descend (S k) b idx) as Hroot.
  assert (Eb : b' idx = negb (b idx)).
  { rewrite <- Hroot. apply Hon. lia. }
  cbn [descend] in *. set (child := 2 * idx + b2n (b idx)) in *.
  set (leaf := descend k b child) in *.
  assert (Hchild : anc k leaf = child) by apply anc_descend.
  assert (Hsub : tree_of k b' child = upd (tree_of k b child)).
  { (* compare with the map that differs from b only below child *)
    set (b'' := fun j => if j =? idx then b j else b' j).
    assert (E1 : tree_of k b' child = tree_of k b'' child).
    { apply tree_ext. intros i j Hi E. unfold b''. destruct (Nat.eqb_spec j idx) as [->|]; [|reflexivity].
      exfalso. destruct i as [|i]; [cbn in E; unfold child, b2n in E; destruct (b idx); lia|].
      assert (0 < anc (S i) idx) by (rewrite E; unfold child; lia).
      pose proof (anc_lt_gen (S i) idx). unfold child in E. lia. }
    rewrite E1. apply IH; [unfold child; lia| |].
    - intros i Hi. fold leaf. unfold b''. destruct (Nat.eqb_spec (anc (S i) leaf) idx) as [E|E].
      + exfalso. assert (S i = S k) by (eapply anc_unique; eauto). lia.
      + apply Hon. lia.
    - intros j Hj. fold leaf in Hj. unfold b''. destruct (Nat.eqb_spec j idx) as [->|E]; [reflexivity|].
      apply Hoff. intros i Hi E2. destruct (Nat.eq_dec i k) as [->|Hne].
      + rewrite Hroot in E2. contradiction.
      + apply (Hj i); [lia|assumption]. }
  set (other := 2 * idx + b2n (negb (b idx))).
  assert (Hoth : tree_of k b' other = tree_of k b other).
  { apply tree_ext. intros i j Hi E. apply Hoff. intros i' Hi' E'.
    (* j is an ancestor of leaf, at height S i'; other is an ancestor of j, at height i *)
    assert (Hao : anc (i + S i') leaf = other) by (rewrite anc_add, <- E'; exact E).
    destruct (Nat.eq_dec i' k) as [->|Hne].
    - rewrite Hroot in E'. subst j. destruct i as [|i].
      + cbn in E. unfold other in E. lia.
      + assert (0 < anc (S i) idx) by (rewrite E; unfold other; lia).
        pose proof (anc_lt_gen (S i) idx). unfold other in E. lia.
    - destruct (lt_eq_lt_dec (i + S i') k) as [[Hlt|Heq]|Hgt].
      + assert (Hup : anc (k - (i + S i')) other = child).
        { rewrite <- Hao, <- anc_add. replace (k - (i + S i') + (i + S i')) with k by lia. exact Hchild. }
        assert (0 < anc (k - (i + S i')) other) by (rewrite Hup; unfold child; lia).
        pose proof (anc_lt_gen (k - (i + S i')) other).
        assert (anc (S (k - (i + S i'))) other = anc 1 child) by (rewrite anc_S, Hup; reflexivity).
        assert (anc 1 child = idx) by (cbn [anc]; unfold child, b2n; destruct (b idx); lia).
        assert (anc 1 other = idx) by (cbn [anc]; unfold other, b2n; destruct (negb (b idx)); lia).
        assert (1 = S (k - (i + S i'))) by (eapply anc_unique; eauto; congruence). lia.
      + rewrite Heq, Hchild in Hao. unfold child, other, b2n in Hao. destruct (b idx); cbn in Hao; lia.
      + assert (Hup : anc (i + S i' - k) child = other).
        { rewrite <- Hchild, <- anc_add. replace (i + S i' - k + k) with (i + S i') by lia. exact Hao. }
        assert (0 < anc (i + S i' - k) child) by (rewrite Hup; unfold other; lia).
        assert (anc (S (i + S i' - k)) child = idx).
        { rewrite anc_S, Hup. unfold other, b2n; destruct (negb (b idx)); lia. }
        assert (anc 1 child = idx) by (cbn [anc]; unfold child, b2n; destruct (b idx); lia).
        assert (1 = S (i + S i' - k)) by (eapply anc_unique; eauto). lia. }
  rewrite Eb. unfold child, other in *. destruct (b idx); cbn [negb b2n] in *; rewrite ?Nat.add_0_r in *;
    now rewrite Hsub, Hoth.
Qed.

Definition way_of (p : list bool) (k : nat) : nat := follow p 1 - 2 ^ k.

Lemma plru_replace_victims n k : forall b,
  plru_replace n k b = Some (map (fun p => way_of p k) (victims n (tree_of k b 1))).
Proof.
  induction n as [|n IH]; intros b; cbn [plru_replace victims map]; [reflexivity|].
  unfold plru_touch_mru. rewrite (proj2 (Nat.ltb_lt _ _) (plru_victim_range k b)).
  rewrite IH. f_equal. f_equal.
  - unfold plru_victim, way_of. now rewrite descend_victim.
  - do 2 f_equal.
    pose proof (descend_range k b 1) as Hr.
    assert (El : plru_victim k b + 2 ^ k = descend k b 1) by (unfold plru_victim; lia).
    rewrite El. apply tree_flip; [lia| |].
    + intros i Hi. rewrite climb_on; [|rewrite anc_descend; lia|assumption].
      (* the bit on the path equals the direction taken *)
      assert (G : forall k b idx i, i < k -> b (anc (S i) (descend k b idx)) = Nat.odd (anc i (descend k b idx))).
      { clear. induction k as [|k IHk]; intros b idx i Hi; [lia|]. cbn [descend].
        destruct (Nat.eq_dec i k) as [->|Hne].
        - rewrite anc_S, anc_descend.
          replace ((2 * idx + b2n (b idx)) / 2) with idx by (unfold b2n; destruct (b idx); lia).
          unfold b2n. destruct (b idx).
          + symmetry. apply Nat.odd_spec. exists idx. lia.
          + symmetry. rewrite <- Nat.negb_even. apply negb_false_iff, Nat.even_spec. exists idx. lia.
        - apply IHk. lia. }
      rewrite G by assumption. reflexivity.
    + intros j Hj. now apply climb_other.
Qed.

Lemma paths_ways k : forall idx, Permutation (map (fun p => follow p idx) (paths k)) (seq (idx * 2 ^ k) (2 ^ k)).
Proof.
  induction k as [|k IH]; intros idx; cbn [paths].
  - cbn. rewrite Nat.mul_1_r. reflexivity.
  - rewrite map_app, !map_map. cbn [follow].
    replace (2 ^ S k) with (2 ^ k + 2 ^ k) by (rewrite Nat.pow_succ_r'; lia).
    rewrite seq_app. apply Permutation_app.
    + rewrite IH. cbn [b2n]. rewrite Nat.add_0_r. replace (2 * idx * 2 ^ k) with (idx * (2 ^ k + 2 ^ k)) by lia. reflexivity.
    + rewrite IH. cbn [b2n]. replace ((2 * idx + 1) * 2 ^ k) with (idx * (2 ^ k + 2 ^ k) + 2 ^ k) by lia. reflexivity.
Qed.

Lemma seq_shift_down m n : map (fun x => x - m) (seq m n) = seq 0 n.
Proof.
  induction n as [|n IH]; [reflexivity|].
  rewrite !seq_S, map_app, IH. cbn. replace (m + n - m) with n by lia. reflexivity.
Qed.

Lemma plru_rotation k b vs : plru_replace (2 ^ k) k b = Some vs -> Permutation vs (seq 0 (2 ^ k)).
Proof.
  rewrite plru_replace_victims. injection 1 as <-.
  rewrite (victims_all k) by apply tree_depth.
  unfold way_of. rewrite <- (map_map (fun p => follow p 1) (fun x => x - 2 ^ k)).
  rewrite (paths_ways k 1). rewrite Nat.mul_1_l.
  now rewrite seq_shift_down.
Qed.
