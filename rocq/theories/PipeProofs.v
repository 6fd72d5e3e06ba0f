(** Lemmas about the Pipe model. *)
From Coq Require Import List NArith Arith Bool Lia.
From Verif Require Import MathUtilsModel MathUtilsProofs QueueProofs PipeModel.
Import ListNotations.
Open Scope N_scope.

Section P.
Context {A : Type}.
Implicit Types (p : pipe A).

Record PI p : Prop := {
  P_pow : pow_vs (p_phys p);
  P_mask : p_mask p = p_phys p - 1;
  P_tail : p_tail p < p_phys p;
  P_n : 1 <= p_n p;
  P_fit : p_n p + 1 <= p_phys p;
  P_out : forall j, p_n p < j < p_phys p -> p_slots p (ix (p_phys p) (phys_append p) j) = None
}.

Lemma mask_mod : forall vs x, pow_vs vs -> N.land (x mod 2 ^ 32) (vs - 1) = x mod vs.
Proof.
  intros vs x (k & Hk & ->). replace (2 ^ k - 1) with (N.ones k) by (rewrite N.ones_equiv; lia).
  assert (H1 : 2 ^ k <> 0) by (apply N.pow_nonzero; lia).
  rewrite N.land_ones. replace (2 ^ 32) with (2 ^ k * 2 ^ (32 - k)) by (rewrite <- N.pow_add_r; f_equal; lia).
  rewrite N.mod_mul_r by (try apply N.pow_nonzero; lia).
  rewrite N.mul_comm, N.mod_add by lia. apply N.mod_mod. lia.
Qed.

(* Position of the append slot. *)
Definition base_of (vs t : N) : N := if t =? 0 then vs - 1 else t - 1.
Lemma append_base : forall p, PI p -> phys_append p = base_of (p_phys p) (p_tail p).
Proof.
  intros p [V M T N1 F _]. unfold phys_append. rewrite M, mask_mod by auto.
  replace (p_tail p + (2 ^ 32 - 1)) with (p_tail p + 2 ^ 32 - 1) by lia.
  pose proof (vs_bound _ V). rewrite sub_mod by (auto; lia). unfold base_of.
  destruct (N.leb_spec 1 (p_tail p)), (N.eqb_spec (p_tail p) 0); lia.
Qed.
Lemma base_lt : forall vs t, t < vs -> base_of vs t < vs.
Proof. intros. unfold base_of. destruct (N.eqb_spec t 0); lia. Qed.
Lemma stage_ix : forall p s, PI p -> s < p_n p -> phys_stage p s = Some (ix (p_phys p) (phys_append p) (s + 1)).
Proof.
  intros p s I Hs. rewrite append_base by auto. destruct I as [V M T N1 F _]. unfold phys_stage.
  destruct (N.ltb_spec s (p_n p)); [|lia]. f_equal. rewrite M, mask_mod by auto. rewrite mod_ix by lia.
  unfold base_of, ix. destruct (N.eqb_spec (p_tail p) 0).
  - destruct (N.ltb_spec (p_tail p + s) (p_phys p)), (N.ltb_spec (p_phys p - 1 + (s + 1)) (p_phys p)); lia.
  - destruct (N.ltb_spec (p_tail p + s) (p_phys p)), (N.ltb_spec (p_tail p - 1 + (s + 1)) (p_phys p)); lia.
Qed.
Lemma stage_out : forall p s, p_n p <= s -> phys_stage p s = None.
Proof. intros. unfold phys_stage. destruct (N.ltb_spec s (p_n p)); [lia|auto]. Qed.

(* The visible contents, append slot first. *)
Definition view p : list (option A) := appended p :: map (fun s => read p (N.of_nat s)) (seq 0 (N.to_nat (p_n p))).
Definition at_ p (j : nat) : option A := p_slots p (ix (p_phys p) (phys_append p) (N.of_nat j)).

Lemma app_lt : forall p, PI p -> phys_append p < p_phys p.
Proof. intros p I. rewrite append_base by auto. apply base_lt, I. Qed.
Lemma view_at : forall p, PI p -> view p = map (at_ p) (seq 0 (S (N.to_nat (p_n p)))).
Proof.
  intros p I. unfold view. cbn [seq map]. f_equal.
  - unfold at_, appended. simpl N.of_nat. rewrite ix_0 by (apply app_lt; auto). reflexivity.
  - rewrite <- seq_shift, map_map. apply map_ext_in. intros s Hs. apply in_seq in Hs. unfold read, at_.
    rewrite stage_ix by (auto; lia). repeat f_equal. lia.
Qed.
Lemma view_len : forall p, length (view p) = S (N.to_nat (p_n p)).
Proof. intros. unfold view. simpl. rewrite map_length, seq_length. reflexivity. Qed.
Lemma nth_view : forall p j, PI p -> (j <= N.to_nat (p_n p))%nat -> nth_error (view p) j = Some (at_ p j).
Proof.
  intros p j I H. rewrite view_at by auto. rewrite nth_error_map.
  assert (E : nth_error (seq 0 (S (N.to_nat (p_n p)))) j = Some j).
  { rewrite (nth_error_nth' _ 0%nat) by (rewrite seq_length; lia). rewrite seq_nth by lia. reflexivity. }
  rewrite E. reflexivity.
Qed.

Lemma list_ext : forall {B} (l m : list B), length l = length m -> (forall j, (j < length l)%nat -> nth_error l j = nth_error m j) -> l = m.
Proof.
  induction l as [|x l IH]; destruct m as [|y m]; intros H K; auto; try discriminate. f_equal.
  - specialize (K 0%nat). simpl in K. assert (Some x = Some y) by (apply K; lia). congruence.
  - apply IH; [simpl in H; lia|]. intros j Hj. apply (K (S j)). simpl. lia.
Qed.

(* Setting one position of a list. *)
Fixpoint set {B} (j : nat) (x : B) (l : list B) : list B :=
  match j, l with _, [] => [] | O, _ :: r => x :: r | S j, y :: r => y :: set j x r end.
Lemma set_len : forall {B} j (x : B) l, length (set j x l) = length l.
Proof. induction j; destruct l; simpl; auto. Qed.
Lemma set_nth : forall {B} j (x : B) l i, (j < length l)%nat -> nth_error (set j x l) i = if Nat.eqb i j then Some x else nth_error l i.
Proof.
  induction j; destruct l; simpl; intros i H; try lia; destruct i; simpl; auto. apply IHj. lia.
Qed.

Definition with_slots p (f : N -> option A) (nv : N) (own sched : bool) : pipe A :=
  mkP (p_n p) (p_phys p) (p_mask p) nv (p_tail p) f own sched.
Lemma with_append : forall p f nv o s, phys_append (with_slots p f nv o s) = phys_append p.
Proof. reflexivity. Qed.

Lemma with_upd : forall p j x nv o s, PI p -> (j <= N.to_nat (p_n p))%nat ->
  let p' := with_slots p (upd (p_slots p) (ix (p_phys p) (phys_append p) (N.of_nat j)) x) nv o s in
  PI p' /\ view p' = set j x (view p).
Proof.
  intros p j x nv o s I Hj p'. pose proof (app_lt p I) as HA. pose proof I as [V M T N1 F O].
  assert (I' : PI p').
  { constructor; cbn; auto. intros i Hi. change (phys_append p') with (phys_append p). unfold upd.
    destruct (N.eqb_spec (ix (p_phys p) (phys_append p) i) (ix (p_phys p) (phys_append p) (N.of_nat j))) as [E|E]; [|apply O; auto].
    exfalso. apply ix_inj in E; auto; lia. }
  split; auto. apply list_ext; [rewrite set_len, !view_len; reflexivity|].
  intros i Hi. rewrite view_len in Hi. cbn [p_n p' with_slots] in Hi.
  rewrite set_nth by (rewrite view_len; lia). rewrite !nth_view by (auto; cbn; lia).
  unfold at_, p' at 1. cbn [p_slots with_slots]. unfold upd. change (phys_append p') with (phys_append p). change (p_phys p') with (p_phys p).
  destruct (Nat.eqb_spec i j) as [->|NE]; [rewrite N.eqb_refl; auto|].
  destruct (N.eqb_spec (ix (p_phys p) (phys_append p) (N.of_nat i)) (ix (p_phys p) (phys_append p) (N.of_nat j))) as [E|E]; auto.
  exfalso. apply ix_inj in E; auto; lia.
Qed.

(* Positions used by the loops. *)
Lemma NoDup_map_in : forall {B C} (f : B -> C) l, (forall x y, In x l -> In y l -> f x = f y -> x = y) -> NoDup l -> NoDup (map f l).
Proof.
  induction l as [|a l IH]; intros H ND; simpl; constructor; inversion ND; subst.
  - intros K. apply in_map_iff in K as (b & E & Hb). apply H in E; [subst; contradiction|right; auto|left; auto].
  - apply IH; auto. intros x y Hx Hy. apply H; right; auto.
Qed.
Lemma positions_ix : forall p, PI p -> positions p = map (fun j => ix (p_phys p) (phys_append p) (N.of_nat j)) (seq 0 (S (N.to_nat (p_n p)))).
Proof.
  intros p I. unfold positions. cbn [seq map]. f_equal; [simpl; rewrite ix_0; auto; apply app_lt; auto|].
  rewrite <- seq_shift, map_map. apply map_ext_in. intros s Hs. apply in_seq in Hs.
  pose proof (stage_ix p (N.of_nat s) I ltac:(lia)) as E. unfold phys_stage in E. destruct (N.ltb_spec (N.of_nat s) (p_n p)); [|lia].
  assert (K : forall x y : N, Some x = Some y -> x = y) by congruence. apply K in E. rewrite E. f_equal. lia.
Qed.
Lemma positions_nd : forall p, PI p -> NoDup (positions p).
Proof.
  intros p I. rewrite positions_ix by auto. apply NoDup_map_in; [|apply seq_NoDup].
  intros i j Hi Hj E. apply in_seq in Hi, Hj. pose proof (app_lt p I). destruct I. apply ix_inj in E; auto; lia.
Qed.
Lemma positions_in : forall p j, PI p -> j < p_phys p -> (In (ix (p_phys p) (phys_append p) j) (positions p) <-> j <= p_n p).
Proof.
  intros p j I Hj. rewrite positions_ix by auto. rewrite in_map_iff. pose proof (app_lt p I). split.
  - intros (i & E & Hi). apply in_seq in Hi. destruct I. apply ix_inj in E; auto; lia.
  - intros H'. exists (N.to_nat j). rewrite N2Nat.id. split; auto. apply in_seq. lia.
Qed.

Lemma fold_none : forall l (f : N -> option A) i, fold_left (fun f i => upd f i None) l f i = if in_dec N.eq_dec i l then None else f i.
Proof.
  induction l as [|x l IH]; intros f i; [reflexivity|]. cbn [fold_left]. rewrite IH.
  destruct (in_dec N.eq_dec i l), (in_dec N.eq_dec i (x :: l)); auto.
  - exfalso. apply n. right; auto.
  - destruct i0 as [->|K]; [unfold upd; rewrite N.eqb_refl; auto|contradiction].
  - unfold upd. destruct (N.eqb_spec i x) as [->|]; auto. exfalso. apply n0. left; auto.
Qed.
Definition drop (pr : A -> bool) (x : option A) : option A := match x with Some a => if pr a then None else x | None => None end.
Definition hit (pr : A -> bool) (x : option A) : bool := match x with Some a => pr a | None => false end.
Lemma fold_if : forall pr l (f : N -> option A) nv, NoDup l ->
  (forall i, fst (fold_left (flush_if1 pr) l (f, nv)) i = if in_dec N.eq_dec i l then drop pr (f i) else f i) /\
  snd (fold_left (flush_if1 pr) l (f, nv)) = N.iter (N.of_nat (length (filter (fun i => hit pr (f i)) l))) dec32 nv.
Proof.
  intros pr. induction l as [|x l IH]; intros f nv ND; [split; reflexivity|]. inversion ND; subst. cbn [fold_left flush_if1].
  assert (K : forall f' nv', (forall i, i <> x -> f' i = f i) -> f' x = drop pr (f x) ->
     (forall i, fst (fold_left (flush_if1 pr) l (f', nv')) i = if in_dec N.eq_dec i (x :: l) then drop pr (f i) else f i) /\
     snd (fold_left (flush_if1 pr) l (f', nv')) = N.iter (N.of_nat (length (filter (fun i => hit pr (f i)) l))) dec32 nv').
  { intros f' nv' Hne Hx. destruct (IH f' nv' H2) as [IH1 IH2]. split.
    - intros i. rewrite IH1. destruct (in_dec N.eq_dec i l), (in_dec N.eq_dec i (x :: l)).
      + rewrite Hne; auto. intros ->. contradiction.
      + exfalso. apply n. right; auto.
      + destruct i0 as [<-|]; [auto|contradiction].
      + apply Hne. intros ->. apply n0. left; auto.
    - rewrite IH2. replace (filter (fun i => hit pr (f' i)) l) with (filter (fun i => hit pr (f i)) l); auto.
      apply filter_ext_in. intros i Hi. rewrite Hne; auto. intros ->. contradiction. }
  cbn [filter]. destruct (f x) as [a|] eqn:E; cbn [hit].
  - destruct (pr a) eqn:EP.
    + destruct (K (upd f x None) (dec32 nv)) as [K1 K2].
      * intros i Hi. unfold upd. destruct (N.eqb_spec i x); congruence.
      * unfold upd. rewrite N.eqb_refl. simpl. rewrite EP. reflexivity.
      * split; auto. rewrite K2. cbn [length]. rewrite Nat2N.inj_succ, N.iter_succ_r. reflexivity.
    + apply K; [auto|]. rewrite E. simpl. rewrite EP. reflexivity.
  - apply K; [auto|]. rewrite E. reflexivity.
Qed.

Lemma with_map : forall p (f : N -> option A) g nv o s, PI p -> g None = None ->
  (forall i, f i = if in_dec N.eq_dec i (positions p) then g (p_slots p i) else p_slots p i) ->
  let p' := with_slots p f nv o s in PI p' /\ view p' = map g (view p).
Proof.
  intros p f g nv o s I Hg Hf p'. pose proof I as [V M T N1 F O].
  assert (I' : PI p').
  { constructor; cbn; auto. intros i Hi. rewrite Hf. change (phys_append p') with (phys_append p).
    rewrite O by auto. destruct (in_dec _ _ _); auto. }
  split; auto. rewrite !view_at by auto. rewrite map_map. cbn [p_n p' with_slots]. apply map_ext_in. intros j Hj. apply in_seq in Hj.
  unfold at_. cbn [p_slots p' with_slots]. rewrite Hf. change (phys_append p') with (phys_append p). cbn [p_phys p' with_slots].
  destruct (in_dec N.eq_dec _ (positions p)) as [|K]; auto. exfalso. apply K. apply positions_in; auto; lia.
Qed.

Lemma all_none : forall p nv o s, PI p -> let p' := with_slots p (fun _ => None) nv o s in PI p' /\ view p' = map (fun _ => None) (view p).
Proof.
  intros p nv o s I p'. assert (I' : PI p') by (destruct I; constructor; cbn; auto). split; auto.
  rewrite !view_at by auto. rewrite map_map. apply map_ext. reflexivity.
Qed.

(* The update. *)
Lemma removelast_map : forall {C} (f : nat -> C) n, removelast (map f (seq 0 (S n))) = map f (seq 0 n).
Proof. intros. rewrite seq_S, map_app. cbn [map]. rewrite removelast_last. reflexivity. Qed.
Lemma internal_ok : forall p sc, PI p -> exists p', internal_update p sc = Some p' /\ PI p' /\ view p' = None :: removelast (view p) /\
  p_n p' = p_n p /\ p_own p' = p_own p /\
  p_nv p' = (let nv := if ok (last (view p) None) then dec32 (p_nv p) else p_nv p in if ok (appended p) then inc32 nv else nv) /\
  p_sched p' = sc || ((0 <? p_nv p') && p_own p).
Proof.
  intros p sc I. pose proof (app_lt p I) as HA. pose proof I as [V M T N1 F O]. unfold internal_update.
  rewrite stage_ix by (auto; lia). replace (p_n p - 1 + 1) with (p_n p) by lia.
  set (h := ix (p_phys p) (phys_append p) (p_n p)).
  eexists. split; [reflexivity|].
  assert (HL : last (view p) None = p_slots p h).
  { rewrite view_at, seq_S, map_app by auto. cbn [map]. rewrite last_last. simpl. unfold at_. rewrite N2Nat.id. reflexivity. }
  assert (HX : upd (p_slots p) h None (phys_append p) = appended p).
  { unfold upd, appended. destruct (N.eqb_spec (phys_append p) h); auto. exfalso. subst h.
    rewrite <- (ix_0 (p_phys p) (phys_append p)) in e at 1 by auto. apply ix_inj in e; auto; lia. }
  rewrite HX. 
  set (p' := mkP _ _ _ _ _ _ _ _).
  assert (HB : phys_append p' = base_of (p_phys p) (phys_append p)).
  { unfold phys_append at 1, p'. cbn [p_tail p_mask]. rewrite M, mask_mod by auto.
    replace (phys_append p + (2 ^ 32 - 1)) with (phys_append p + 2 ^ 32 - 1) by lia. pose proof (vs_bound _ V).
    rewrite sub_mod by (auto; lia). unfold base_of. destruct (N.leb_spec 1 (phys_append p)), (N.eqb_spec (phys_append p) 0); lia. }
  assert (HI : forall j, j + 1 < p_phys p -> ix (p_phys p) (phys_append p') (j + 1) = ix (p_phys p) (phys_append p) j).
  { intros j Hj. rewrite HB. unfold ix, base_of. destruct (N.eqb_spec (phys_append p) 0).
    - destruct (N.ltb_spec (p_phys p - 1 + (j + 1)) (p_phys p)), (N.ltb_spec (phys_append p + j) (p_phys p)); lia.
    - destruct (N.ltb_spec (phys_append p - 1 + (j + 1)) (p_phys p)), (N.ltb_spec (phys_append p + j) (p_phys p)); lia. }
  assert (H0 : p_slots p' (phys_append p') = None).
  { unfold p' at 1. cbn [p_slots]. unfold upd. destruct (N.eqb_spec (phys_append p') h); auto.
    assert (EL : phys_append p' = ix (p_phys p) (phys_append p) (p_phys p - 1)).
    { rewrite HB. unfold ix, base_of. destruct (N.eqb_spec (phys_append p) 0);
        destruct (N.ltb_spec (phys_append p + (p_phys p - 1)) (p_phys p)); lia. }
    rewrite EL. apply O. split; [|lia]. destruct (N.eq_dec (p_n p) (p_phys p - 1)) as [E|E]; [|lia].
    exfalso. apply n. rewrite EL. subst h. rewrite E. reflexivity. }
  assert (I' : PI p').
  { constructor; cbn [p' p_phys p_mask p_tail p_n p_slots]; auto. intros j Hj. fold p'.
    replace j with (j - 1 + 1) by lia. rewrite HI by lia. unfold upd.
    destruct (N.eqb_spec (ix (p_phys p) (phys_append p) (j - 1)) h) as [|NE]; auto.
    apply O. split; [|lia]. destruct (N.eq_dec (p_n p) (j - 1)) as [E|E]; [|lia]. exfalso. apply NE. subst h. rewrite E. reflexivity. }
  split; [exact I'|]. split.
  - rewrite !view_at by auto. cbn [p_n p']. fold p'. rewrite removelast_map. cbn [seq map]. f_equal.
    + unfold at_. simpl N.of_nat. cbn [p_phys p']. fold p'. rewrite ix_0 by (pose proof (app_lt p' I') as K; exact K). exact H0.
    + rewrite <- seq_shift, map_map. apply map_ext_in. intros j Hj. apply in_seq in Hj. unfold at_. cbn [p_phys p' p_slots]. fold p'.
      replace (N.of_nat (S j)) with (N.of_nat j + 1) by lia. rewrite HI by lia. unfold upd.
      destruct (N.eqb_spec (ix (p_phys p) (phys_append p) (N.of_nat j)) h) as [E|]; auto. exfalso. subst h. apply ix_inj in E; auto; lia.
  - rewrite HL. cbn. auto.
Qed.

Lemma init_ok : forall n p, n < 2 ^ 31 -> p_init n = Some p -> PI p /\ view p = repeat None (S (N.to_nat n)) /\ p_n p = n /\ p_nv p = 0 /\
   p_own p = false /\ p_sched p = false.
Proof.
  intros n p Hn H. unfold p_init in H. destruct (N.eqb_spec n 0); [discriminate|].
  rewrite ceil_log2_correct in H by lia. set (k := N.log2_up (n + 1)) in *.
  assert (Hk : k <= 31) by (apply N.log2_up_le_pow2; lia).
  assert (HP : 2 ^ k <= 2 ^ 31) by (apply N.pow_le_mono_r; lia).
  assert (HF : n + 1 <= 2 ^ k) by (apply N.log2_log2_up_spec; lia).
  assert (H0 : 2 ^ k <> 0) by (apply N.pow_nonzero; lia).
  rewrite (N.mod_small (2 ^ k)) in H by lia.
  assert (EM : (2 ^ k + 2 ^ 32 - 1) mod 2 ^ 32 = 2 ^ k - 1).
  { replace (2 ^ k + 2 ^ 32 - 1) with (2 ^ k - 1 + 1 * 2 ^ 32) by lia. rewrite N.mod_add by lia. apply N.mod_small. lia. }
  rewrite EM in H. injection H as <-.
  match goal with |- PI ?q /\ _ => assert (I : PI q) by (constructor; cbn [p_phys p_mask p_tail p_n p_slots]; auto; try lia; exists k; auto) end.
  split; [exact I|]. split; [|cbn; auto]. rewrite view_at by exact I. cbn [p_n].
  generalize (S (N.to_nat n)) at 1 2. intros m. unfold at_. cbn [p_slots]. generalize 0%nat. induction m; intros; cbn [seq map repeat]; f_equal; auto.
Qed.
End P.
