(** Lemmas about the Queue model. *)
From Coq Require Import List NArith Arith Bool Lia.
From Verif Require Import QueueModel.
Import ListNotations.
Open Scope N_scope.

Definition ix (vs h i : N) : N := if h + i <? vs then h + i else h + i - vs.

Lemma ix_lt : forall vs h i, h < vs -> i < vs -> ix vs h i < vs.
Proof. intros. unfold ix. destruct (N.ltb_spec (h + i) vs); lia. Qed.
Lemma ix_inj : forall vs h i j, h < vs -> i < vs -> j < vs -> ix vs h i = ix vs h j -> i = j.
Proof. intros vs h i j. unfold ix. destruct (N.ltb_spec (h + i) vs), (N.ltb_spec (h + j) vs); lia. Qed.

Section P.
Context {A : Type}.
Implicit Types (q : queue A) (L : list (N * A)).

Definition pow_vs (vs : N) : Prop := exists k, k <= 31 /\ vs = 2 ^ k.

Lemma roll_mod : forall q x, pow_vs (q_vsize q) -> roll q (w32 x) = x mod q_vsize q.
Proof.
  intros q x (k & Hk & E). unfold roll, w32. rewrite E.
  assert (H1 : 2 ^ k <> 0) by (apply N.pow_nonzero; lia).
  assert (H2 : 2 ^ k <= 2 ^ 31) by (apply N.pow_le_mono_r; lia).
  assert (H3 : (2 ^ k + 2 ^ 32 - 1) mod 2 ^ 32 = 2 ^ k - 1).
  { replace (2 ^ k + 2 ^ 32 - 1) with (2 ^ k - 1 + 1 * 2 ^ 32) by lia. rewrite N.mod_add by lia. apply N.mod_small. lia. }
  rewrite H3. rewrite N.land_comm. replace (2 ^ k - 1) with (N.ones k) by (rewrite N.ones_equiv; lia).
  rewrite N.land_ones. replace (2 ^ 32) with (2 ^ k * 2 ^ (32 - k)) by (rewrite <- N.pow_add_r; f_equal; lia).
  rewrite N.mod_mul_r by (try apply N.pow_nonzero; lia).
  rewrite N.mul_comm, N.mod_add by lia. apply N.mod_mod. lia.
Qed.

Lemma vs_bound : forall vs, pow_vs vs -> 1 <= vs <= 2 ^ 31.
Proof. intros vs (k & Hk & ->). split; [pose proof (N.pow_nonzero 2 k); lia|apply N.pow_le_mono_r; lia]. Qed.

Lemma mod_ix : forall vs a b, a < vs -> b < vs -> (a + b) mod vs = ix vs a b.
Proof.
  intros vs a b Ha Hb. unfold ix. destruct (N.ltb_spec (a + b) vs); [apply N.mod_small; auto|].
  replace (a + b) with (a + b - vs + 1 * vs) at 1 by lia. rewrite N.mod_add by lia. apply N.mod_small. lia.
Qed.
Lemma sub_mod : forall vs a b, pow_vs vs -> a < vs -> b < vs ->
  (a + 2 ^ 32 - b) mod vs = if b <=? a then a - b else a + vs - b.
Proof.
  intros vs a b (k & Hk & ->) Ha Hb.
  assert (E : 2 ^ 32 = 2 ^ (32 - k) * 2 ^ k) by (rewrite <- N.pow_add_r; f_equal; lia).
  assert (H2 : 2 ^ k <= 2 ^ 31) by (apply N.pow_le_mono_r; lia).
  assert (H0 : 2 ^ (32 - k) <> 0) by (apply N.pow_nonzero; lia).
  destruct (N.leb_spec b a).
  - replace (a + 2 ^ 32 - b) with (a - b + 2 ^ (32 - k) * 2 ^ k) by lia. rewrite N.mod_add by lia. apply N.mod_small; lia.
  - replace (a + 2 ^ 32 - b) with (a + 2 ^ k - b + (2 ^ (32 - k) - 1) * 2 ^ k).
    + rewrite N.mod_add by lia. apply N.mod_small; lia.
    + rewrite N.mul_sub_distr_r, <- E. lia.
Qed.

(* Arithmetic of the ring in terms of ix. *)
Lemma incr_ix : forall q h i, pow_vs (q_vsize q) -> h < q_vsize q -> i + 1 < q_vsize q ->
  incr q (ix (q_vsize q) h i) = ix (q_vsize q) h (i + 1).
Proof.
  intros q h i P Hh Hi. unfold incr. rewrite roll_mod by auto. pose proof (ix_lt _ _ i Hh ltac:(lia)).
  rewrite mod_ix by lia. unfold ix. destruct (N.ltb_spec (h + i) (q_vsize q)), (N.ltb_spec (h + (i + 1)) (q_vsize q));
   try lia; destruct (N.ltb_spec (h + i + 1) (q_vsize q)); try lia; destruct (N.ltb_spec (h + i - q_vsize q + 1) (q_vsize q)); lia.
Qed.
Lemma decr_ix : forall q h i, pow_vs (q_vsize q) -> h < q_vsize q -> i + 1 < q_vsize q ->
  decr q (ix (q_vsize q) h (i + 1)) = ix (q_vsize q) h i.
Proof.
  intros q h i P Hh Hi. unfold decr. rewrite roll_mod by auto. pose proof (ix_lt _ _ (i + 1) Hh Hi).
  rewrite sub_mod by (auto; lia). destruct (N.leb_spec 1 (ix (q_vsize q) h (i + 1))) as [K|K]; unfold ix in *;
   destruct (N.ltb_spec (h + i) (q_vsize q)), (N.ltb_spec (h + (i + 1)) (q_vsize q)); lia.
Qed.
Lemma ix_0 : forall vs h, h < vs -> ix vs h 0 = h.
Proof. intros. unfold ix. destruct (N.ltb_spec (h + 0) vs); lia. Qed.
Lemma incr_head : forall q h, pow_vs (q_vsize q) -> h < q_vsize q -> 1 < q_vsize q -> incr q h = ix (q_vsize q) h 1.
Proof. intros. rewrite <- (ix_0 (q_vsize q) h) at 1 by auto. rewrite incr_ix by auto. reflexivity. Qed.
Lemma phys_ix : forall q i, pow_vs (q_vsize q) -> q_head q < q_vsize q -> i < q_vsize q ->
  phys q i = ix (q_vsize q) (q_head q) i.
Proof. intros. unfold phys. rewrite roll_mod by auto. rewrite N.add_comm, mod_ix by auto. reflexivity. Qed.
Lemma ix_ix : forall vs h i, 1 < vs -> h < vs -> i + 1 < vs -> ix vs (ix vs h 1) i = ix vs h (i + 1).
Proof.
  intros vs h i. unfold ix. destruct (N.ltb_spec (h + 1) vs).
  - destruct (N.ltb_spec (h + 1 + i) vs), (N.ltb_spec (h + (i + 1)) vs); lia.
  - destruct (N.ltb_spec (h + 1 - vs + i) vs), (N.ltb_spec (h + (i + 1)) vs); lia.
Qed.
Lemma invalid_val : forall q, pow_vs (q_vsize q) -> invalid q = q_vsize q + 1.
Proof. intros q P. unfold invalid, w32. apply vs_bound in P. apply N.mod_small. lia. Qed.
Lemma logical_ix : forall q i, pow_vs (q_vsize q) -> q_head q < q_vsize q -> i < q_vsize q ->
  logical q (ix (q_vsize q) (q_head q) i) = i.
Proof.
  intros q i P Hh Hi. unfold logical. rewrite invalid_val by auto. pose proof (ix_lt _ _ i Hh Hi).
  destruct (N.eqb_spec (ix (q_vsize q) (q_head q) i) (q_vsize q + 1)); [lia|].
  rewrite roll_mod by auto. rewrite sub_mod by auto. unfold ix in *.
  destruct (N.ltb_spec (q_head q + i) (q_vsize q)), (N.leb_spec (q_head q) (q_head q + i)); try lia.
  - destruct (N.leb_spec (q_head q) (q_head q + i - q_vsize q)); lia.
Qed.
Lemma logical_onto : forall q p, pow_vs (q_vsize q) -> q_head q < q_vsize q -> p < q_vsize q ->
  exists i, i < q_vsize q /\ p = ix (q_vsize q) (q_head q) i /\ logical q p = i.
Proof.
  intros q p P Hh Hp. exists (if q_head q <=? p then p - q_head q else p + q_vsize q - q_head q).
  assert (K : (if q_head q <=? p then p - q_head q else p + q_vsize q - q_head q) < q_vsize q) by (destruct (N.leb_spec (q_head q) p); lia).
  assert (E : p = ix (q_vsize q) (q_head q) (if q_head q <=? p then p - q_head q else p + q_vsize q - q_head q)).
  { unfold ix. destruct (N.leb_spec (q_head q) p).
    - destruct (N.ltb_spec (q_head q + (p - q_head q)) (q_vsize q)); lia.
    - destruct (N.ltb_spec (q_head q + (p + q_vsize q - q_head q)) (q_vsize q)); lia. }
  split; auto. split; auto. rewrite E at 1. apply logical_ix; auto.
Qed.

Record Inv q L : Prop := {
  I_vs : pow_vs (q_vsize q);
  I_n : 2 * q_entries q <= q_vsize q;
  I_n1 : 1 <= q_entries q;
  I_head : q_head q < q_vsize q;
  I_valid : q_valid q = N.of_nat (length L);
  I_len : q_valid q <= q_entries q;
  I_write : q_write q = ix (q_vsize q) (q_head q) (q_valid q);
  I_slot : forall i o a, nth_error L i = Some (o, a) ->
     q_slots q (ix (q_vsize q) (q_head q) (N.of_nat i)) = Slot (Some a) o
}.

(* Abstract queue of tagged elements. *)
Definition spec_step (n : N) (s : N * list (N * A)) (o : qop A) : option (N * list (N * A)) :=
  let (k, l) := s in
  match o with
  | Push a => if N.of_nat (length l) =? n then None else Some (w64 (k + 1), l ++ [(w64 (k + 1), a)])
  | Pop => match l with [] => None | _ :: r => Some (k, r) end
  | PopBack => match l with [] => None | _ => Some (k, removelast l) end
  | Clear => Some (k, [])
  end.

Lemma upd_eq : forall (s : N -> slot A) i x, upd s i x i = x.
Proof. intros. unfold upd. rewrite N.eqb_refl. reflexivity. Qed.
Lemma upd_neq : forall (s : N -> slot A) i x j, j <> i -> upd s i x j = s j.
Proof. intros. unfold upd. destruct (N.eqb_spec j i); congruence. Qed.

Lemma clear_loop_ok : forall q L, Inv q L -> forall fuel i s, N.of_nat i <= q_valid q ->
  (length L <= fuel + i)%nat ->
  exists s', clear_loop fuel q (ix (q_vsize q) (q_head q) (N.of_nat i)) s = Some s' /\
    forall p, oid_of (s' p) = oid_of (s p).
Proof.
  intros q L I. destruct I. induction fuel; intros i s Hi Hf; simpl.
  - assert (N.of_nat i = q_valid q) as -> by lia. rewrite I_write0, N.eqb_refl. eauto.
  - destruct (N.eqb_spec (ix (q_vsize q) (q_head q) (N.of_nat i)) (q_write q)); [eauto|].
    assert (N.of_nat i <> q_valid q) by (intros K; rewrite K in n; congruence).
    rewrite incr_ix by (auto; lia). replace (N.of_nat i + 1) with (N.of_nat (S i)) by lia.
    destruct (IHfuel (S i) (upd s (ix (q_vsize q) (q_head q) (N.of_nat i)) (destroy (s (ix (q_vsize q) (q_head q) (N.of_nat i)))))) as (s' & E & H').
    { lia. } { lia. }
    exists s'. split; auto. intros p. rewrite H'. unfold upd. destruct (N.eqb_spec p (ix (q_vsize q) (q_head q) (N.of_nat i))) as [->|]; auto.
    destruct (s _); reflexivity.
Qed.

Lemma nth_removelast : forall {B} (l : list B) i x, nth_error (removelast l) i = Some x <-> nth_error l i = Some x /\ (S i < length l)%nat.
Proof.
  induction l as [|y l IH]; intros i x; [destruct i; simpl; split; intros; [discriminate|easy|discriminate|easy]|].
  destruct l as [|z l].
  - simpl. destruct i; simpl; split; [discriminate|lia|destruct i; discriminate|lia].
  - change (removelast (y :: z :: l)) with (y :: removelast (z :: l)). destruct i.
    + simpl. split; [intros H; split; auto; lia|tauto].
    + simpl nth_error at 1. rewrite IH. simpl length. split; intros [H1 H2]; (split; [exact H1|lia]).
Qed.
Lemma len_removelast : forall {B} (l : list B), length (removelast l) = (length l - 1)%nat.
Proof.
  induction l as [|y l IH]; auto. destruct l; auto.
  change (removelast (y :: b :: l)) with (y :: removelast (b :: l)). simpl length in *. rewrite IH. lia.
Qed.

Definition same_shape q q' := q_entries q' = q_entries q /\ q_vsize q' = q_vsize q.

Lemma push_ok : forall q L a, Inv q L ->
  match q_push q a with
  | None => N.of_nat (length L) = q_entries q
  | Some (q', it) => N.of_nat (length L) <> q_entries q /\ Inv q' (L ++ [(w64 (q_oid q + 1), a)]) /\
     q_oid q' = w64 (q_oid q + 1) /\ same_shape q q' /\ q_head q' = q_head q /\
     it = new_iter (q_write q) (w64 (q_oid q + 1)) /\
     q_slots q' = upd (q_slots q) (q_write q) (Slot (Some a) (w64 (q_oid q + 1)))
  end.
Proof.
  intros q L a [V N2 N1 Hh Hv Hl Hw Hs]. unfold q_push. rewrite <- Hv.
  destruct (N.eqb_spec (q_valid q) (q_entries q)); auto.
  pose proof (vs_bound _ V).
  assert (Hvs : q_valid q < q_vsize q) by lia.
  pose proof (ix_lt _ _ _ Hh Hvs) as Hwl. rewrite <- Hw in Hwl.
  destruct (N.ltb_spec (q_vsize q) (q_write q)); [lia|].
  split; [lia|]. split; [|repeat split].
  assert (E1 : w32 (q_valid q + 1) = q_valid q + 1) by (unfold w32; apply N.mod_small; lia).
  constructor; cbn [q_entries q_write q_head q_valid q_vsize q_oid q_slots]; auto; rewrite ?E1.
  - rewrite app_length. simpl. lia.
  - lia.
  - rewrite Hw. change (mkQ _ _ _ _ _ _ _) with q. rewrite incr_ix by (auto; lia). reflexivity.
  - intros i o b Hi. destruct (Nat.lt_ge_cases i (length L)).
    + rewrite nth_error_app1 in Hi by auto. rewrite upd_neq; [auto|].
      rewrite Hw. intros K. apply ix_inj in K; auto; lia.
    + rewrite nth_error_app2 in Hi by auto.
      destruct (i - length L)%nat as [|m] eqn:Em; [|destruct m; discriminate]. injection Hi as <- <-.
      replace (N.of_nat i) with (q_valid q) by lia. rewrite Hw, upd_eq. reflexivity.
Qed.

Lemma pop_ok : forall q L, Inv q L ->
  match q_pop q with
  | None => L = []
  | Some q' => exists x r, L = x :: r /\ Inv q' r /\ q_oid q' = q_oid q /\ same_shape q q' /\
      q_head q' = ix (q_vsize q) (q_head q) 1 /\ forall p, oid_of (q_slots q' p) = oid_of (q_slots q p)
  end.
Proof.
  intros q L [V N2 N1 Hh Hv Hl Hw Hs]. unfold q_pop.
  destruct (N.eqb_spec (q_valid q) 0) as [E|E]; [destruct L; auto; simpl in *; lia|].
  destruct L as [|x r]; [simpl in *; lia|]. exists x, r. split; auto. pose proof (vs_bound _ V).
  assert (HH : incr q (q_head q) = ix (q_vsize q) (q_head q) 1) by (apply incr_head; auto; lia).
  simpl length in Hv.
  split; [|split; [reflexivity|split; [split; reflexivity|split; [exact HH|]]]].
  - constructor; cbn [q_entries q_write q_head q_valid q_vsize q_oid q_slots]; auto; rewrite ?HH.
    + apply ix_lt; lia.
    + lia.
    + lia.
    + rewrite ix_ix by lia. rewrite Hw. f_equal. lia.
    + intros i o a Hi. assert (i < length r)%nat by (apply nth_error_Some; congruence).
      rewrite ix_ix by lia. replace (N.of_nat i + 1) with (N.of_nat (S i)) by lia.
      rewrite upd_neq; [apply Hs; auto|]. rewrite <- (ix_0 (q_vsize q) (q_head q)) at 2 by auto.
      intros K. apply ix_inj in K; auto; lia.
  - cbn. intros p. unfold upd. destruct (N.eqb_spec p (q_head q)) as [->|]; auto. destruct (q_slots q (q_head q)); auto.
Qed.

Lemma pop_back_ok : forall q L, Inv q L ->
  match q_pop_back q with
  | None => L = []
  | Some q' => L <> [] /\ Inv q' (removelast L) /\ q_oid q' = q_oid q /\ same_shape q q' /\
      q_head q' = q_head q /\ forall p, oid_of (q_slots q' p) = oid_of (q_slots q p)
  end.
Proof.
  intros q L [V N2 N1 Hh Hv Hl Hw Hs]. unfold q_pop_back.
  destruct (N.eqb_spec (q_valid q) 0) as [E|E]; [destruct L; auto; simpl in *; lia|].
  pose proof (vs_bound _ V).
  assert (HW : decr q (q_write q) = ix (q_vsize q) (q_head q) (q_valid q - 1)).
  { rewrite Hw. replace (q_valid q) with (q_valid q - 1 + 1) at 1 by lia. apply decr_ix; auto; lia. }
  split; [destruct L; [simpl in *; lia|discriminate]|].
  split; [|split; [reflexivity|split; [split; reflexivity|split; [reflexivity|]]]].
  - constructor; cbn [q_entries q_write q_head q_valid q_vsize q_oid q_slots]; auto; rewrite ?HW; auto.
    + rewrite len_removelast. lia.
    + lia.
    + intros i o a Hi. apply nth_removelast in Hi. destruct Hi as [Hi Hlt]. rewrite upd_neq; auto.
      intros K. apply ix_inj in K; auto; lia.
  - cbn. intros p. unfold upd. destruct (N.eqb_spec p (decr q (q_write q))) as [->|]; auto. destruct (q_slots q (decr q (q_write q))); auto.
Qed.

Lemma clear_ok : forall q L, Inv q L ->
  exists q', q_clear q = Some q' /\ Inv q' [] /\ q_oid q' = q_oid q /\ same_shape q q' /\
     forall p, oid_of (q_slots q' p) = oid_of (q_slots q p).
Proof.
  intros q L I. unfold q_clear. pose proof I as I'. destruct I' as [V N2 N1 Hh Hv Hl Hw Hs].
  destruct (clear_loop_ok q L I (S (N.to_nat (q_vsize q))) 0 (q_slots q)) as (s & E & Ho); [simpl; lia|lia|].
  rewrite ix_0 in E by auto. rewrite E. eexists. split; [reflexivity|]. pose proof (vs_bound _ V).
  split; [|split; [reflexivity|split; [split; reflexivity|exact Ho]]].
  constructor; cbn [q_entries q_write q_head q_valid q_vsize q_slots]; auto; try lia; [rewrite ix_0 by lia; reflexivity|]. intros i o a Hi; destruct i; discriminate.
Qed.

Lemma step_ok : forall q L o, Inv q L ->
  match q_step q o, spec_step (q_entries q) (q_oid q, L) o with
  | Some q', Some (k', L') => Inv q' L' /\ q_oid q' = k' /\ same_shape q q'
  | None, None => True
  | _, _ => False
  end.
Proof.
  intros q L o I. destruct o; simpl.
  - pose proof (push_ok q L a I) as H. destruct (q_push q a) as [[q' it]|]; simpl.
    + destruct H as (H1 & H2 & H3 & H4 & _). destruct (N.eqb_spec (N.of_nat (length L)) (q_entries q)); [congruence|]. auto.
    + destruct (N.eqb_spec (N.of_nat (length L)) (q_entries q)); auto.
  - pose proof (pop_ok q L I) as H. destruct (q_pop q).
    + destruct H as (x & r & -> & H1 & H2 & H3 & _). auto.
    + subst L. auto.
  - pose proof (pop_back_ok q L I) as H. destruct (q_pop_back q).
    + destruct H as (H0 & H1 & H2 & H3 & _). destruct L; [congruence|]. auto.
    + subst L. auto.
  - destruct (clear_ok q L I) as (q' & -> & H1 & H2 & H3 & _). auto.
Qed.

Lemma init_vs : forall n, 1 <= n <= 2 ^ 30 -> pow_vs (next_pow2 (w32 (n * 2))) /\ 2 * n <= next_pow2 (w32 (n * 2)).
Proof.
  intros n Hn. assert (E : w32 (n * 2) = n * 2) by (unfold w32; apply N.mod_small; lia). rewrite E.
  unfold next_pow2. destruct (N.ltb_spec (n * 2) 2); [lia|].
  rewrite N.shiftl_1_l. assert (HS : N.size (n * 2 - 1) <= 31).
  { rewrite N.size_log2 by lia. assert (N.log2 (n * 2 - 1) < 31); [|lia]. apply N.log2_lt_pow2; lia. }
  assert (H1 : 2 ^ N.size (n * 2 - 1) <= 2 ^ 31) by (apply N.pow_le_mono_r; lia).
  unfold w32. rewrite N.mod_small by lia. split; [exists (N.size (n * 2 - 1)); auto|].
  pose proof (N.size_gt (n * 2 - 1)). lia.
Qed.

Lemma init_ok : forall n, 1 <= n <= 2 ^ 30 -> Inv (q_init n) [].
Proof.
  intros n Hn. destruct (init_vs n Hn) as [H1 H2]. pose proof (vs_bound _ H1).
  constructor; cbn [q_init q_entries q_write q_head q_valid q_vsize q_slots]; auto; try lia.
  - rewrite ix_0 by lia. reflexivity.
  - intros i o a H'. destruct i; discriminate.
Qed.

Fixpoint spec_run (n : N) (s : N * list (N * A)) (ops : list (qop A)) : option (N * list (N * A)) :=
  match ops with
  | [] => Some s
  | o :: r => match spec_step n s o with Some s' => spec_run n s' r | None => None end
  end.

Lemma run_ok : forall ops q L, Inv q L ->
  match q_run q ops, spec_run (q_entries q) (q_oid q, L) ops with
  | Some q', Some (k', L') => Inv q' L' /\ q_oid q' = k' /\ same_shape q q'
  | None, None => True
  | _, _ => False
  end.
Proof.
  induction ops as [|o ops IH]; intros q L I; [simpl; repeat split; auto; apply I|].
  cbn [q_run spec_run]. pose proof (step_ok q L o I) as H.
  destruct (q_step q o) as [q'|]; destruct (spec_step (q_entries q) (q_oid q, L) o) as [[k' L']|]; try easy.
  destruct H as (H1 & <- & H3 & H4). specialize (IH q' L' H1). rewrite H3 in IH.
  destruct (q_run q' ops); destruct (spec_run (q_entries q) (q_oid q', L') ops) as [[? ?]|]; auto.
  destruct IH as (I1 & I2 & I3 & I4). split; auto. split; auto. split; congruence.
Qed.

(* Observations. *)
Lemma read_ok : forall q L i, Inv q L -> q_read q (N.of_nat i) = option_map snd (nth_error L i).
Proof.
  intros q L i [V N2 N1 Hh Hv Hl Hw Hs]. unfold q_read. pose proof (vs_bound _ V).
  destruct (N.ltb_spec (N.of_nat i) (q_valid q)).
  - rewrite phys_ix by (auto; lia). destruct (nth_error L i) as [[o a]|] eqn:E.
    + rewrite (Hs i o a E). reflexivity.
    + apply nth_error_None in E. lia.
  - replace (nth_error L i) with (@None (N * A)); auto. symmetry. apply nth_error_None. lia.
Qed.
Lemma front_ok : forall q L, Inv q L -> q_front q = option_map snd (nth_error L 0).
Proof.
  intros q L I. rewrite <- (read_ok q L 0 I). destruct I as [V N2 N1 Hh Hv Hl Hw Hs].
  unfold q_front, q_read. simpl N.of_nat. destruct (N.eqb_spec (q_valid q) 0) as [->|]; auto.
  destruct (N.ltb_spec 0 (q_valid q)); [|lia]. rewrite phys_ix by (auto; lia). rewrite ix_0 by auto. reflexivity.
Qed.
Lemma back_ok : forall q L, Inv q L -> q_back q = option_map snd (nth_error L (length L - 1)).
Proof.
  intros q L I. rewrite <- (read_ok q L _ I). destruct I as [V N2 N1 Hh Hv Hl Hw Hs].
  unfold q_back, q_read. pose proof (vs_bound _ V).
  destruct (N.eqb_spec (q_valid q) 0) as [->|]; [destruct (N.ltb_spec (N.of_nat (length L - 1)) 0); [lia|auto]|].
  destruct (N.ltb_spec (N.of_nat (length L - 1)) (q_valid q)); [|lia]. rewrite phys_ix by (auto; lia).
  rewrite Hw. replace (q_valid q) with (q_valid q - 1 + 1) by lia. rewrite decr_ix by (auto; lia).
  repeat f_equal. lia.
Qed.
Lemma free_ok : forall q L, Inv q L -> q_free q = q_entries q - N.of_nat (length L).
Proof.
  intros q L [V N2 N1 Hh Hv Hl Hw Hs]. unfold q_free, w32. pose proof (vs_bound _ V).
  replace (q_entries q + 2 ^ 32 - q_valid q) with (q_entries q - q_valid q + 1 * 2 ^ 32) by lia.
  rewrite N.mod_add by lia. rewrite N.mod_small by lia. lia.
Qed.

(* Iterators. p: physical position, k: id. Ids do not wrap. *)
Definition ids_ok q := forall p o, oid_of (q_slots q p) = Some o -> o <= q_oid q.
Record ItInv q L (p k : N) : Prop := {
  T_p : p < q_vsize q;
  T_ge : exists o, oid_of (q_slots q p) = Some o /\ k <= o;
  T_k : k <= q_oid q;
  T_pos : forall i a, nth_error L i = Some (k, a) -> ix (q_vsize q) (q_head q) (N.of_nat i) = p
}.

Lemma step_it : forall q L o q' k' L' p k, Inv q L -> ids_ok q -> q_oid q + 1 < 2 ^ 64 ->
  q_step q o = Some q' -> spec_step (q_entries q) (q_oid q, L) o = Some (k', L') ->
  ids_ok q' /\ (ItInv q L p k -> ItInv q' L' p k).
Proof.
  intros q L o q' k' L' p k I HI HB HS HP. unfold ids_ok in *. destruct o; simpl in HS, HP.
  - pose proof (push_ok q L a I) as H. destruct (q_push q a) as [[q1 it]|]; [|discriminate]. injection HS as <-.
    destruct (N.eqb_spec (N.of_nat (length L)) (q_entries q)); [discriminate|]. injection HP as <- <-.
    destruct H as (H1 & H2 & H3 & [H4 H4'] & H5 & H6 & H7). rewrite H3, H7.
    assert (E : w64 (q_oid q + 1) = q_oid q + 1) by (apply N.mod_small; auto). rewrite E in *. split.
    + intros p0 o. unfold upd. destruct (N.eqb_spec p0 (q_write q)).
      * intros K. injection K as <-. lia.
      * intros K. apply HI in K. lia.
    + intros [Tp Tg Tk Ts]. constructor; auto.
      * lia.
      * rewrite H7. unfold upd. destruct (N.eqb_spec p (q_write q)); auto. exists (q_oid q + 1). split; auto. lia.
      * rewrite H3. lia.
      * intros i b Hi. rewrite H4', H5. destruct (Nat.lt_ge_cases i (length L)).
        -- rewrite nth_error_app1 in Hi by auto. eauto.
        -- rewrite nth_error_app2 in Hi by auto. destruct (i - length L)%nat as [|m]; [injection Hi; lia|destruct m; discriminate].
  - pose proof (pop_ok q L I) as H. rewrite HS in H. destruct H as (x & r & -> & H1 & H2 & [H3 H3'] & H4 & H5).
    injection HP as <- <-. rewrite H2. split.
    + intros p0 o. rewrite H5. apply HI.
    + intros [Tp Tg Tk Ts]. destruct I as [V N2 N1 Hh Hv Hl Hw Hs]. pose proof (vs_bound _ V). constructor.
      * congruence.
      * rewrite H5. auto.
      * congruence.
      * intros i a Hi. rewrite H3', H4. assert (i < length r)%nat by (apply nth_error_Some; congruence). simpl length in Hv.
        rewrite ix_ix by lia. replace (N.of_nat i + 1) with (N.of_nat (S i)) by lia. eauto.
  - pose proof (pop_back_ok q L I) as H. rewrite HS in H. destruct H as (H0 & H1 & H2 & [H3 H3'] & H4 & H5).
    destruct L as [|x r]; [congruence|]. injection HP as <- <-. rewrite H2. split.
    + intros p0 o. rewrite H5. apply HI.
    + intros [Tp Tg Tk Ts]. constructor.
      * congruence.
      * rewrite H5. auto.
      * congruence.
      * intros i a Hi. apply (nth_removelast (x :: r)) in Hi. rewrite H3', H4. destruct Hi. eauto.
  - destruct (clear_ok q L I) as (q1 & E & H1 & H2 & [H3 H3'] & H5). rewrite E in HS. injection HS as <-. injection HP as <- <-.
    rewrite H2. split.
    + intros p0 o. rewrite H5. apply HI.
    + intros [Tp Tg Tk Ts]. constructor.
      * congruence.
      * rewrite H5. auto.
      * congruence.
      * intros i a Hi. destruct i; discriminate.
Qed.

Definition pushes (ops : list (qop A)) : N := N.of_nat (length (filter (fun o => match o with Push _ => true | _ => false end) ops)).

Lemma run_it : forall ops q L q' k' L', Inv q L -> ids_ok q -> q_oid q + pushes ops < 2 ^ 64 ->
  q_run q ops = Some q' -> spec_run (q_entries q) (q_oid q, L) ops = Some (k', L') ->
  ids_ok q' /\ q_oid q' = q_oid q + pushes ops /\ (forall p k, ItInv q L p k -> ItInv q' L' p k).
Proof.
  induction ops as [|o ops IH]; intros q L q' k' L' I HI HB HS HP.
  - simpl in *. injection HS as <-. injection HP as <- <-. split; auto. split; auto. unfold pushes; simpl; lia.
  - cbn [q_run spec_run] in HS, HP. destruct (q_step q o) as [q1|] eqn:E1; [|discriminate].
    destruct (spec_step (q_entries q) (q_oid q, L) o) as [[k1 L1]|] eqn:E2; [|discriminate].
    pose proof (step_ok q L o I) as H. rewrite E1, E2 in H. destruct H as (H1 & <- & H3 & H4).
    assert (HO : q_oid q1 = q_oid q + pushes [o]).
    { destruct o; simpl in E2; unfold pushes; simpl.
      - destruct (N.of_nat (length L) =? q_entries q); [discriminate|]. injection E2 as E2 _. rewrite <- E2. apply N.mod_small.
        unfold pushes in HB. cbn [filter length] in HB. rewrite Nat2N.inj_succ in HB. lia.
      - destruct L; [discriminate|]. injection E2 as E2 _. lia.
      - destruct L; [discriminate|]. injection E2 as E2 _. lia.
      - injection E2 as E2 _. lia. }
    assert (HP2 : pushes (o :: ops) = pushes [o] + pushes ops) by (unfold pushes; destruct o; cbn [filter length]; lia).
    assert (HB' : q_oid q + 1 < 2 ^ 64 \/ pushes [o] = 0).
    { destruct o; auto. left. change (pushes [Push a]) with 1 in HP2. lia. }
    assert (X : ids_ok q1 /\ forall p k, ItInv q L p k -> ItInv q1 L1 p k).
    { destruct HB' as [HB'|HB'].
      - split; [eapply (step_it q L o q1 _ L1 0 0); eauto|]. intros p k. eapply step_it; eauto.
      - (* not a push: the bound is not needed *)
        destruct o; [unfold pushes in HB'; simpl in HB'; lia| | |].
        + pose proof (pop_ok q L I) as H. simpl in E1, E2. rewrite E1 in H. destruct H as (x & r & -> & K1 & K2 & [K3 K3'] & K4 & K5).
          injection E2 as _ <-. split; [intros p0 o; rewrite K5, K2; apply HI|].
          intros p k [Tp Tg Tk Ts]. destruct I as [V N2 N1 Hh Hv Hl Hw Hs]. pose proof (vs_bound _ V). constructor; try congruence.
          * rewrite K5. auto.
          * intros i a Hi. rewrite K3', K4. assert (i < length r)%nat by (apply nth_error_Some; congruence). simpl length in Hv.
            rewrite ix_ix by lia. replace (N.of_nat i + 1) with (N.of_nat (S i)) by lia. eauto.
        + pose proof (pop_back_ok q L I) as H. simpl in E1, E2. rewrite E1 in H. destruct H as (K0 & K1 & K2 & [K3 K3'] & K4 & K5).
          destruct L as [|x r]; [congruence|]. injection E2 as _ <-. split; [intros p0 o; rewrite K5, K2; apply HI|].
          intros p k [Tp Tg Tk Ts]. constructor; try congruence.
          * rewrite K5. auto.
          * intros i a Hi. apply (nth_removelast (x :: r)) in Hi. rewrite K3', K4. destruct Hi. eauto.
        + destruct (clear_ok q L I) as (q2 & E & K1 & K2 & [K3 K3'] & K5). simpl in E1, E2. rewrite E in E1. injection E1 as <-. injection E2 as _ <-.
          split; [intros p0 o; rewrite K5, K2; apply HI|]. intros p k [Tp Tg Tk Ts]. constructor; try congruence.
          * rewrite K5. auto.
          * intros i a Hi. destruct i; discriminate. }
    destruct X as [X1 X2]. rewrite <- H3 in HP.
    destruct (IH q1 L1 q' k' L' H1 X1 ltac:(lia) HS HP) as (Y1 & Y2 & Y3). split; auto. split; [lia|auto].
Qed.

(* Validity in a given state. *)
Lemma valid_iff : forall q L p k, Inv q L -> p < q_vsize q ->
  (it_valid q (mkIt p k) = true <-> exists i a, nth_error L i = Some (k, a) /\ ix (q_vsize q) (q_head q) (N.of_nat i) = p).
Proof.
  intros q L p k I Hp. pose proof I as [V N2 N1 Hh Hv Hl Hw Hs]. pose proof (vs_bound _ V). unfold it_valid. cbn [it_phys it_oid].
  rewrite invalid_val by auto. destruct (N.eqb_spec p (q_vsize q + 1)); [lia|].
  destruct (logical_onto q p V Hh Hp) as (i & Hi & E & EL). unfold valid_phys. rewrite EL. unfold q_empty.
  destruct (N.eqb_spec (q_valid q) 0).
  { split; [discriminate|]. intros (j & a & Hj & _). destruct L; [destruct j; discriminate|simpl in *; lia]. }
  destruct (N.ltb_spec i (q_valid q)).
  - destruct (nth_error L (N.to_nat i)) as [[o a]|] eqn:En; [|apply nth_error_None in En; lia].
    pose proof (Hs _ _ _ En) as Hsl. rewrite N2Nat.id, <- E in Hsl. rewrite Hsl. simpl.
    destruct (N.eqb_spec o k) as [->|Ho].
    + split; auto. intros _. exists (N.to_nat i), a. rewrite N2Nat.id. auto.
    + split; [discriminate|]. intros (j & b & Hj & Ej). exfalso. apply Hs in Hj. rewrite Ej in Hj. congruence.
  - split; [discriminate|]. intros (j & a & Hj & Ej). exfalso.
    assert (j < length L)%nat by (apply nth_error_Some; congruence). rewrite <- Ej in E. apply ix_inj in E; auto; lia.
Qed.

End P.
