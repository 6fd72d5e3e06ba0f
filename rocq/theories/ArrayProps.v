(** Properties C22 and C23: sparta::Array and sparta::FrontArray. *)
From Coq Require Import List NArith Arith Bool Lia Sorted.
From Verif Require Import PipeModel PipeProofs PipeProps ArrayModel ArrayProofs.
Import ListNotations.
Open Scope N_scope.

Section SPEC.
Context {A : Type}.
Implicit Types (a : arr A) (L : list (N * A)).

(* The entries, oldest write first, as the calls should leave them; None: the call is not legal. *)
Definition has (i : N) L : bool := existsb (fun e => fst e =? i) L.
Definition drop_entry (i : N) L : list (N * A) := filter (fun e => negb (fst e =? i)) L.
Definition indexes (n : N) : list N := map N.of_nat (seq 0 (N.to_nat n)).
Definition entries_step (n : N) L (o : aop A) : option (list (N * A)) :=
  match o with
  | AWrite i x => if i <? n then Some (drop_entry i L ++ [(i, x)]) else None
  | AErase i => if has i L then Some (drop_entry i L) else None
  | AClear => Some []
  | AWriteFront x => option_map (fun i => L ++ [(i, x)]) (find (fun i => negb (has i L)) (indexes n))
  | AWriteBack x => option_map (fun i => L ++ [(i, x)]) (find (fun i => negb (has i L)) (rev (indexes n)))
  end.
Fixpoint entries (n : N) L (ops : list (aop A)) : option (list (N * A)) :=
  match ops with [] => Some L | o :: r => match entries_step n L o with Some L' => entries n L' r | None => None end end.

Lemma has_in : forall i L, has i L = true <-> In i (map fst L).
Proof.
  intros. unfold has. rewrite existsb_exists, in_map_iff. split; intros (e & H1 & H2); exists e; [apply N.eqb_eq in H2; auto|].
  split; [auto|apply N.eqb_eq; auto].
Qed.
Lemma find_front : forall (f : N -> bool) k i, find f (map N.of_nat (seq i k)) = front_loop (fun j => negb (f j)) k (N.of_nat i).
Proof.
  induction k; intros i; auto. cbn [seq map find front_loop]. destruct (f (N.of_nat i)); auto. cbn [negb].
  replace (N.of_nat i + 1) with (N.of_nat (S i)) by lia. apply IHk.
Qed.
Lemma find_app' : forall {B} (f : B -> bool) l x, find f (l ++ [x]) = match find f l with Some y => Some y | None => if f x then Some x else None end.
Proof. induction l; intros; simpl; auto. destruct (f a); auto. Qed.
Lemma find_back : forall (f : N -> bool) k, find f (rev (map N.of_nat (seq 0 k))) = back_loop (fun j => negb (f j)) k.
Proof.
  induction k; auto. rewrite seq_S, map_app, rev_app_distr. simpl. destruct (f (N.of_nat k)); auto.
Qed.
Lemma loop_ext : forall (v w : N -> bool) k i, (forall j, v j = w j) -> front_loop v k i = front_loop w k i.
Proof. induction k; intros; simpl; auto. rewrite H. destruct (w i); auto. Qed.
Lemma bloop_ext : forall (v w : N -> bool) k, (forall j, v j = w j) -> back_loop v k = back_loop w k.
Proof. induction k; intros; simpl; auto. rewrite H. destruct (w (N.of_nat k)); auto. Qed.
Lemma valid_has : forall a L, AI a L -> forall i, a_valid a i = has i L.
Proof.
  intros a L I i. pose proof (I_valid _ _ I i) as H. rewrite <- has_in in H. destruct (a_valid a i), (has i L); auto; destruct H; intuition discriminate.
Qed.

Definition array_op (o : aop A) : bool := match o with AWriteFront _ | AWriteBack _ => false | _ => true end.
Lemma step_ok : forall a L o, AI a L -> a_next a + 1 < 2 ^ 64 -> (array_op o = true \/ a_n a <= 2 ^ 31) ->
  match a_step a o, entries_step (a_n a) L o with
  | Some a', Some L' => AI a' L' /\ a_next a' <= a_next a + 1 /\ a_n a' = a_n a /\ a_ty a' = a_ty a
  | None, None => True | _, _ => False end.
Proof.
  intros a L o I HX HO. destruct o as [i x|i| |x|x]; cbn [a_step entries_step].
  - pose proof (write_ok a L i x I HX) as K. destruct (a_write a i x) as [a'|].
    + destruct K as (H1 & H2 & H3 & H4 & H5). destruct (N.ltb_spec i (a_n a)); [|lia]. split; [exact H2|]. split; [lia|auto].
    + destruct (N.ltb_spec i (a_n a)); [lia|auto].
  - pose proof (erase_ok a L i I) as K. destruct (a_erase a i) as [a'|].
    + destruct K as (H1 & H2 & H3 & H4 & H5). apply has_in in H1. rewrite H1. split; [exact H2|]. split; [lia|auto].
    + destruct (has i L) eqn:E; auto. apply has_in in E. contradiction.
  - split; [eapply clear_ok; eauto|]. cbn. split; [lia|auto].
  - unfold fa_write_front, indexes. rewrite find_front. rewrite (loop_ext (fun j => negb (negb (has j L))) (a_valid a)) by (intros; rewrite (valid_has a L I), negb_involutive; auto).
    pose proof (front_loop_ok (a_valid a) (N.to_nat (a_n a)) 0) as F. change (N.of_nat 0) with 0. destruct (front_loop (a_valid a) (N.to_nat (a_n a)) 0) as [i|]; [|exact Logic.I].
    destruct F as (F1 & F2 & _). pose proof (write_ok a L i x I HX) as K. destruct (a_write a i x) as [a'|]; [|lia]. cbn [option_map snd].
    destruct K as (H1 & H2 & H3 & H4 & H5). rewrite without_notin in H2; [|intros K; apply (I_valid _ _ I) in K; congruence]. split; [exact H2|]. split; [lia|auto].
  - destruct HO as [HO|HO]; [discriminate|]. unfold fa_write_back, indexes. destruct (N.ltb_spec (2 ^ 31) (a_n a)); [lia|]. rewrite find_back.
    rewrite (bloop_ext (fun j => negb (negb (has j L))) (a_valid a)) by (intros; rewrite (valid_has a L I), negb_involutive; auto).
    pose proof (back_loop_ok (a_valid a) (N.to_nat (a_n a))) as F. destruct (back_loop (a_valid a) (N.to_nat (a_n a))) as [i|]; [|exact Logic.I].
    destruct F as (F1 & F2 & _). pose proof (write_ok a L i x I HX) as K. destruct (a_write a i x) as [a'|]; [|lia]. cbn [option_map snd].
    destruct K as (H1 & H2 & H3 & H4 & H5). rewrite without_notin in H2; [|intros K; apply (I_valid _ _ I) in K; congruence]. split; [exact H2|]. split; [lia|auto].
Qed.
Lemma run_ok : forall ops a L, AI a L -> a_next a + N.of_nat (length ops) < 2 ^ 64 -> (forallb array_op ops = true \/ a_n a <= 2 ^ 31) ->
  match a_run a ops, entries (a_n a) L ops with
  | Some a', Some L' => AI a' L' /\ a_n a' = a_n a /\ a_ty a' = a_ty a /\ a_next a' <= a_next a + N.of_nat (length ops)
  | None, None => True | _, _ => False end.
Proof.
  induction ops as [|o ops IH]; intros a L I HX HO; [simpl; split; auto; split; auto; split; auto; lia|]. cbn [a_run entries]. cbn [length] in *. rewrite Nat2N.inj_succ in *.
  assert (HO1 : array_op o = true \/ a_n a <= 2 ^ 31) by (destruct HO as [HO|HO]; auto; simpl in HO; apply andb_prop in HO; tauto).
  pose proof (step_ok a L o I ltac:(lia) HO1) as K. destruct (a_step a o) as [a'|], (entries_step (a_n a) L o) as [L'|]; try contradiction; auto.
  destruct K as (I' & HX' & En & Et). specialize (IH a' L' I' ltac:(lia)). rewrite En, Et in IH.
  destruct (a_run a' ops) as [a2|], (entries (a_n a) L' ops) as [L2|].
  2,3,4: apply IH; destruct HO as [HO|HO]; auto; simpl in HO; apply andb_prop in HO; tauto.
  destruct IH as (J1 & J2 & J3 & J4); [destruct HO as [HO|HO]; auto; simpl in HO; apply andb_prop in HO; tauto|].
  split; auto. split; auto. split; auto. lia.
Qed.
Lemma reach : forall n ty ops a, n < 2 ^ 32 -> N.of_nat (length ops) < 2 ^ 64 -> (forallb array_op ops = true \/ n <= 2 ^ 31) ->
  a_run (a_init n ty) ops = Some a -> exists L, entries n [] ops = Some L /\ AI a L /\ a_n a = n /\ a_ty a = ty /\ a_next a <= N.of_nat (length ops).
Proof.
  intros n ty ops a Hn Hl HO H. pose proof (run_ok ops (a_init n ty) [] (init_AI n ty Hn) Hl HO) as K. rewrite H in K.
  cbn [a_n a_init] in K. destruct (entries n [] ops) as [L|]; [|contradiction]. exists L. destruct K as (K1 & K2 & K3 & K4). auto.
Qed.

(** The entries of an array are exactly those written and not erased, cleared or overwritten since; each call
    fails exactly when it writes outside the array or erases an invalid entry. *)
Theorem C22_entries : forall n ty (ops : list (aop A)), n < 2 ^ 32 -> N.of_nat (length ops) < 2 ^ 64 -> forallb array_op ops = true ->
  match a_run (a_init n ty) ops, entries n [] ops with
  | Some a, Some L => (forall i, a_isvalid a i = has i L) /\ (forall i x, In (i, x) L <-> a_read a i = Some x) /\
                      a_numvalid a = N.of_nat (length L) /\ NoDup (map fst L)
  | None, None => True
  | _, _ => False end.
Proof.
  intros n ty ops Hn Hl HO. pose proof (run_ok ops (a_init n ty) [] (init_AI n ty Hn) Hl (or_introl HO)) as K. cbn [a_n a_init] in K.
  change (mkA n ty (fun _ : N => false) 0 [] (fun _ : N => None) (fun _ : N => 0) (fun _ : N => 0) 0 0 0) with (a_init (A := A) n ty) in K.
  destruct (a_run (a_init n ty) ops) as [a|], (entries n [] ops) as [L|]; auto. destruct K as (I & _).
  split; [apply valid_has; auto|]. split; [|split; apply I]. intros i x. unfold a_read. split.
  - intros H. assert (V : a_valid a i = true) by (apply (I_valid _ _ I), in_map_iff; exists (i, x); auto). rewrite V. apply (I_data _ _ I); auto.
  - intros H. destruct (a_valid a i) eqn:V; [|discriminate]. apply (I_valid _ _ I), in_map_iff in V as ([j y] & E & Hy). cbn in E. subst j.
    rewrite (I_data _ _ I i y Hy) in H. injection H as <-. auto.
Qed.

(** Age order of an aged array: the k-th oldest and k-th youngest entry, the age and the next oldest entry are
    those of the sequence of entries in order of their writes. *)
Theorem C22_age_order : forall n (ops : list (aop A)) a, n < 2 ^ 32 -> N.of_nat (length ops) < 2 ^ 64 -> forallb array_op ops = true ->
  a_run (a_init n true) ops = Some a -> exists L, entries n [] ops = Some L /\
  (forall k, a_oldest a (N.of_nat k) = nth_error (map fst L) k) /\
  (forall k, a_youngest a (N.of_nat k) = nth_error (rev (map fst L)) k) /\
  (forall k i, nth_error (map fst L) k = Some i -> a_age a i = Some (N.of_nat k) /\ a_next_oldest a i = nth_error (map fst L) (S k)).
Proof.
  intros n ops a Hn Hl HO H. destruct (reach n true ops a Hn Hl (or_introl HO) H) as (L & E & I & En & Et & _). exists L. split; auto.
  split; [intros; apply oldest_ok; auto|]. split; [intros; apply youngest_ok; auto|]. intros k i Hk. split; [|apply next_oldest_ok; auto].
  unfold a_age. rewrite Et. assert (V : a_valid a i = true) by (apply (I_valid _ _ I); eapply nth_error_In; eauto). rewrite V. cbn [andb].
  f_equal. apply (I_rel _ _ I); auto.
Qed.

Lemma SS_pos : forall (f : N -> N) l j k x y, StronglySorted N.lt (map f l) -> nth_error l j = Some x -> nth_error l k = Some y -> (j < k)%nat -> f x < f y.
Proof.
  induction l as [|z l IH]; intros j k x y H Hj Hk HL; [destruct j; discriminate|]. simpl in H. inversion H; subst. destruct k as [|k]; [lia|].
  destruct j as [|j]; simpl in *.
  - injection Hj as ->. rewrite Forall_forall in H3. apply H3, in_map. eapply nth_error_In; eauto.
  - eapply IH; eauto. lia.
Qed.
(** isOlder and isYounger of two valid entries agree with the order of their last writes. *)
Theorem C22_older : forall n ty (ops : list (aop A)) a L j k x y, n < 2 ^ 32 -> N.of_nat (length ops) < 2 ^ 64 -> forallb array_op ops = true ->
  a_run (a_init n ty) ops = Some a -> entries n [] ops = Some L ->
  nth_error (map fst L) j = Some x -> nth_error (map fst L) k = Some y -> j <> k ->
  a_is_older a x y = Some (j <? k)%nat /\ a_is_younger a x y = Some (k <? j)%nat.
Proof.
  intros n ty ops a L j k x y Hn Hl HO H HE Hj Hk NE. destruct (reach n ty ops a Hn Hl (or_introl HO) H) as (L' & E & I & En & Et & _).
  assert (L' = L) by congruence. subst L'. unfold a_is_older, a_is_younger.
  assert (x <> y) by (intros ->; apply NE; eapply nth_nodup; eauto; apply I).
  assert (x < a_n a) by (apply (I_lt _ _ I); eapply nth_error_In; eauto). assert (y < a_n a) by (apply (I_lt _ _ I); eapply nth_error_In; eauto).
  destruct (N.eqb_spec x y); [contradiction|]. destruct (N.ltb_spec x (a_n a)); [|lia]. destruct (N.ltb_spec y (a_n a)); [|lia]. cbn [negb andb].
  pose proof (I_abs _ _ I) as SS. destruct (Nat.lt_ge_cases j k) as [HL|HL].
  - pose proof (SS_pos _ _ _ _ _ _ SS Hj Hk HL). split; f_equal.
    + destruct (Nat.ltb_spec j k), (N.ltb_spec (a_abs a x) (a_abs a y)); lia.
    + destruct (Nat.ltb_spec k j), (N.ltb_spec (a_abs a y) (a_abs a x)); lia.
  - pose proof (SS_pos _ _ _ _ _ _ SS Hk Hj ltac:(lia)). split; f_equal.
    + destruct (Nat.ltb_spec j k), (N.ltb_spec (a_abs a x) (a_abs a y)); lia.
    + destruct (Nat.ltb_spec k j), (N.ltb_spec (a_abs a y) (a_abs a x)); lia.
Qed.

(** Iterating from abegin() to aend() visits every valid entry once, oldest first. *)
Theorem C22_walk : forall n (ops : list (aop A)) a fuel, n + 1 < 2 ^ 32 -> N.of_nat (length ops) < 2 ^ 64 -> forallb array_op ops = true ->
  a_run (a_init n true) ops = Some a -> (N.to_nat n + 1 < fuel)%nat -> exists L, entries n [] ops = Some L /\ a_walk fuel a = Some (map fst L).
Proof.
  intros n ops a fuel Hn Hl HO H HF. destruct (reach n true ops a ltac:(lia) Hl (or_introl HO) H) as (L & E & I & En & Et & _). exists L. split; auto.
  unfold a_walk, a_abegin. rewrite (I_nv _ _ I). pose proof (AI_len _ _ I). destruct (N.eqb_spec (N.of_nat (length L)) 0) as [EL|EL].
  - destruct L; [|discriminate]. destruct fuel; [lia|]. cbn [a_walk_from]. rewrite N.eqb_refl. reflexivity.
  - rewrite (oldest_ok a L 0 I Et : a_oldest a 0 = _). destruct (nth_error (map fst L) 0) as [i|] eqn:Ei.
    + rewrite (walk_from a L I Et ltac:(lia) (length L - 1) 0 i fuel Ei) by lia. reflexivity.
    + apply nth_error_None in Ei. rewrite map_length in Ei. lia.
Qed.

(* Objects. *)
Fixpoint no_overwrite a (ops : list (aop A)) : Prop :=
  match ops with
  | [] => True
  | o :: r => match o with AWrite i _ => a_isvalid a i = false | _ => True end /\ match a_step a o with Some a' => no_overwrite a' r | None => True end
  end.
Lemma count_valid : forall a L, AI a L -> length (filter (fun j => a_valid a (N.of_nat j)) (seq 0 (N.to_nat (a_n a)))) = length L.
Proof.
  intros a L I. rewrite <- (map_length fst L), <- (map_length N.to_nat (map fst L)). apply Nat.le_antisymm; apply NoDup_incl_length.
  - apply NoDup_filter, seq_NoDup.
  - intros j Hj. apply filter_In in Hj as [Hj HV]. apply (I_valid _ _ I) in HV. rewrite <- (Nat2N.id j). apply in_map; auto.
  - apply NoDup_map_in; [intros; lia|apply I].
  - intros j Hj. apply in_map_iff in Hj as (i & <- & Hi). apply filter_In. rewrite N2Nat.id. split; [apply in_seq; specialize (I_lt _ _ I i Hi); lia|]. apply (I_valid _ _ I); auto.
Qed.
Lemma objects_inv : forall ops a L a', AI a L -> a_next a + N.of_nat (length ops) < 2 ^ 64 -> (forallb array_op ops = true \/ a_n a <= 2 ^ 31) ->
  a_run a ops = Some a' -> no_overwrite a ops -> a_cons a = a_dest a + a_nv a -> a_cons a' = a_dest a' + a_nv a'.
Proof.
  induction ops as [|o ops IH]; intros a L a' I HX HO H HN HC; simpl in H; [injection H as <-; auto|]. cbn [length] in HX. rewrite Nat2N.inj_succ in HX.
  destruct (a_step a o) as [a1|] eqn:E; [|discriminate]. destruct HN as [HN1 HN2]. rewrite E in HN2.
  assert (HO1 : array_op o = true \/ a_n a <= 2 ^ 31) by (destruct HO as [HO|HO]; auto; simpl in HO; apply andb_prop in HO; tauto).
  pose proof (step_ok a L o I ltac:(lia) HO1) as K. rewrite E in K. destruct (entries_step (a_n a) L o) as [L1|] eqn:ES; [|contradiction]. destruct K as (I1 & HX1 & En & _).
  eapply (IH a1 L1); eauto; [lia|rewrite En; destruct HO as [HO|HO]; auto; simpl in HO; apply andb_prop in HO; tauto|].
  pose proof (AI_len _ _ I) as HL. pose proof (AI_len _ _ I1) as HL1. pose proof (I_nv _ _ I) as NV. pose proof (I_nv _ _ I1) as NV1. pose proof (I_n _ _ I).
  assert (KW : forall i x a2, a_write a i x = Some a2 -> a_valid a i = false -> a_cons a2 = a_cons a + 1 /\ a_dest a2 = a_dest a /\ a_nv a2 = inc32 (a_nv a)).
  { intros i x a2 W V. unfold a_write in W. rewrite V in W. destruct (i <? a_n a); [|discriminate]. destruct (a_ty a); cbv zeta in W.
    - destruct (update_rel _ _ _); [|discriminate]. injection W as <-. auto.
    - injection W as <-. auto. }
  assert (KL : forall i x, a_write a i x = Some a1 -> a_valid a i = false -> N.of_nat (length L) + 1 <= a_n a).
  { intros i x W V. pose proof (write_ok a L i x I ltac:(lia)) as KK. rewrite W in KK. destruct KK as (_ & I2 & _ & En2 & _).
    rewrite without_notin in I2 by (intros Q; apply (I_valid _ _ I) in Q; congruence). pose proof (AI_len _ _ I2) as Q. rewrite app_length in Q. simpl in Q. lia. }
  destruct o as [i x|i| |x|x]; cbn [a_step] in E.
  - pose proof (KL i x E HN1). destruct (KW i x a1 E HN1) as (-> & -> & ->). rewrite inc_s by lia. lia.
  - unfold a_erase in E. destruct (a_valid a i) eqn:V; [|discriminate]. destruct (N.ltb_spec 0 (a_nv a)); [|discriminate]. cbv zeta in E.
    assert (Q : a_cons a1 = a_cons a /\ a_dest a1 = a_dest a + 1 /\ a_nv a1 = dec32 (a_nv a)).
    { destruct (a_ty a); [destruct (update_rel _ _ _); [|discriminate]|]; injection E as <-; auto. }
    destruct Q as (-> & -> & ->). rewrite dec_s by lia. lia.
  - injection E as <-. cbn. rewrite (count_valid a L I). lia.
  - unfold fa_write_front in E. pose proof (front_loop_ok (a_valid a) (N.to_nat (a_n a)) 0) as F. destruct (front_loop _ _ _) as [i|]; [|discriminate].
    destruct F as (_ & V & _). destruct (a_write a i x) as [a2|] eqn:W; [|discriminate]. injection E as E. subst a2.
    pose proof (KL i x W V). destruct (KW i x a1 W V) as (-> & -> & ->). rewrite inc_s by lia. lia.
  - unfold fa_write_back in E. destruct (_ <? _); [discriminate|]. pose proof (back_loop_ok (a_valid a) (N.to_nat (a_n a))) as F. destruct (back_loop _ _) as [i|]; [|discriminate].
    destruct F as (_ & V & _). destruct (a_write a i x) as [a2|] eqn:W; [|discriminate]. injection E as E. subst a2.
    pose proof (KL i x W V). destruct (KW i x a1 W V) as (-> & -> & ->). rewrite inc_s by lia. lia.
Qed.
(** Stored objects: as long as no write goes to a valid entry, every object ever constructed is either still
    in a valid entry or was destroyed once. *)
Theorem C22_objects_partial : forall n ty (ops : list (aop A)) a, n < 2 ^ 32 -> N.of_nat (length ops) < 2 ^ 64 -> forallb array_op ops = true ->
  a_run (a_init n ty) ops = Some a -> no_overwrite (a_init n ty) ops -> a_cons a = a_dest a + a_numvalid a.
Proof.
  intros n ty ops a Hn Hl HO H HN. eapply (objects_inv ops (a_init n ty) [] a); eauto. apply init_AI; auto.
Qed.

(** writeFront takes the lowest free index, writeBack the highest; both fail exactly when the array is full.
    Everything else is as for Array. *)
Theorem C23_write_partial : forall n ty (ops : list (aop A)) a x, n <= 2 ^ 31 -> N.of_nat (length ops) + 1 < 2 ^ 64 ->
  a_run (a_init n ty) ops = Some a ->
  match fa_write_front a x with
  | Some (i, a') => i < n /\ a_isvalid a i = false /\ (forall j, j < i -> a_isvalid a j = true) /\
                    a_read a' i = Some x /\ forall j, j <> i -> a_isvalid a' j = a_isvalid a j /\ a_read a' j = a_read a j
  | None => forall j, j < n -> a_isvalid a j = true end /\
  match fa_write_back a x with
  | Some (i, a') => i < n /\ a_isvalid a i = false /\ (forall j, i < j < n -> a_isvalid a j = true) /\
                    a_read a' i = Some x /\ forall j, j <> i -> a_isvalid a' j = a_isvalid a j /\ a_read a' j = a_read a j
  | None => forall j, j < n -> a_isvalid a j = true end.
Proof.
  intros n ty ops a x Hn Hl H. destruct (reach n ty ops a ltac:(lia) ltac:(lia) (or_intror Hn) H) as (L & E & I & En & Et & HX).
  assert (KW : forall i, i < n -> exists a', a_write a i x = Some a' /\ a_read a' i = Some x /\ forall j, j <> i -> a_isvalid a' j = a_isvalid a j /\ a_read a' j = a_read a j).
  { intros i Hi. unfold a_write. rewrite En. destruct (N.ltb_spec i n); [|lia]. cbv zeta.
    assert (W := write_ok a L i x I ltac:(lia)). unfold a_write in W. rewrite En in W. destruct (N.ltb_spec i n); [|lia]. cbv zeta in W. destruct (a_ty a).
    - destruct (update_rel _ _ _); [|cbn in W; lia]. cbn [option_map]. eexists. split; [reflexivity|]. unfold a_read, a_isvalid, at_upd. cbn. rewrite N.eqb_refl. split; auto.
      intros j Hj. destruct (N.eqb_spec j i); [contradiction|auto].
    - eexists. split; [reflexivity|]. unfold a_read, a_isvalid, at_upd. cbn. rewrite N.eqb_refl. split; auto.
      intros j Hj. destruct (N.eqb_spec j i); [contradiction|auto]. }
  split.
  - unfold fa_write_front. pose proof (front_loop_ok (a_valid a) (N.to_nat (a_n a)) 0) as F. rewrite En in *. rewrite N2Nat.id in F.
    destruct (front_loop _ _ _) as [i|]; [|intros; apply F; lia]. destruct F as (F1 & F2 & F3). destruct (KW i ltac:(lia)) as (a' & -> & K1 & K2). cbn [option_map].
    split; [lia|]. split; auto. split; auto. intros; apply F3; lia.
  - unfold fa_write_back. rewrite En. destruct (N.ltb_spec (2 ^ 31) n); [lia|]. pose proof (back_loop_ok (a_valid a) (N.to_nat n)) as F. rewrite N2Nat.id in F.
    destruct (back_loop _ _) as [i|]; [|intros; apply F; lia]. destruct F as (F1 & F2 & F3). destruct (KW i ltac:(lia)) as (a' & -> & K1 & K2). cbn [option_map].
    split; [lia|]. split; auto.
Qed.

(* The n-th valid entry, counted from index 0. *)
Definition nth_valid a (nth : N) : option N := nth_error (filter (a_isvalid a) (indexes (a_n a))) (N.to_nat nth).
Lemma rv_ok : forall valid nth m i fuel, nth < 2 ^ 31 -> (forall j, j <= nth -> valid j = true) -> i + N.of_nat m = nth + 1 -> (m < fuel)%nat ->
  rv_loop fuel valid nth i i = Some (nth + 1).
Proof.
  induction m; intros i fuel HN HV HI HF; (destruct fuel; [lia|]); cbn [rv_loop].
  - destruct (N.leb_spec i nth); [lia|]. f_equal. lia.
  - destruct (N.leb_spec i nth); [|lia]. rewrite HV by lia. rewrite N.mod_small by lia. apply IHm; auto; lia.
Qed.
Lemma filter_prefix : forall (f : N -> bool) k m i, (forall j, (j <= k)%nat -> f (N.of_nat (i + j)) = true) -> (k < m)%nat ->
  nth_error (filter f (map N.of_nat (seq i m))) k = Some (N.of_nat (i + k)).
Proof.
  intros f k. induction k; intros m i H HM; (destruct m; [lia|]); cbn [seq map filter].
  - specialize (H 0%nat ltac:(lia)). rewrite Nat.add_0_r in *. rewrite H. reflexivity.
  - pose proof (H 0%nat ltac:(lia)) as H0. rewrite Nat.add_0_r in H0. rewrite H0. cbn [nth_error]. rewrite IHk by (auto; try lia; intros j Hj; replace (S i + j)%nat with (i + S j)%nat by lia; apply H; lia).
    f_equal. f_equal. lia.
Qed.
(** readValid(n) returns the n-th valid entry, if the entries 0..n are all valid. *)
Theorem C23_read_valid_partial : forall n ty (ops : list (aop A)) a nth fuel, n <= 2 ^ 31 -> N.of_nat (length ops) < 2 ^ 64 ->
  a_run (a_init n ty) ops = Some a -> (forall j, j <= nth -> a_isvalid a j = true) -> (N.to_nat nth + 1 < fuel)%nat ->
  nth_valid a nth = Some nth /\ fa_read_valid fuel a nth = a_read a nth /\ a_read a nth <> None.
Proof.
  intros n ty ops a nth fuel Hn Hl H HV HF. destruct (reach n ty ops a ltac:(lia) ltac:(lia) (or_intror Hn) H) as (L & E & I & En & Et & HX).
  assert (Hnth : nth < n). { rewrite <- En. apply (I_lt _ _ I), (I_valid _ _ I), HV. lia. }
  assert (HNV : nth < a_nv a).
  { rewrite (I_nv _ _ I), <- (count_valid a L I), En. assert (K := filter_prefix (a_isvalid a) (N.to_nat nth) (N.to_nat n) 0).
    assert (K' : nth_error (filter (a_isvalid a) (map N.of_nat (seq 0 (N.to_nat n)))) (N.to_nat nth) = Some (N.of_nat (0 + N.to_nat nth))) by (apply K; [intros; apply HV; lia|lia]).
    assert (Q : (N.to_nat nth < length (filter (a_isvalid a) (map N.of_nat (seq 0 (N.to_nat n)))))%nat) by (apply nth_error_Some; congruence).
    rewrite <- (filter_map_len N.of_nat (a_isvalid a)) in Q. unfold a_isvalid in Q. lia. }
  split; [|split].
  - unfold nth_valid, indexes. rewrite En, (filter_prefix (a_isvalid a) (N.to_nat nth)) by (intros; try apply HV; lia). f_equal. lia.
  - unfold fa_read_valid. rewrite En. destruct (N.ltb_spec nth n); [|lia]. destruct (N.ltb_spec nth (a_nv a)); [|lia]. cbn [andb].
    rewrite (rv_ok (a_valid a) nth (N.to_nat (nth + 1)) 0) by (auto; lia). destruct (N.ltb_spec 0 (nth + 1)); [|lia]. f_equal. lia.
  - assert (V : In nth (map fst L)) by (apply (I_valid _ _ I), HV; lia). apply in_map_iff in V as ([i x] & Ei & Hi). cbn in Ei. subst i.
    unfold a_read. pose proof (HV nth ltac:(lia)) as V. unfold a_isvalid in V. rewrite V. rewrite (I_data _ _ I nth x Hi). discriminate.
Qed.
Lemma rv_hang : forall fuel valid nth n i, n <= nth -> valid n = false -> rv_loop fuel valid nth n i = None.
Proof. induction fuel; intros; auto. cbn [rv_loop]. destruct (N.leb_spec n nth); [|lia]. rewrite H0. apply IHfuel; auto. Qed.
End SPEC.
Print Assumptions C22_entries.
Print Assumptions C22_age_order.
Print Assumptions C22_older.
Print Assumptions C22_walk.
Print Assumptions C22_objects_partial.
Print Assumptions C23_write_partial.
Print Assumptions C23_read_valid_partial.

(** Overwriting an entry loses the old object: it is never destroyed. *)
Theorem C22_objects_refuted : exists (ops : list (aop N)) a, a_run (a_init 4 true) ops = Some a /\
  a_numvalid a = 0 /\ a_cons a = 2 /\ a_dest a = 1.
Proof.
  exists [AWrite 0 7; AWrite 0 8; AErase 0]. eexists. split; [vm_compute; reflexivity|]. split; [|split]; vm_compute; reflexivity.
Qed.
Print Assumptions C22_objects_refuted.
(** readValid does not return when an entry below the wanted one is not valid: with only entry 1 valid,
    readValid(0) passes both its assertions and its loop runs for ever. *)
Theorem C23_read_valid_refuted : exists (ops : list (aop N)) a, a_run (a_init 4 true) ops = Some a /\
  nth_valid a 0 = Some 1 /\ a_read a 1 = Some 7 /\ (0 <? a_n a) && (0 <? a_numvalid a) = true /\
  forall fuel, rv_loop fuel (a_valid a) 0 0 0 = None.
Proof.
  exists [AWrite 1 7]. eexists. split; [vm_compute; reflexivity|]. split; [vm_compute; reflexivity|]. split; [vm_compute; reflexivity|].
  split; [vm_compute; reflexivity|]. intros. apply rv_hang; [vm_compute; discriminate|vm_compute; reflexivity].
Qed.
Print Assumptions C23_read_valid_refuted.
(** writeBack fails on an empty array of more than 2^31 entries. *)
Theorem C23_write_back_refuted : exists n, n < 2 ^ 32 /\ forall x : N, fa_write_back (a_init n true) x = None /\ forall i, a_isvalid (a_init (A := N) n true) i = false.
Proof. exists (2 ^ 31 + 1). split; [vm_compute; reflexivity|]. intros x. split; [reflexivity|reflexivity]. Qed.
Print Assumptions C23_write_back_refuted.

(* Concrete cases. *)
Definition ex_ops : list (aop N) := [AWrite 2 20; AWrite 0 30; AWrite 3 40; AWrite 0 31; AErase 3; AWrite 1 50].
Example C22_entries_ex : entries 4 [] ex_ops = Some [(2, 20); (0, 31); (1, 50)] /\
  match a_run (a_init 4 true) ex_ops with Some a => map (a_read a) [0; 1; 2; 3] | None => [] end = [Some 31; Some 50; Some 20; None].
Proof. split; vm_compute; reflexivity. Qed.
Example C22_age_order_ex : match a_run (a_init 4 true) ex_ops with
  Some a => (map (a_oldest a) [0; 1; 2; 3], map (a_youngest a) [0; 1; 2], map (a_age a) [2; 0; 1; 3], a_next_oldest a 0) | None => ([], [], [], None) end
  = ([Some 2; Some 0; Some 1; None], [Some 1; Some 0; Some 2], [Some 0; Some 1; Some 2; None], Some 1).
Proof. vm_compute. reflexivity. Qed.
Example C22_older_ex : match a_run (a_init 4 true) ex_ops with Some a => (a_is_older a 2 0, a_is_older a 0 2, a_is_younger a 1 0) | None => (None, None, None) end
  = (Some true, Some false, Some true).
Proof. vm_compute. reflexivity. Qed.
Example C22_walk_ex : match a_run (a_init 4 true) ex_ops with Some a => a_walk 6 a | None => None end = Some [2; 0; 1].
Proof. vm_compute. reflexivity. Qed.
Example C22_objects_ex : no_overwrite (a_init 4 true) [AWrite 1 5; AErase 1; AWrite 1 6; AWrite 2 7; AClear; AWrite 3 1].
Proof. cbn. repeat split; reflexivity. Qed.
Example C23_write_ex : match a_run (a_init 4 true) [AWriteFront 1; AWriteBack 2; AWriteFront 3; AErase 0; AWriteFront 4; AWriteBack 5] with
  Some a => (map (a_read a) [0; 1; 2; 3], fa_write_front a 9) | None => ([], None) end = ([Some 4; Some 3; Some 5; Some 2], None).
Proof. vm_compute. reflexivity. Qed.
Example C23_read_valid_ex : match a_run (a_init 4 true) [AWriteFront 10; AWriteFront 11; AWriteBack 12] with
  Some a => (fa_read_valid 9 a 1, nth_valid a 1) | None => (None, None) end = (Some 11, Some 1).
Proof. vm_compute. reflexivity. Qed.
