(** Properties C16 and C17: sparta::Queue. *)
From Coq Require Import List NArith Arith Bool Lia.
From Verif Require Import QueueModel QueueProofs.
Import ListNotations.
Open Scope N_scope.

Section SPEC.
Context {A : Type}.
(* A FIFO list of at most n elements; None: the call is not legal. *)
Definition fifo_step (n : N) (l : list A) (o : qop A) : option (list A) :=
  match o with
  | Push a => if N.of_nat (length l) =? n then None else Some (l ++ [a])
  | Pop => match l with [] => None | _ :: r => Some r end
  | PopBack => match l with [] => None | _ => Some (removelast l) end
  | Clear => Some []
  end.
Fixpoint fifo (n : N) (l : list A) (ops : list (qop A)) : option (list A) :=
  match ops with [] => Some l | o :: r => match fifo_step n l o with Some l' => fifo n l' r | None => None end end.

(* The same with every element labelled by the number of its push (1, 2, ...). *)
Fixpoint labelled (n k : N) (l : list (N * A)) (ops : list (qop A)) : option (list (N * A)) :=
  match ops with
  | [] => Some l
  | Push a :: r => if N.of_nat (length l) =? n then None else labelled n (k + 1) (l ++ [(k + 1, a)]) r
  | Pop :: r => match l with [] => None | _ :: l' => labelled n k l' r end
  | PopBack :: r => match l with [] => None | _ => labelled n k (removelast l) r end
  | Clear :: r => labelled n k [] r
  end.
Definition contents (n : N) (ops : list (qop A)) : option (list (N * A)) := labelled n 0 [] ops.

Lemma map_removelast : forall {B C} (f : B -> C) l, map f (removelast l) = removelast (map f l).
Proof.
  induction l as [|x l IH]; auto. destruct l as [|y l]; auto. cbn [removelast map] in *. rewrite IH. reflexivity.
Qed.

Lemma spec_fifo : forall ops n k L,
  match spec_run n (k, L) ops, fifo n (map snd L) ops with
  | Some (_, L'), Some l' => l' = map snd L' | None, None => True | _, _ => False end.
Proof.
  induction ops as [|o ops IH]; intros n k L; [simpl; auto|]. cbn [spec_run fifo]. destruct o; cbn [spec_step fifo_step].
  - rewrite map_length. destruct (N.of_nat (length L) =? n); auto.
    specialize (IH n (w64 (k + 1)) (L ++ [(w64 (k + 1), a)])). rewrite map_app in IH. exact IH.
  - destruct L as [|x L]; [simpl; auto|]. apply (IH n k L).
  - destruct L as [|x L]; [simpl; auto|]. specialize (IH n k (removelast (x :: L))). rewrite map_removelast in IH. exact IH.
  - apply (IH n k []).
Qed.

Lemma spec_labelled : forall ops n k L, k + pushes ops < 2 ^ 64 ->
  match spec_run n (k, L) ops, labelled n k L ops with
  | Some (_, L'), Some l' => l' = L' | None, None => True | _, _ => False end.
Proof.
  induction ops as [|o ops IH]; intros n k L HB; [simpl; auto|]. cbn [spec_run labelled]. destruct o; cbn [spec_step].
  - assert (E : w64 (k + 1) = k + 1 /\ k + 1 + pushes ops < 2 ^ 64).
    { unfold pushes in *. cbn [filter length] in HB. rewrite Nat2N.inj_succ in HB. split; [apply N.mod_small|]; lia. }
    destruct E as [E1 E2]. destruct (N.of_nat (length L) =? n); auto. rewrite E1. apply IH. auto.
  - destruct L as [|x L]; [exact Logic.I|]. apply IH; auto.
  - destruct L as [|x L]; [exact Logic.I|]. apply IH; auto.
  - apply IH; auto.
Qed.
End SPEC.

(* ================= C16 ================= *)
Theorem C16_fifo : forall (A : Type) n (ops : list (qop A)), 1 <= n <= 2 ^ 30 ->
  match q_run (q_init n) ops, fifo n [] ops with
  | Some q, Some l =>
      q_size q = N.of_nat (length l) /\ q_size q <= n /\ q_free q = n - N.of_nat (length l) /\
      q_empty q = match l with [] => true | _ => false end /\
      q_front q = hd_error l /\ q_back q = nth_error l (length l - 1) /\
      forall i, q_read q (N.of_nat i) = nth_error l i
  | None, None => True
  | _, _ => False
  end.
Proof.
  intros A n ops Hn. pose proof (run_ok ops _ _ (init_ok (A := A) n Hn)) as H.
  pose proof (spec_fifo ops n 0 ([] : list (N * A))) as F. change (q_entries (q_init n)) with n in H.
  change (q_oid (q_init n)) with 0 in H. simpl map in F.
  destruct (q_run (q_init n) ops) as [q|]; destruct (spec_run n (0, []) ops) as [[k L]|]; try easy;
    destruct (fifo n [] ops) as [l|]; try easy. subst l.
  destruct H as (I & _ & E1 & _). cbn in E1. rewrite !map_length.
  split; [apply I|]. split; [unfold q_size; rewrite <- E1; apply I|]. split; [rewrite (free_ok q L I), E1; reflexivity|].
  split; [|split; [|split]].
  - unfold q_empty. rewrite (I_valid _ _ I). destruct L; reflexivity.
  - rewrite (front_ok q L I). destruct L; reflexivity.
  - rewrite (back_ok q L I), nth_error_map. reflexivity.
  - intros i. rewrite (read_ok q L i I), nth_error_map. reflexivity.
Qed.
(* Capacity 3, wrapping storage of 8 slots. *)
Example C16_ex :
  let ops := concat (repeat [Push 1; Push 2; Pop; Pop] 5) ++ [Push 7; Push 8; Push 9; PopBack; Push 4] in
  fifo 3 [] ops = Some [7; 8; 4] /\
  match q_run (q_init 3) ops with
  | Some q => q_head q = 2 /\ q_write q = 5 /\ q_back q = Some 4 /\ q_read q 1 = Some 8 /\ q_free q = 0
  | None => False end.
Proof. vm_compute. auto 10. Qed.
Print Assumptions C16_fifo.

(* The assertion for a full or an empty queue is the only way a call fails, and both are hit. *)
Example C16_ex_refused : q_run (q_init 2) [Push 1; Push 2; Push 3] = None /\ q_run (A := N) (q_init 2) [Pop] = None.
Proof. vm_compute. auto. Qed.

(* ================= C17 ================= *)
Lemma q_run_app : forall {A} (ops1 ops2 : list (qop A)) q, q_run q (ops1 ++ ops2) =
  match q_run q ops1 with Some q' => q_run q' ops2 | None => None end.
Proof. induction ops1; intros; simpl; auto. destruct (q_step q a); auto. Qed.
Lemma spec_run_app : forall {A} (ops1 ops2 : list (qop A)) n s, spec_run n s (ops1 ++ ops2) =
  match spec_run n s ops1 with Some s' => spec_run n s' ops2 | None => None end.
Proof. induction ops1; intros; cbn [app spec_run]; auto. destruct (spec_step n s a); auto. Qed.
Lemma pushes_app : forall {A} (a b : list (qop A)), pushes (a ++ b) = pushes a + pushes b.
Proof. intros. unfold pushes. rewrite filter_app, app_length. lia. Qed.

Definition tags_ok {A} (k : N) (a : A) (cnt : N) (L : list (N * A)) : Prop :=
  k <= cnt /\ forall j x, In (j, x) L -> j <= cnt /\ (j = k -> x = a).
Lemma In_removelast : forall {B} (l : list B) x, In x (removelast l) -> In x l.
Proof.
  induction l as [|y l IH]; intros x H; auto. destruct l; [destruct H|].
  change (removelast (y :: b :: l)) with (y :: removelast (b :: l)) in H. destruct H as [->|H]; [left; auto|right; auto].
Qed.
Lemma tags_run : forall {A} ops n cnt L k (a : A) L', cnt + pushes ops < 2 ^ 64 -> tags_ok k a cnt L ->
  forall c', spec_run n (cnt, L) ops = Some (c', L') -> tags_ok k a c' L'.
Proof.
  induction ops as [|o ops IH]; intros n cnt L k a L' HB [HT1 HT2] c' H; [injection H as <- <-; split; auto|].
  cbn [spec_run] in H. destruct o; cbn [spec_step] in H.
  - destruct (N.of_nat (length L) =? n); [discriminate|].
    unfold pushes in HB. cbn [filter length] in HB. rewrite Nat2N.inj_succ in HB.
    assert (E : w64 (cnt + 1) = cnt + 1) by (apply N.mod_small; lia). rewrite E in H. eapply IH; [| |exact H].
    + unfold pushes; lia.
    + split; [lia|]. intros j x Hj. apply in_app_or in Hj. destruct Hj as [Hj|[Hj|[]]].
      * apply HT2 in Hj. destruct Hj. split; auto. lia.
      * injection Hj as <- <-. lia.
  - destruct L as [|y L]; [discriminate|]. eapply IH; [| |exact H]; [auto|]. split; auto. intros j x Hj. apply HT2. right; auto.
  - destruct L as [|y L]; [discriminate|]. eapply IH; [| |exact H]; [auto|]. split; auto. intros j x Hj. apply HT2. apply In_removelast; auto.
  - eapply IH; [| |exact H]; [auto|]. split; auto. intros j x [].
Qed.
Lemma tags_init : forall {A} ops n cnt (L : list (N * A)) c' L', cnt + pushes ops < 2 ^ 64 -> (forall j x, In (j, x) L -> j <= cnt) ->
  spec_run n (cnt, L) ops = Some (c', L') -> forall j x, In (j, x) L' -> j <= c'.
Proof.
  induction ops as [|o ops IH]; intros n cnt L c' L' HB HT H; [injection H as <- <-; auto|].
  cbn [spec_run] in H. destruct o; cbn [spec_step] in H.
  - destruct (N.of_nat (length L) =? n); [discriminate|].
    unfold pushes in HB. cbn [filter length] in HB. rewrite Nat2N.inj_succ in HB.
    assert (E : w64 (cnt + 1) = cnt + 1) by (apply N.mod_small; lia). rewrite E in H. eapply IH; [| |exact H].
    + unfold pushes; lia.
    + intros j x Hj. apply in_app_or in Hj. destruct Hj as [Hj|[Hj|[]]]; [apply HT in Hj; lia|]. injection Hj as <- <-. lia.
  - destruct L as [|y L]; [discriminate|]. eapply IH; [| |exact H]; [auto|]. intros j x Hj. eapply HT. right; eauto.
  - destruct L as [|y L]; [discriminate|]. eapply IH; [| |exact H]; [auto|]. intros j x Hj. eapply HT. apply In_removelast; eauto.
  - eapply IH; [| |exact H]; [auto|]. intros j x [].
Qed.

(* Everything known about an iterator returned by push, any time later. *)
Lemma push_history : forall A n (ops1 ops2 : list (qop A)) a q1 q2 it q3, 1 <= n <= 2 ^ 30 ->
  q_run (q_init n) ops1 = Some q1 -> q_push q1 a = Some (q2, it) -> q_run q2 ops2 = Some q3 ->
  pushes (ops1 ++ Push a :: ops2) < 2 ^ 64 ->
  exists L, contents n (ops1 ++ Push a :: ops2) = Some L /\ Inv q3 L /\ q_oid q3 = pushes (ops1 ++ Push a :: ops2) /\
    ItInv q3 L (it_phys it) (pushes ops1 + 1) /\ it_oid it = w32 (pushes ops1 + 1) /\
    forall x, In (pushes ops1 + 1, x) L -> x = a.
Proof.
  intros A n ops1 ops2 a q1 q2 it q3 Hn R1 P R2 HB.
  pose proof (init_ok (A := A) n Hn) as I0.
  rewrite pushes_app in HB. assert (HP1 : pushes (Push a :: ops2) = 1 + pushes ops2) by (unfold pushes; cbn [filter length]; lia).
  pose proof (run_ok ops1 _ _ I0) as H1. rewrite R1 in H1. change (q_entries (q_init n)) with n in H1. change (q_oid (q_init n)) with 0 in H1.
  destruct (spec_run n (0, []) ops1) as [[k1 L1]|] eqn:S1; [|easy]. destruct H1 as (I1 & O1 & E1 & V1). cbn in E1.
  assert (Hids0 : ids_ok (A := A) (q_init n)) by (intros p o K; discriminate).
  destruct (run_it ops1 _ _ _ k1 L1 I0 Hids0 ltac:(change (q_oid (q_init n)) with 0; lia) R1 S1) as (D1 & C1 & _).
  change (q_oid (q_init n)) with 0 in C1. rewrite N.add_0_l in C1.
  pose proof (push_ok q1 L1 a I1) as H2. rewrite P in H2. destruct H2 as (F & I2 & O2 & [E2 V2] & Hh2 & Hit & Hs2).
  assert (W : w64 (q_oid q1 + 1) = pushes ops1 + 1) by (unfold w64; rewrite N.mod_small; lia). rewrite W in *.
  assert (D2 : ids_ok q2).
  { intros p o. rewrite Hs2, O2. unfold upd. destruct (p =? q_write q1); [intros K; injection K as <-; lia|intros K; apply D1 in K; lia]. }
  assert (T2 : ItInv q2 (L1 ++ [(pushes ops1 + 1, a)]) (q_write q1) (pushes ops1 + 1)).
  { constructor.
    - rewrite V2, (I_write _ _ I1). apply ix_lt; [apply I1|]. destruct I1. lia.
    - rewrite Hs2, upd_eq. simpl. exists (pushes ops1 + 1). split; auto. lia.
    - lia.
    - intros i x Hi. destruct (Nat.lt_ge_cases i (length L1)).
      + rewrite nth_error_app1 in Hi by auto. apply nth_error_In in Hi.
        pose proof (tags_init ops1 n 0 [] _ _ ltac:(lia) ltac:(intros ? ? []) S1 _ _ Hi). lia.
      + rewrite V2, Hh2, (I_write _ _ I1). f_equal. rewrite (I_valid _ _ I1).
        rewrite nth_error_app2 in Hi by auto. destruct (i - length L1)%nat as [|m] eqn:Em; [lia|destruct m; discriminate]. }
  pose proof (run_ok ops2 _ _ I2) as H3. rewrite R2, O2, E2, E1 in H3.
  destruct (spec_run n (pushes ops1 + 1, L1 ++ [(pushes ops1 + 1, a)]) ops2) as [[k3 L3]|] eqn:S3; [|easy].
  destruct H3 as (I3 & O3 & _).
  assert (S3' : spec_run (q_entries q2) (q_oid q2, L1 ++ [(pushes ops1 + 1, a)]) ops2 = Some (k3, L3)) by (rewrite O2, E2, E1; exact S3).
  destruct (run_it ops2 _ _ _ k3 L3 I2 D2 ltac:(lia) R2 S3') as (D3 & C3 & T3).
  assert (SA : spec_run n (0, []) (ops1 ++ Push a :: ops2) = Some (k3, L3)).
  { rewrite spec_run_app, S1. cbn [spec_run spec_step]. rewrite <- O1, W. rewrite E1 in F.
    destruct (N.eqb_spec (N.of_nat (length L1)) n); [congruence|]. exact S3. }
  exists L3. split; [|split; [auto|split; [rewrite pushes_app; lia|split; [|split]]]].
  - pose proof (spec_labelled (ops1 ++ Push a :: ops2) n 0 []) as X. rewrite SA in X. unfold contents.
    destruct (labelled n 0 [] (ops1 ++ Push a :: ops2)); [f_equal; apply X|destruct X]; rewrite pushes_app; lia.
  - rewrite Hit. simpl. auto.
  - rewrite Hit. reflexivity.
  - intros x Hx. assert (TK : tags_ok (pushes ops1 + 1) a k3 L3); [|apply TK in Hx; tauto].
    eapply tags_run; [| |exact S3]; [lia|]. split; [lia|]. intros j y Hj. apply in_app_or in Hj. destruct Hj as [Hj|[Hj|[]]].
    + pose proof (tags_init ops1 n 0 [] _ _ ltac:(lia) ltac:(intros ? ? []) S1 _ _ Hj). split; [lia|intros ->; exfalso; lia].
    + injection Hj as <- <-. split; [lia|auto].
Qed.

(* Full claim for histories of fewer than 2^32 pushes. [contents] labels elements by push number. *)
Theorem C17_push_iterator_partial : forall A n (ops1 ops2 : list (qop A)) a q1 q2 it q3, 1 <= n <= 2 ^ 30 ->
  q_run (q_init n) ops1 = Some q1 -> q_push q1 a = Some (q2, it) -> q_run q2 ops2 = Some q3 ->
  pushes (ops1 ++ Push a :: ops2) < 2 ^ 32 ->
  exists L, contents n (ops1 ++ Push a :: ops2) = Some L /\
    (it_valid q3 it = true <-> In (pushes ops1 + 1) (map fst L)) /\
    forall i, nth_error (map fst L) i = Some (pushes ops1 + 1) ->
       it_deref q3 it = Some a /\ it_index q3 it = N.of_nat i.
Proof.
  intros A n ops1 ops2 a q1 q2 it q3 Hn R1 P R2 HB.
  destruct (push_history A n ops1 ops2 a q1 q2 it q3 Hn R1 P R2 ltac:(lia)) as (L & HC & I & HO & [Tp Tg Tk Ts] & Hi & HU).
  exists L. split; auto.
  assert (W : w32 (pushes ops1 + 1) = pushes ops1 + 1).
  { unfold w32. apply N.mod_small. rewrite pushes_app in HB. unfold pushes in *. cbn [filter length] in HB. rewrite Nat2N.inj_succ in HB. lia. }
  rewrite W in Hi. destruct it as [p o]. simpl in *. subst o.
  pose proof (valid_iff q3 L p (pushes ops1 + 1) I Tp) as V.
  assert (X : forall i, nth_error (map fst L) i = Some (pushes ops1 + 1) -> exists x, nth_error L i = Some (pushes ops1 + 1, x)).
  { intros i E. rewrite nth_error_map in E. destruct (nth_error L i) as [[j x]|] eqn:EN; [|discriminate]. injection E as ->. eauto. }
  split.
  - rewrite V. split.
    + intros (i & x & Hx & _). apply nth_error_In in Hx. apply (in_map fst) in Hx. exact Hx.
    + intros Hin. apply In_nth_error in Hin. destruct Hin as (i & E). destruct (X i E) as (x & Hx). exists i, x. split; auto. eauto.
  - intros i E. destruct (X i E) as (x & Hx). pose proof (Ts _ _ Hx) as HP.
    assert (HV : it_valid q3 (mkIt p (pushes ops1 + 1)) = true) by (apply V; exists i, x; auto).
    unfold it_deref, it_index. rewrite HV. simpl. rewrite <- HP. rewrite (I_slot _ _ I _ _ _ Hx). split.
    + simpl. f_equal. apply HU. eapply nth_error_In; eauto.
    + assert (i < length L)%nat by (apply nth_error_Some; congruence).
      destruct I. pose proof (vs_bound _ I_vs). apply logical_ix; auto. lia.
Qed.
(* The second element of a queue that has wrapped; after the pop of both it is gone and its slot is
   reused without the iterator becoming valid again. *)
Example C17_ex : exists q1 q2 it q3 q4,
  q_run (q_init 2) (concat (repeat [Push 5; Pop] 7) ++ [Push 1]) = Some q1 /\ q_push q1 2 = Some (q2, it) /\
  q_run q2 [Pop; Push 3] = Some q3 /\ it_deref q3 it = Some 2 /\ it_index q3 it = 0 /\
  q_run q3 [Pop; Pop; Push 6; Push 7; Pop; Push 8] = Some q4 /\ it_valid q4 it = false /\ it_phys it = 0 /\
  data_of (q_slots q4 0) = Some 8.
Proof.
  do 5 eexists. split; [vm_compute; reflexivity|]. split; [vm_compute; reflexivity|]. split; [vm_compute; reflexivity|].
  split; [vm_compute; reflexivity|]. split; [vm_compute; reflexivity|]. split; [vm_compute; reflexivity|].
  vm_compute. auto.
Qed.
Print Assumptions C17_push_iterator_partial.

(* Never another element: holds up to the 2^64 pushes that the id counter can number. *)
Theorem C17_never_other : forall A n (ops1 ops2 : list (qop A)) a q1 q2 it q3, 1 <= n <= 2 ^ 30 ->
  q_run (q_init n) ops1 = Some q1 -> q_push q1 a = Some (q2, it) -> q_run q2 ops2 = Some q3 ->
  pushes (ops1 ++ Push a :: ops2) < 2 ^ 64 -> it_valid q3 it = true ->
  it_deref q3 it = Some a /\
  exists L, contents n (ops1 ++ Push a :: ops2) = Some L /\ In (pushes ops1 + 1, a) L.
Proof.
  intros A n ops1 ops2 a q1 q2 it q3 Hn R1 P R2 HB HV.
  destruct (push_history A n ops1 ops2 a q1 q2 it q3 Hn R1 P R2 HB) as (L & HC & I & HO & [Tp Tg Tk Ts] & Hi & HU).
  destruct it as [p o]. cbn [it_phys it_oid] in *.
  pose proof (proj1 (valid_iff q3 L p o I Tp) HV) as (i & x & Hx & HP).
  assert (o = pushes ops1 + 1).
  { destruct Tg as (o' & Ho & Hge). rewrite <- HP in Ho. rewrite (I_slot _ _ I _ _ _ Hx) in Ho. injection Ho as <-.
    assert (w32 (pushes ops1 + 1) <= pushes ops1 + 1) by (apply N.mod_le; lia). lia. }
  subst o. rewrite H in Hx. assert (x = a) by (apply HU; eapply nth_error_In; eauto). subst x. split.
  - unfold it_deref. rewrite HV. cbn [it_phys]. rewrite <- HP, (I_slot _ _ I _ _ _ Hx). reflexivity.
  - exists L. split; auto. eapply nth_error_In; eauto.
Qed.
Example C17_never_other_ex : exists q1 q2 it q3, q_run (q_init 2) [Push 1] = Some q1 /\ q_push q1 2 = Some (q2, it) /\
  q_run q2 [Pop; Push 3] = Some q3 /\ it_valid q3 it = true.
Proof. do 4 eexists. split; [vm_compute; reflexivity|]. split; [vm_compute; reflexivity|]. split; vm_compute; reflexivity. Qed.
Print Assumptions C17_never_other.

(* Iterating from begin() to end() visits the queue in order. *)
Fixpoint walk {A} (q : queue A) (fuel : nat) (it : iter) : option (list A) :=
  if it_eqb it (q_end q) then Some []
  else match fuel with
       | O => None
       | S f => match it_deref q it, it_incr q it with
                | Some a, Some it' => option_map (cons a) (walk q f it')
                | _, _ => None
                end
       end.
Lemma skipn_S : forall {B} i (l : list B) x, nth_error l i = Some x -> skipn i l = x :: skipn (S i) l.
Proof. induction i; destruct l; simpl; intros x H; try discriminate; [injection H as ->; auto|]. apply IHi. auto. Qed.
Lemma walk_ok : forall A (q : queue A) L, Inv q L -> forall f i o a, nth_error L i = Some (o, a) -> (length L <= f + i)%nat ->
  walk q f (mkIt (ix (q_vsize q) (q_head q) (N.of_nat i)) o) = Some (map snd (skipn i L)).
Proof.
  intros A q L I. pose proof I as [V N2 N1 Hh Hv Hl Hw Hs]. pose proof (vs_bound _ V).
  assert (HE : q_end q = mkIt (q_vsize q + 1) (q_vsize q + 1)).
  { unfold q_end, new_iter. rewrite invalid_val by auto. unfold w32. rewrite N.mod_small by lia. reflexivity. }
  induction f; intros i o a Hi Hf; assert (Hil : (i < length L)%nat) by (apply nth_error_Some; congruence); [lia|].
  assert (HL : ix (q_vsize q) (q_head q) (N.of_nat i) < q_vsize q) by (apply ix_lt; lia).
  simpl. unfold it_eqb at 1. rewrite HE. cbn [it_phys it_oid].
  destruct (N.eqb_spec (ix (q_vsize q) (q_head q) (N.of_nat i)) (q_vsize q + 1)); [lia|]. cbn [andb].
  assert (HV : it_valid q (mkIt (ix (q_vsize q) (q_head q) (N.of_nat i)) o) = true) by (apply (valid_iff q L _ _ I HL); eauto).
  unfold it_deref. rewrite HV. cbn [it_phys]. rewrite (Hs _ _ _ Hi). cbn [data_of].
  unfold it_incr. cbn [it_phys]. rewrite invalid_val by auto.
  destruct (N.eqb_spec (ix (q_vsize q) (q_head q) (N.of_nat i)) (q_vsize q + 1)); [lia|].
  rewrite incr_ix by (auto; lia). unfold valid_phys. rewrite logical_ix by (auto; lia).
  rewrite (skipn_S i L _ Hi). cbn [map snd].
  destruct (N.ltb_spec (N.of_nat i + 1) (q_valid q)).
  - destruct (nth_error L (S i)) as [[o' a']|] eqn:E'; [|apply nth_error_None in E'; lia].
    replace (N.of_nat i + 1) with (N.of_nat (S i)) by lia. rewrite (Hs _ _ _ E'). cbn [oid_of].
    rewrite (IHf (S i) o' a' E') by lia. reflexivity.
  - rewrite skipn_all2 by lia. destruct f; simpl; unfold it_eqb; rewrite HE; cbn; rewrite !N.eqb_refl; reflexivity.
Qed.

Theorem C17_iteration_partial : forall A n (ops : list (qop A)) q, 1 <= n <= 2 ^ 30 ->
  q_run (q_init n) ops = Some q -> pushes ops < 2 ^ 32 ->
  exists b l, q_begin q = Some b /\ fifo n [] ops = Some l /\ walk q (length l) b = Some l.
Proof.
  intros A n ops q Hn R HB. pose proof (init_ok (A := A) n Hn) as I0.
  pose proof (run_ok ops _ _ I0) as H. rewrite R in H. change (q_entries (q_init n)) with n in H. change (q_oid (q_init n)) with 0 in H.
  destruct (spec_run n (0, []) ops) as [[k L]|] eqn:S1; [|easy]. destruct H as (I & O & E & _).
  pose proof (spec_fifo ops n 0 ([] : list (N * A))) as F. rewrite S1 in F. simpl map in F. destruct (fifo n [] ops) as [l|]; [|easy]. subst l.
  assert (Hids0 : ids_ok (A := A) (q_init n)) by (intros p o K; discriminate).
  destruct (run_it ops _ _ _ k L I0 Hids0 ltac:(change (q_oid (q_init n)) with 0; lia) R S1) as (D1 & C1 & _).
  change (q_oid (q_init n)) with 0 in C1. pose proof I as [V N2 N1 Hh Hv Hl Hw Hs]. pose proof (vs_bound _ V).
  unfold q_begin, q_empty. rewrite Hv. destruct L as [|[o a] L].
  - exists (q_end q), []. split; auto. split; auto. cbn [length walk]. unfold it_eqb. rewrite !N.eqb_refl. reflexivity.
  - destruct (N.eqb_spec (N.of_nat (length ((o, a) :: L))) 0) as [X|_]; [simpl in X; lia|].
    pose proof (Hs 0%nat o a eq_refl) as H0. simpl N.of_nat in H0. rewrite ix_0 in H0 by auto. rewrite H0. cbn [oid_of].
    assert (Wo : w32 o = o).
    { unfold w32. apply N.mod_small. assert (oid_of (q_slots q (q_head q)) = Some o) by (rewrite H0; auto). apply D1 in H1. lia. }
    exists (new_iter (q_head q) o), (map snd ((o, a) :: L)). split; auto. split; auto.
    unfold new_iter. rewrite Wo. rewrite map_length.
    pose proof (walk_ok A q _ I (length ((o, a) :: L)) 0 o a eq_refl ltac:(lia)) as Wk. simpl N.of_nat in Wk. rewrite ix_0 in Wk by auto. exact Wk.
Qed.
Example C17_iteration_ex : exists q b, q_run (q_init 3) (concat (repeat [Push 5; Pop] 6) ++ [Push 1; Push 2; Push 3]) = Some q /\
  q_begin q = Some b /\ walk q 3 b = Some [1; 2; 3].
Proof. do 2 eexists. split; [vm_compute; reflexivity|]. split; vm_compute; reflexivity. Qed.
Print Assumptions C17_iteration_partial.

(* Why the bound 2^32 is needed: the iterator constructor truncates the id to 32 bits (line 240), so
   the iterator returned by push number 2^32 is invalid at once although its element is queued. *)
Definition churn (m : nat) : list (qop N) := concat (repeat [Push 0; Pop] m).
Lemma churn_run : forall m n, 1 <= n <= 2 ^ 30 -> exists q, q_run (q_init n) (churn m) = Some q /\ q_oid q = w64 (N.of_nat m) /\ q_size q = 0 /\ Inv q [].
Proof.
  induction m; intros n Hn.
  - exists (q_init n). split; [reflexivity|]. split; [reflexivity|]. split; [reflexivity|]. apply init_ok; auto.
  - destruct (IHm n Hn) as (q & R & O & Z & I).
    assert (E : churn (S m) = churn m ++ [Push 0; Pop]).
    { unfold churn. change (repeat [Push 0; Pop] (S m)) with ([Push 0; Pop] :: repeat [Push 0; Pop] m).
      rewrite repeat_cons, concat_app. reflexivity. }
    rewrite E, q_run_app, R. cbn [q_run q_step].
    assert (HN : q_entries q <> 0) by (destruct I; lia).
    pose proof (push_ok q [] 0 I) as H. destruct (q_push q 0) as [[q2 it]|]; [|simpl in H; congruence].
    destruct H as (_ & I2 & O2 & _). simpl. pose proof (pop_ok q2 _ I2) as H. destruct (q_pop q2) as [q3|]; [|discriminate].
    destruct H as (x & r & EL & I3 & O3 & _). injection EL as _ <-. exists q3. split; auto. split; [|split; auto].
    + rewrite O3, O2, O. unfold w64. rewrite N.add_mod_idemp_l by lia. f_equal. lia.
    + unfold q_size. rewrite (I_valid _ _ I3). reflexivity.
Qed.
Theorem C17_id_truncation_refuted : exists n (ops : list (qop N)) q1 a q2 it,
  1 <= n <= 2 ^ 30 /\ q_run (q_init n) ops = Some q1 /\ q_push q1 a = Some (q2, it) /\
  q_size q2 = 1 /\ q_front q2 = Some a /\ it_valid q2 it = false.
Proof.
  destruct (churn_run (N.to_nat (2 ^ 32 - 1)) 1 ltac:(lia)) as (q & R & O & Z & I).
  rewrite N2Nat.id in O. change (w64 (2 ^ 32 - 1)) with (2 ^ 32 - 1) in O.
  pose proof (push_ok q [] 7 I) as H. destruct (q_push q 7) as [[q2 it]|] eqn:P.
  2:{ exfalso. destruct I. simpl in H. lia. }
  destruct H as (_ & I2 & O2 & _ & Hh & Hit & Hs). rewrite O in *. change (w64 (2 ^ 32 - 1 + 1)) with (2 ^ 32) in *.
  exists 1, (churn (N.to_nat (2 ^ 32 - 1))), q, 7, q2, it. split; [lia|]. split; [auto|]. split; [auto|].
  split; [unfold q_size; rewrite (I_valid _ _ I2); reflexivity|]. split; [rewrite (front_ok _ _ I2); reflexivity|].
  destruct (it_valid q2 it) eqn:EV; auto. exfalso. rewrite Hit in EV.
  assert (HP : q_write q < q_vsize q2).
  { pose proof (push_ok q [] 7 I) as H. rewrite P in H. destruct H as (_ & _ & _ & [_ E] & _). rewrite E, (I_write _ _ I).
    apply ix_lt; [apply I|]. destruct I. lia. }
  apply (valid_iff q2 _ _ _ I2 HP) in EV. destruct EV as (i & x & Hi & _). destruct i as [|i]; [|destruct i; discriminate].
  vm_compute in Hi. discriminate.
Qed.
Print Assumptions C17_id_truncation_refuted.

(* Walking backwards: decrement, then dereference. *)
Fixpoint rwalk {A} (q : queue A) (n : nat) (it : iter) : option (list A * iter) :=
  match n with
  | O => Some ([], it)
  | S m => match it_decr q it with
           | None => None
           | Some it' => match it_deref q it', rwalk q m it' with Some a, Some (l, e) => Some (a :: l, e) | _, _ => None end
           end
  end.
Lemma rwalk_ok : forall A (q : queue A) L, Inv q L -> forall i it, (i <= length L)%nat ->
  (it_phys it = ix (q_vsize q) (q_head q) (N.of_nat i) \/ (it = q_end q /\ i = length L)) ->
  exists e, rwalk q i it = Some (map snd (rev (firstn i L)), e) /\ (it_phys e = q_head q \/ i = O).
Proof.
  intros A q L I. pose proof I as [V N2 N1 Hh Hv Hl Hw Hs]. pose proof (vs_bound _ V).
  induction i; intros it Hi HP; [exists it; split; auto|].
  destruct (nth_error L i) as [[o a]|] eqn:E; [|apply nth_error_None in E; lia].
  assert (HL : ix (q_vsize q) (q_head q) (N.of_nat i) < q_vsize q) by (apply ix_lt; lia).
  assert (D : it_decr q it = Some (mkIt (ix (q_vsize q) (q_head q) (N.of_nat i)) o)).
  { unfold it_decr. rewrite invalid_val by auto. destruct HP as [HP|[-> HP]].
    - rewrite HP. assert (B : ix (q_vsize q) (q_head q) (N.of_nat (S i)) < q_vsize q) by (apply ix_lt; lia).
      destruct (N.eqb_spec (ix (q_vsize q) (q_head q) (N.of_nat (S i))) (q_head q)) as [X|_].
      { rewrite <- (ix_0 (q_vsize q) (q_head q)) in X at 2 by auto. apply ix_inj in X; auto; lia. }
      destruct (N.eqb_spec (ix (q_vsize q) (q_head q) (N.of_nat (S i))) (q_vsize q + 1)); [lia|].
      replace (N.of_nat (S i)) with (N.of_nat i + 1) by lia. rewrite decr_ix by (auto; lia). rewrite (Hs _ _ _ E). reflexivity.
    - unfold q_end, new_iter. cbn [it_phys]. rewrite invalid_val by auto. destruct (N.eqb_spec (q_vsize q + 1) (q_head q)); [lia|].
      rewrite N.eqb_refl, Hw. replace (q_valid q) with (N.of_nat i + 1) by lia. rewrite decr_ix by (auto; lia). rewrite (Hs _ _ _ E). reflexivity. }
  cbn [rwalk]. rewrite D.
  assert (HV : it_valid q (mkIt (ix (q_vsize q) (q_head q) (N.of_nat i)) o) = true) by (apply (valid_iff q L _ _ I HL); eauto).
  unfold it_deref at 1. rewrite HV. cbn [it_phys]. rewrite (Hs _ _ _ E). cbn [data_of].
  destruct (IHi (mkIt (ix (q_vsize q) (q_head q) (N.of_nat i)) o)) as [e [R P]]; [lia|left; auto|].
  rewrite R. exists e. split.
  - f_equal. f_equal. clear - E. revert i E. induction L as [|x L IH]; intros [|i] E; try discriminate; cbn [nth_error] in E.
    + injection E as ->. reflexivity.
    + specialize (IH i E). cbn [firstn rev]. cbn [firstn rev] in IH. rewrite !map_app. rewrite <- IH. reflexivity.
  - left. destruct P as [P| ->]; auto. cbn [rwalk] in R. injection R as <-. cbn [it_phys]. apply ix_0. auto.
Qed.

(* Backwards iteration from end() gives the elements in reverse; the first element cannot be decremented,
   end() cannot be incremented. *)
Theorem C17_reverse_partial : forall A n (ops : list (qop A)) q, 1 <= n <= 2 ^ 30 -> q_run (q_init n) ops = Some q ->
  exists l e, fifo n [] ops = Some l /\ rwalk q (length l) (q_end q) = Some (rev l, e) /\
    (l <> [] -> it_decr q e = None) /\ it_incr q (q_end q) = None.
Proof.
  intros A n ops q Hn R. pose proof (init_ok (A := A) n Hn) as I0.
  pose proof (run_ok ops _ _ I0) as H. rewrite R in H. change (q_entries (q_init n)) with n in H. change (q_oid (q_init n)) with 0 in H.
  destruct (spec_run n (0, []) ops) as [[k L]|] eqn:S1; [|easy]. destruct H as (I & O & E & _).
  pose proof (spec_fifo ops n 0 ([] : list (N * A))) as F. rewrite S1 in F. simpl map in F. destruct (fifo n [] ops) as [l|]; [|easy]. subst l.
  destruct (rwalk_ok A q L I (length L) (q_end q)) as [e [W P]]; [lia|right; auto|].
  exists (map snd L), e. split; auto. rewrite map_length. split.
  - rewrite W. rewrite firstn_all. now rewrite map_rev.
  - split.
    + intros NE. destruct P as [P|P]; [|destruct L; [destruct NE; auto|discriminate]]. unfold it_decr. rewrite P. now rewrite N.eqb_refl.
    + unfold it_incr, q_end, new_iter. cbn [it_phys]. now rewrite N.eqb_refl.
Qed.
Example C17_reverse_ex : exists q e, q_run (q_init 3) (concat (repeat [Push 5; Pop] 6) ++ [Push 1; Push 2; Push 3]) = Some q /\
  rwalk q 3 (q_end q) = Some ([3; 2; 1], e).
Proof. do 2 eexists. split; [vm_compute; reflexivity|]. vm_compute; reflexivity. Qed.
Print Assumptions C17_reverse_partial.

(* operator==: two iterators that compare equal are valid together and give the same element; two valid
   iterators at the same position are equal. *)
Theorem C17_equality : forall A n (ops : list (qop A)) q a b, 1 <= n <= 2 ^ 30 -> q_run (q_init n) ops = Some q ->
  (it_eqb a b = true -> it_valid q a = it_valid q b /\ it_deref q a = it_deref q b) /\
  (it_phys a < q_vsize q -> it_phys b < q_vsize q -> it_valid q a = true -> it_valid q b = true -> it_index q a = it_index q b -> it_eqb a b = true).
Proof.
  intros A n ops q a b Hn R. pose proof (init_ok (A := A) n Hn) as I0.
  pose proof (run_ok ops _ _ I0) as H. rewrite R in H.
  destruct (spec_run _ _ ops) as [[k L]|] eqn:S1; [|easy]. destruct H as (I & _).
  pose proof I as [V N2 N1 Hh Hv Hl Hw Hs]. pose proof (vs_bound _ V). split.
  - unfold it_eqb. intros E. apply andb_true_iff in E. destruct E as [E1 E2]. apply N.eqb_eq in E1. apply N.eqb_eq in E2.
    destruct a, b. cbn in *. subst. auto.
  - destruct a as [p o], b as [p' o']. cbn [it_phys]. intros P P' V1 V2 IX. unfold it_index in IX. cbn [it_phys] in IX.
    apply (valid_iff q L _ _ I P) in V1. apply (valid_iff q L _ _ I P') in V2.
    destruct V1 as (i & x & Hi & <-). destruct V2 as (j & y & Hj & <-).
    assert (i < length L)%nat by (apply nth_error_Some; congruence). assert (j < length L)%nat by (apply nth_error_Some; congruence).
    rewrite !logical_ix in IX by (auto; lia). apply Nat2N.inj in IX. subst j. rewrite Hi in Hj. injection Hj as <- <-.
    unfold it_eqb. cbn. now rewrite !N.eqb_refl.
Qed.
(* An old iterator of a reused slot is not equal to the iterator of the new element. *)
Example C17_equality_ex : exists q it1 it2, q_run (q_init 1) [Push 5; Pop; Push 6; Pop; Push 7] = Some q /\
  option_map snd (q_push (q_init 1) 5) = Some it1 /\ q_begin q = Some it2 /\ it_phys it1 = it_phys it2 /\ it_eqb it1 it2 = false /\ it_valid q it2 = true.
Proof. do 3 eexists. split; [vm_compute; reflexivity|]. split; [vm_compute; reflexivity|]. split; [vm_compute; reflexivity|]. vm_compute. auto. Qed.
Print Assumptions C17_equality.
