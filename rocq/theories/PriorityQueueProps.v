(* Property C18: PriorityQueue is sorted, stable, and loses or invents nothing. *)
Require Import List Bool Arith Permutation Sorted Lia.
Require Import Verif.PriorityQueueModel Verif.PriorityQueueProofs.
Import ListNotations.

(* A user order: a strict weak order, as std::less-like comparators must be. *)
Definition strict_weak_order {A} (lt : A -> A -> bool) : Prop :=
  (forall x, lt x x = false) /\
  (forall x y z, lt x y = true -> lt y z = true -> lt x z = true) /\
  (forall x y z, lt x y = false -> lt y z = false -> lt x z = false).

(* Operations that respect the order (forceFront deliberately bypasses it). *)
Definition ordered_op {A} (o : pq_op A) : Prop := match o with ForceFront _ => False | _ => True end.

(* No later element is smaller than an earlier one. *)
Definition in_order {A} (lt : A -> A -> bool) (q : list A) : Prop :=
  forall i j x y, i < j -> nth_error q i = Some x -> nth_error q j = Some y -> lt y x = false.

Lemma SS_nth {A} (R : A -> A -> Prop) q : StronglySorted R q <->
  (forall i j x y, i < j -> nth_error q i = Some x -> nth_error q j = Some y -> R x y).
Proof.
  split.
  - induction 1 as [|z q Hs IH Hall]; intros i j x y Hij Hi Hj.
    + destruct i; discriminate.
    + destruct j as [|j]; [lia|]. cbn in Hj. destruct i as [|i]; cbn in Hi.
      * injection Hi as <-. rewrite Forall_forall in Hall. apply Hall. eapply nth_error_In; eassumption.
      * apply (IH i j); auto; lia.
  - induction q as [|z q IH]; intros H; constructor.
    + apply IH. intros i j x y Hij Hi Hj. apply (H (S i) (S j)); auto; lia.
    + apply Forall_forall. intros y Hy. apply In_nth_error in Hy. destruct Hy as [j Hj].
      apply (H 0 (S j)); auto; lia.
Qed.

Theorem C18_sorted : forall A (lt eqb : A -> A -> bool) os out q, strict_weak_order lt ->
  Forall ordered_op os -> pq_run lt eqb os [] = Some (out, q) -> in_order lt q.
Proof.
  intros A lt eqb os out q (Hirr & Htr & Hneg) Hos.
  set (R := fun x y => lt y x = false).
  assert (G : forall q0, StronglySorted R q0 -> forall out q, pq_run lt eqb os q0 = Some (out, q) ->
             StronglySorted R q).
  { induction Hos as [|o os Ho Hos IH]; cbn; intros q0 H0 out' q' E.
    - injection E as <- <-. assumption.
    - destruct (pq_step lt eqb o q0) as [[o1 q1]|] eqn:Es; [|discriminate].
      destruct (pq_run lt eqb os q1) as [[o2 q2]|] eqn:Er; [|discriminate]. injection E as <- <-.
      eapply IH; [|exact Er]. destruct o; cbn in Es.
      + injection Es as <- <-. apply pq_insert_sorted; auto; unfold R.
        * intros y _ E. destruct (lt y x) eqn:E'; auto. specialize (Htr _ _ _ E E'). rewrite Hirr in Htr. discriminate.
        * intros y z _ _ E1 E2. destruct (lt z x) eqn:E'; auto.
          specialize (Htr _ _ _ E' E1). congruence.
      + destruct q0; cbn in Es; [discriminate|]. injection Es as <- <-. now inversion H0.
      + injection Es as <- <-. now apply StronglySorted_filter.
      + destruct (pq_erase i q0) as [[y q3]|] eqn:E'; [|discriminate]. injection Es as <- <-.
        eapply pq_erase_sorted; eassumption.
      + injection Es as <- <-. constructor.
      + contradiction. }
  intros E i j x y. eapply (proj1 (SS_nth R q)). eapply G; [constructor|exact E].
Qed.
Example C18_sorted_ex : pq_run Nat.ltb Nat.eqb [Insert 5; Insert 2; Insert 9; Pop; Insert 7; Remove 9; Insert 6] []
  = Some ([2; 9], [5; 6; 7]).
Proof. reflexivity. Qed.
Print Assumptions C18_sorted.

(* top() is a least element of the queue. *)
Theorem C18_top_least : forall A (lt eqb : A -> A -> bool) os out q t, strict_weak_order lt ->
  Forall ordered_op os -> pq_run lt eqb os [] = Some (out, q) -> pq_top q = Some t ->
  In t q /\ forall y, In y q -> lt y t = false.
Proof.
  intros A lt eqb os out q t Hlt Hos E Ht. pose proof (C18_sorted _ _ _ _ _ _ Hlt Hos E) as Hs.
  destruct q as [|z q]; [discriminate|]. cbn in Ht. injection Ht as ->. split; [now left|].
  intros y [->|Hy]; [apply Hlt|]. apply In_nth_error in Hy. destruct Hy as [j Hj].
  apply (Hs 0 (S j)); auto; lia.
Qed.
Example C18_top_ex : pq_run Nat.ltb Nat.eqb [Insert 5; Insert 2; Insert 9] [] = Some ([], [2; 5; 9]) /\
  pq_top [2; 5; 9] = Some 2.
Proof. split; reflexivity. Qed.
Print Assumptions C18_top_least.

(* back() is a greatest element of the queue, the last to leave. *)
Theorem C18_back_greatest : forall A (lt eqb : A -> A -> bool) os out q, strict_weak_order lt ->
  Forall ordered_op os -> pq_run lt eqb os [] = Some (out, q) ->
  match pq_back q with
  | None => q = []
  | Some t => nth_error q (length q - 1) = Some t /\ forall y, In y q -> lt t y = false
  end.
Proof.
  intros A lt eqb os out q Hlt Hos E. pose proof (C18_sorted _ _ _ _ _ _ Hlt Hos E) as Hs.
  unfold pq_back. destruct q as [|z q]; [reflexivity|].
  assert (L : nth_error (z :: q) (length (z :: q) - 1) = Some (last q z)).
  { clear. destruct q as [|b q _] using rev_ind; [reflexivity|]. rewrite last_last, app_comm_cons, app_length.
    replace (length (z :: q) + length [b] - 1) with (length (z :: q)) by (cbn; lia).
    rewrite nth_error_app2, Nat.sub_diag by auto. reflexivity. }
  split; [exact L|]. intros y Hy. apply In_nth_error in Hy. destruct Hy as [i Hi].
  assert (i < length (z :: q)) by (apply nth_error_Some; congruence).
  destruct (Nat.eq_dec i (length (z :: q) - 1)) as [->|Ne].
  - assert (y = last q z) by congruence. subst y. apply Hlt.
  - apply (Hs i (length (z :: q) - 1)); auto. lia.
Qed.
Example C18_back_ex : pq_run Nat.ltb Nat.eqb [Insert 5; Insert 2; Insert 9; Insert 7] [] = Some ([], [2; 5; 7; 9]) /\
  pq_back [2; 5; 7; 9] = Some 9.
Proof. split; reflexivity. Qed.
Print Assumptions C18_back_greatest.

(* Number the inserted elements in call order. *)
Fixpoint number {A} (n : nat) (os : list (pq_op A)) : list (pq_op (A * nat)) :=
  match os with
  | [] => []
  | Insert x :: os' => Insert (x, n) :: number (S n) os'
  | Pop :: os' => Pop :: number n os'
  | Remove x :: os' => Remove (x, 0) :: number n os'
  | Erase i :: os' => Erase i :: number n os'
  | Clear :: os' => Clear :: number n os'
  | ForceFront x :: os' => ForceFront (x, n) :: number (S n) os'
  end.
(* The comparators see only the element, never its number. *)
Definition on_fst {A} (f : A -> A -> bool) (x y : A * nat) : bool := f (fst x) (fst y).

Lemma insert_map {A} (lt : A -> A -> bool) x q :
  map fst (pq_insert (on_fst lt) x q) = pq_insert lt (fst x) (map fst q).
Proof.
  induction q as [|y q IH]; cbn; [reflexivity|]. unfold on_fst at 1.
  destruct (lt (fst x) (fst y)); cbn; congruence.
Qed.
Lemma filter_map_fst {A} (f : A -> bool) (q : list (A * nat)) :
  map fst (filter (fun y => f (fst y)) q) = filter f (map fst q).
Proof. induction q as [|y q IH]; cbn; [reflexivity|]. destruct (f (fst y)); cbn; congruence. Qed.
Lemma erase_map {A} i : forall (q : list (A * nat)), pq_erase i (map fst q) =
  match pq_erase i q with Some (r, q') => Some (fst r, map fst q') | None => None end.
Proof.
  induction i as [|i IH]; intros [|y q]; cbn; try reflexivity. rewrite IH.
  destruct (pq_erase i q) as [[r q']|]; reflexivity.
Qed.

(* Numbering does not change what the queue does. *)
Theorem C18_numbering_faithful : forall A (lt eqb : A -> A -> bool) os,
  pq_run lt eqb os [] =
  match pq_run (on_fst lt) (on_fst eqb) (number 0 os) [] with
  | Some (out, q) => Some (map fst out, map fst q) | None => None end.
Proof.
  intros A lt eqb os.
  assert (G : forall n q, pq_run lt eqb os (map fst q) =
    match pq_run (on_fst lt) (on_fst eqb) (number n os) q with
    | Some (out, q) => Some (map fst out, map fst q) | None => None end).
  { induction os as [|o os IH]; intros n q; cbn; [reflexivity|].
    destruct o; cbn.
    - change x with (fst (x, n)) at 1. rewrite <- (insert_map lt (x, n) q), (IH (S n)).
      destruct (pq_run _ _ (number (S n) os) _) as [[? ?]|]; reflexivity.
    - destruct q as [|y q]; cbn; [reflexivity|]. rewrite (IH n).
      destruct (pq_run _ _ (number n os) _) as [[? ?]|]; reflexivity.
    - rewrite <- (filter_map_fst (fun y => eqb x y)), <- (filter_map_fst (fun y => negb (eqb x y))), (IH n).
      unfold on_fst at 3 4. cbn [fst].
      destruct (pq_run _ _ (number n os) _) as [[? ?]|]; cbn; [rewrite map_app|]; reflexivity.
    - rewrite erase_map. destruct (pq_erase i q) as [[r q']|]; [|reflexivity].
      rewrite (IH n). destruct (pq_run _ _ (number n os) _) as [[? ?]|]; reflexivity.
    - change (@nil A) with (map (@fst A nat) []). rewrite (IH n).
      destruct (pq_run _ _ (number n os) _) as [[? ?]|]; cbn; [rewrite map_app|]; reflexivity.
    - change (pq_force_front x (map fst q)) with (map fst (pq_force_front (x, n) q)). rewrite (IH (S n)).
      destruct (pq_run _ _ (number (S n) os) _) as [[? ?]|]; reflexivity. }
  apply (G 0 []).
Qed.
Example C18_numbering_ex : pq_run (on_fst Nat.ltb) (on_fst Nat.eqb) (number 0 [Insert 5; Insert 2; Insert 5; Pop]) []
  = Some ([(2, 1)], [(5, 0); (5, 2)]).
Proof. reflexivity. Qed.
Print Assumptions C18_numbering_faithful.

(* Stability: of two elements neither of which is smaller, the one inserted first is in front (and so,
   since pop takes the front, leaves first). *)
Theorem C18_stable : forall A (lt eqb : A -> A -> bool) os out q, strict_weak_order lt ->
  Forall ordered_op os -> pq_run (on_fst lt) (on_fst eqb) (number 0 os) [] = Some (out, q) ->
  forall i j x m y n, i < j -> nth_error q i = Some (x, m) -> nth_error q j = Some (y, n) ->
    lt x y = true \/ (lt x y = false /\ lt y x = false /\ m < n).
Proof.
  intros A lt eqb os out q (Hirr & Htr & Hneg) Hos.
  set (R := fun x y : A * nat => lt (fst x) (fst y) = true \/
              (lt (fst x) (fst y) = false /\ lt (fst y) (fst x) = false /\ snd x < snd y)).
  assert (Hasym : forall x y, lt x y = true -> lt y x = false).
  { intros x y E. destruct (lt y x) eqn:E'; auto. specialize (Htr _ _ _ E E'). rewrite Hirr in Htr. discriminate. }
  assert (G : forall n q0, StronglySorted R q0 -> Forall (fun x => snd x < n) q0 ->
     forall out q, pq_run (on_fst lt) (on_fst eqb) (number n os) q0 = Some (out, q) -> StronglySorted R q).
  { induction Hos as [|o os Ho Hos IH]; cbn; intros n q0 H0 Hn out' q' E.
    - injection E as <- <-. assumption.
    - destruct o; cbn in E.
      + destruct (pq_run _ _ (number (S n) os) _) as [[o2 q2]|] eqn:Er; [|discriminate]. injection E as <- <-.
        eapply (IH (S n)); [| |exact Er].
        * apply pq_insert_sorted; unfold R, on_fst; cbn; [| | |assumption].
          -- intros y _ E. left. exact E.
          -- intros y Hy E. rewrite Forall_forall in Hn. specialize (Hn _ Hy).
             destruct (lt (fst y) x) eqn:E'; auto.
          -- intros y z _ _ E1 [E2|(E2 & E3 & E4)]; [left; eauto|].
             left. destruct (lt x (fst z)) eqn:E'; auto. specialize (Hneg _ _ _ E' E3). congruence.
        * apply Forall_insert; cbn; [lia|]. eapply Forall_impl; [|exact Hn]. cbn. lia.
      + destruct q0 as [|y q0]; cbn in E; [discriminate|].
        destruct (pq_run _ _ (number n os) _) as [[o2 q2]|] eqn:Er; [|discriminate]. injection E as <- <-.
        inversion H0; inversion Hn; subst. eapply (IH n); [| |exact Er]; assumption.
      + destruct (pq_run _ _ (number n os) _) as [[o2 q2]|] eqn:Er; [|discriminate]. injection E as <- <-.
        eapply (IH n); [| |exact Er]; [now apply StronglySorted_filter|].
        rewrite Forall_forall in *. intros z Hz. apply filter_In in Hz. now apply Hn.
      + destruct (pq_erase i q0) as [[y q3]|] eqn:E'; [|discriminate].
        destruct (pq_run _ _ (number n os) _) as [[o2 q2]|] eqn:Er; [|discriminate]. injection E as <- <-.
        eapply (IH n); [| |exact Er]; [eapply pq_erase_sorted; eassumption|].
        apply pq_erase_perm in E'. rewrite Forall_forall in *. intros z Hz. apply Hn. rewrite E'. now right.
      + destruct (pq_run _ _ (number n os) _) as [[o2 q2]|] eqn:Er; [|discriminate]. injection E as <- <-.
        eapply (IH n); [| |exact Er]; constructor.
      + contradiction. }
  intros E i j x m y n Hij Hi Hj.
  assert (Hs : StronglySorted R q) by (eapply (G 0); [constructor|constructor|exact E]).
  rewrite SS_nth in Hs. exact (Hs _ _ _ _ Hij Hi Hj).
Qed.
Example C18_stable_ex : pq_run (on_fst (fun a b => Nat.ltb (a / 10) (b / 10))) (on_fst Nat.eqb)
   (number 0 [Insert 15; Insert 21; Insert 11; Insert 3]) [] = Some ([], [(3, 3); (15, 0); (11, 2); (21, 1)]).
Proof. reflexivity. Qed.
Print Assumptions C18_stable.

(* What was inserted is exactly what has left plus what is still there (forceFront included). *)
Definition inserted_by {A} (o : pq_op A) : list A :=
  match o with Insert x => [x] | ForceFront x => [x] | _ => [] end.
Theorem C18_multiset : forall A (lt eqb : A -> A -> bool) os out q,
  pq_run lt eqb os [] = Some (out, q) -> Permutation (flat_map inserted_by os) (out ++ q).
Proof.
  intros A lt eqb os out q E. apply pq_run_perm in E. now rewrite app_nil_r in E.
Qed.
Example C18_multiset_ex : pq_run Nat.ltb Nat.eqb [Insert 5; Insert 2; ForceFront 9; Insert 5; Pop; Remove 5] []
  = Some ([5; 5], [9; 2]).
Proof. reflexivity. Qed.
Print Assumptions C18_multiset.

(* pop and top fail exactly on an empty queue; pop removes precisely top; forceFront makes its argument
   the top. *)
Theorem C18_pop_top : forall A (lt eqb : A -> A -> bool) (q : list A),
  (pq_step lt eqb Pop q = None <-> q = []) /\ (pq_top q = None <-> q = []) /\
  (forall out q', pq_step lt eqb Pop q = Some (out, q') -> exists t, pq_top q = Some t /\ out = [t] /\ q = t :: q') /\
  (forall x out q', pq_step lt eqb (ForceFront x) q = Some (out, q') -> pq_top q' = Some x /\ q' = x :: q).
Proof.
  intros A lt eqb [|y q]; cbn; repeat split; try discriminate; try tauto; intros; try congruence.
  all: try (injection H as <- <-; eauto).
  all: try (rewrite H in *; cbn; auto).
Qed.
Example C18_pop_ex : pq_step Nat.ltb Nat.eqb Pop [3; 4] = Some ([3], [4]).
Proof. reflexivity. Qed.
Print Assumptions C18_pop_top.
