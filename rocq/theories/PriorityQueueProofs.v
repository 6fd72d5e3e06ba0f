(* Lemmas about PriorityQueueModel. *)
Require Import List Bool Arith Permutation Sorted Lia.
Require Import Verif.PriorityQueueModel.
Import ListNotations.

Section PQ.
Context {A : Type}.
Variable lt : A -> A -> bool.
Variable eqb : A -> A -> bool.

Lemma pq_insert_perm x q : Permutation (x :: q) (pq_insert lt x q).
Proof.
  induction q as [|y q IH]; cbn; [reflexivity|].
  destruct (lt x y); [reflexivity|]. rewrite perm_swap. now constructor.
Qed.

Lemma pq_erase_perm i (q : list A) y q' : pq_erase i q = Some (y, q') -> Permutation q (y :: q').
Proof.
  revert q q'. induction i as [|i IH]; intros [|z q] q' E; cbn in E; try discriminate.
  - injection E as <- <-. reflexivity.
  - destruct (pq_erase i q) as [[r q'']|] eqn:E'; [|discriminate]. injection E as <- <-.
    rewrite (IH _ _ E'). apply perm_swap.
Qed.

Lemma filter_perm (f : A -> bool) (q : list A) :
  Permutation q (filter f q ++ filter (fun y => negb (f y)) q).
Proof.
  induction q as [|y q IH]; cbn; [reflexivity|]. destruct (f y); cbn.
  - now constructor.
  - now apply Permutation_cons_app.
Qed.

Definition inserted (o : pq_op A) : list A :=
  match o with Insert x => [x] | ForceFront x => [x] | _ => [] end.

Lemma pq_step_perm o q out q' : pq_step lt eqb o q = Some (out, q') ->
  Permutation (inserted o ++ q) (out ++ q').
Proof.
  destruct o; cbn; intros E.
  - injection E as <- <-. apply pq_insert_perm.
  - destruct q; cbn in E; [discriminate|]. injection E as <- <-. reflexivity.
  - injection E as <- <-. apply filter_perm.
  - destruct (pq_erase i q) as [[y q1]|] eqn:E'; [|discriminate]. injection E as <- <-.
    now apply pq_erase_perm in E'.
  - injection E as <- <-. now rewrite app_nil_r.
  - injection E as <- <-. reflexivity.
Qed.

Lemma pq_run_perm os : forall q out q', pq_run lt eqb os q = Some (out, q') ->
  Permutation (flat_map inserted os ++ q) (out ++ q').
Proof.
  induction os as [|o os IH]; cbn; intros q out q' E.
  - injection E as <- <-. reflexivity.
  - destruct (pq_step lt eqb o q) as [[o1 q1]|] eqn:Es; [|discriminate].
    destruct (pq_run lt eqb os q1) as [[o2 q2]|] eqn:Er; [|discriminate]. injection E as <- <-.
    apply pq_step_perm in Es. apply IH in Er.
    rewrite (Permutation_app_comm (inserted o)), <- app_assoc, Es.
    rewrite app_assoc, (Permutation_app_comm _ o1), <- app_assoc, Er.
    now rewrite app_assoc.
Qed.

(* A relation R holds from each element to all later ones; insert keeps it if R is compatible. *)
Variable R : A -> A -> Prop.

Lemma Forall_insert (P : A -> Prop) x q : P x -> Forall P q -> Forall P (pq_insert lt x q).
Proof.
  intros Hx Hq. induction Hq as [|y q Hy Hq IH]; cbn; [auto|].
  destruct (lt x y); auto.
Qed.

Lemma pq_insert_sorted x q :
  (forall y, In y q -> lt x y = true -> R x y) ->
  (forall y, In y q -> lt x y = false -> R y x) ->
  (forall y z, In y q -> In z q -> lt x y = true -> R y z -> R x z) ->
  StronglySorted R q -> StronglySorted R (pq_insert lt x q).
Proof.
  intros H1 H2 H3 Hs. induction Hs as [|y q Hs IH Hall]; cbn.
  - constructor; constructor.
  - destruct (lt x y) eqn:E.
    + constructor; [constructor; assumption|]. constructor.
      * apply H1; cbn; auto.
      * rewrite Forall_forall in *. intros z Hz. apply (H3 y); cbn; auto.
    + constructor.
      * apply IH; cbn in *; firstorder.
      * apply Forall_insert; [|assumption]. apply H2; cbn; auto.
Qed.

Lemma StronglySorted_filter f q : StronglySorted R q -> StronglySorted R (filter f q).
Proof.
  induction 1 as [|y q Hs IH Hall]; cbn; [constructor|]. destruct (f y); [|assumption].
  constructor; [assumption|]. rewrite Forall_forall in *. intros z Hz. apply filter_In in Hz. now apply Hall.
Qed.

Lemma pq_erase_sorted i : forall (q : list A) y q', pq_erase i q = Some (y, q') -> StronglySorted R q -> StronglySorted R q'.
Proof.
  induction i as [|i IH]; intros [|z q] y q' E Hs; cbn in E; try discriminate; inversion Hs; subst.
  - injection E as <- <-. assumption.
  - destruct (pq_erase i q) as [[r q'']|] eqn:E'; [|discriminate]. injection E as <- <-.
    constructor; [eapply IH; eassumption|].
    apply pq_erase_perm in E'. rewrite Forall_forall in *. intros w Hw. apply H2.
    rewrite E'. now right.
Qed.

End PQ.
