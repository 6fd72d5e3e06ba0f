(** What the tables of committed checkpoints should say, in terms of the checkpoints committed only. *)
From Coq Require Import List NArith Arith Bool Sorted.
From Verif Require Import CherryModel.
Import ListNotations.
Open Scope N_scope.

(** Numbers from [a] on, beside the elements of a list. *)
Fixpoint number (a : N) (ts : list N) : list (N * N) :=
  match ts with
  | [] => []
  | t :: r => (a, t) :: number (a + 1) r
  end.
(** The pairs of number and tick that a row of TickRuns stands for. *)
Definition expand (r : run) : list (N * N) :=
  map (fun i => (r_start r + N.of_nat i, r_tick r)) (seq 0 (N.to_nat (r_end r + 1 - r_start r))).
(** A commit that can be saved: nothing, or checkpoints that are not deleted, the first of them a snapshot. *)
Definition batch_ok {S} (b : list (chk S)) : Prop :=
  match b with [] => True | c :: _ => c_snap c = true /\ Forall (fun c => c_id c <> unidentified) b end.
(** The number of checkpoints. *)
Definition count {S} (bs : list (list (chk S))) : N := N.of_nat (length (concat bs)).
(** [sts] are the states of which the checkpoints of one commit were taken: loading a snapshot gives its state from any
    state, loading a delta gives its state from the one before. *)
Fixpoint records {S} (prev : option S) (b : list (chk S)) (sts : list S) : Prop :=
  match b, sts with
  | [], [] => True
  | c :: b', x :: sts' => (c_snap c = true -> forall s, c_apply c s = x)
                          /\ (forall p, prev = Some p -> c_apply c p = x)
                          /\ records (Some x) b' sts'
  | _, _ => False
  end.
(** Ticks never go back within a commit (Checkpoint.hpp 117-120 checks it when a checkpoint is made) and are uint64_t. *)
Definition ticks_ok {S} (b : list (chk S)) : Prop :=
  Sorted N.le (map c_tick b) /\ Forall (fun c => c_tick c < 18446744073709551616) b.
