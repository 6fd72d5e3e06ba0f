(** What is said about a history of signal ports, from the steps alone (the
    latest one first); used in the statements about ports/SignalPort.hpp (below
    /repo/sparta/sparta). *)
From Coq Require Import List NArith Bool Arith.
From Verif Require Import DataPortModel SignalPortModel.
Import ListNotations.
Open Scope N_scope.

(** The tick. *)
Fixpoint tick (h : list sop) : N :=
  match h with [] => 0 | Time t :: _ => t | _ :: r => tick r end.

(** The phase. *)
Fixpoint phase (h : list sop) : nat :=
  match h with [] => O | Phase q :: _ => q | Time _ :: _ => O | _ :: r => phase r end.

(** Is a signal sent to the port [n] now, with the delay [rel], received on the
    spot? *)
Definition at_once (ph : nat) (n : inport) (rel : N) : bool :=
  (rel + n_delay n =? 0) && Nat.eqb (n_phase n) ph.

(** How many of the sends reach port [p] on the spot in tick [t]. *)
Definition direct1 (c : dcfg) (now : N) (ph : nat) (rel : N) (l : list nat) (p : nat) (t : N) : nat :=
  match nth_error (d_in c) p with
  | Some n => if at_once ph n rel && (now =? t) then count_occ Nat.eq_dec l p else O
  | None => O
  end.
Fixpoint direct (c : dcfg) (h : list sop) (p : nat) (t : N) : nat :=
  match h with
  | [] => O
  | Send o rel :: r => (direct c r p t + direct1 c (tick r) (phase r) rel (nth o (d_bound c) []) p t)%nat
  | _ :: r => direct c r p t
  end.

(** How many others are due at port [p] in tick [t]. *)
Definition queued1 (c : dcfg) (now : N) (ph : nat) (rel : N) (l : list nat) (p : nat) (t : N) : nat :=
  match nth_error (d_in c) p with
  | Some n => if negb (at_once ph n rel) && (now + (rel + n_delay n) * n_period n =? t)
              then count_occ Nat.eq_dec l p else O
  | None => O
  end.
Fixpoint queued (c : dcfg) (h : list sop) (p : nat) (t : N) : nat :=
  match h with
  | [] => O
  | Send o rel :: r => (queued c r p t + queued1 c (tick r) (phase r) rel (nth o (d_bound c) []) p t)%nat
  | _ :: r => queued c r p t
  end.

(** How often a pair is in a list. *)
Definition times (l : list (N * nat)) (p : nat) (t : N) : nat := length (filter (same (t, p)) l).

(** No delay reaches 2^32 cycles, and clocks have a period. *)
Definition fair (c : dcfg) (o : sop) : Prop :=
  match o with
  | Send o rel => forall p n, In p (nth o (d_bound c) []) -> nth_error (d_in c) p = Some n ->
                  rel + n_delay n < 2 ^ 32
  | _ => True
  end.
Definition clocked (c : dcfg) : Prop := forall p n, nth_error (d_in c) p = Some n -> 0 < n_period n.
