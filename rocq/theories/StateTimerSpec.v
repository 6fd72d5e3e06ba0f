(** What is said about a history of a state timer unit, from the operations
    alone (the latest one first). Nothing here mentions the code; it is used in
    the statements about StateTimerUnit.hpp (/repo/sparta/sparta/simulation). *)
From Coq Require Import NArith List Bool Arith.
From Verif Require Import StateTimerModel.
Import ListNotations.
Open Scope N_scope.

(** The cycle. *)
Fixpoint clock (h : list op) : N :=
  match h with
  | [] => 0
  | Tick n :: r => clock r + n
  | _ :: r => clock r
  end.

(** The timers in use. *)
Fixpoint users (h : list op) : list nat :=
  match h with
  | [] => []
  | Alloc i :: r => i :: users r
  | Release i :: r => remove Nat.eq_dec i (users r)
  | _ :: r => users r
  end.

(** The state of the set [k] that timer [i] is in. *)
Fixpoint doing (h : list op) (i k : nat) : option nat :=
  match h with
  | [] => None
  | Start j k' x :: r => if Nat.eqb j i && Nat.eqb k' k then Some x else doing r i k
  | Stop j k' x :: r => if Nat.eqb j i && Nat.eqb k' k then None else doing r i k
  | Release j :: r => if Nat.eqb j i then None else doing r i k
  | _ :: r => doing r i k
  end.

(** The cycle of the last start of a state of set [k]. *)
Fixpoint started (h : list op) (i k : nat) : N :=
  match h with
  | [] => 0
  | Start j k' x :: r => if Nat.eqb j i && Nat.eqb k' k then clock r else started r i k
  | _ :: r => started r i k
  end.

(** The cycle of the last query of timer [i]; zero when there is none. *)
Fixpoint asked (h : list op) (i : nat) : N :=
  match h with
  | [] => 0
  | Query :: r => if existsb (Nat.eqb i) (users r) then clock r else asked r i
  | _ :: r => asked r i
  end.

(** Is it in state [x]? *)
Definition in_state (h : list op) (i k x : nat) : bool :=
  match doing h i k with Some a => Nat.eqb a x | None => false end.

(** The cycles spent in state [x] since the last query or release. *)
Fixpoint lap (h : list op) (i k x : nat) : N :=
  match h with
  | [] => 0
  | Tick n :: r => lap r i k x + (if in_state r i k x then n else 0)
  | Query :: r => 0
  | Release j :: r => if Nat.eqb j i then 0 else lap r i k x
  | _ :: r => lap r i k x
  end.

(** The sum of a list. *)
Fixpoint sum (l : list N) : N := match l with [] => 0 | a :: r => a + sum r end.

(** The cycles all timers together have spent in state [x] of set [k]. *)
Fixpoint total (h : list op) (k x : nat) : N :=
  match h with
  | [] => 0
  | Tick n :: r =>
    total r k x + n * N.of_nat (length (filter (fun i => in_state r i k x) (users r)))
  | _ :: r => total r k x
  end.

(** A state of a set. *)
Definition state_of (p : par) (k x : nat) : Prop :=
  exists size, nth_error (p_sizes p) k = Some size /\ (x < size)%nat.
