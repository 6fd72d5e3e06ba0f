(** What a state shared by several markers is to do, told with sets of pairs.

    The doc comments are those of /repo/sparta/sparta/simulation/State.hpp 95-120
    and 425-729. *)
From Coq Require Import List NArith Bool Arith.
From Verif Require Import StateModel.
Import ListNotations.

(** The value; the number of markers of each value; the pairs of a value and one
    of its markers that are marked; how many markers may be missing; observers
    and monitors, each with its value, in the order they came; the values that
    were reached since the last reset; the calls made, the last one first
    (State.hpp 95-120). *)
Record ab := mkA { b_val : nat; b_markers : nat -> nat; b_marked : list (nat * nat); b_miss : nat -> N;
                   b_wait : list (nat * nat); b_mons : list (nat * nat); b_reached : list nat; b_calls : list call }.

(** Equality of pairs. *)
Definition same (x y : nat * nat) : bool := Nat.eqb (fst x) (fst y) && Nat.eqb (snd x) (snd y).
(** Membership. *)
Definition inb (x : nat * nat) (l : list (nat * nat)) : bool := existsb (same x) l.
(** What comes with value [v]. *)
Definition forv (v : nat) (l : list (nat * nat)) : list nat := map snd (filter (fun p => Nat.eqb (fst p) v) l).
(** What comes with another value. *)
Definition notv (v : nat) (l : list (nat * nat)) : list (nat * nat) := filter (fun p => negb (Nat.eqb (fst p) v)) l.
(** Without the first [x]. *)
Fixpoint rm (x : nat * nat) (l : list (nat * nat)) : list (nat * nat) :=
  match l with [] => [] | y :: r => if same x y then r else y :: rm x r end.
(** How many numbers below [n] satisfy [f]. *)
Definition howmany (f : nat -> bool) (n : nat) : nat := length (filter f (seq 0 n)).

(** The markers of [v] that are not marked. *)
Definition missing (a : ab) (v : nat) : nat := howmany (fun i => negb (inb (v, i) (b_marked a))) (b_markers a v).

(** The state takes a value: those who observe it are scheduled, once. *)
Definition reach (a : ab) (v : nat) : ab :=
  mkA v (b_markers a) (b_marked a) (b_miss a) (notv v (b_wait a)) (b_mons a) (v :: b_reached a)
      (rev (map (Sched v) (forv v (b_wait a))) ++ b_calls a).

(** The monitors are asked, one after the other. *)
Fixpoint ask (c : cfg) (a : ab) (v : nat) (ms : list nat) : option ab :=
  match ms with
  | [] => Some a
  | m :: ms =>
      let a := mkA (b_val a) (b_markers a) (b_marked a) (b_miss a) (b_wait a) (b_mons a) (b_reached a) (Signal v m :: b_calls a) in
      match c_mon c m with
      | Force w => if Nat.ltb w (c_n c) then ask c (reach a w) v ms else None
      | _ => ask c a v ms
      end
  end.

(** All markers are unmarked, and no value counts as reached. *)
Definition forget (a : ab) (v : nat) : ab :=
  mkA v (b_markers a) [] (b_miss a) (b_wait a) (b_mons a) [] (b_calls a).

(** A state of booleans becomes false. *)
Definition begin (c : cfg) (a : ab) : ab := if c_bool c then reach a 0 else a.

(** One call. *)
Definition sstep (c : cfg) (a : ab) (o : op) : option ab :=
  if match arg o with Some v => Nat.ltb v (c_n c) | None => true end then
    match o with
    | SetValue v => Some (reach a v)
    | Reset => Some (begin c (forget a (c_init c)))
    | ResetTo v => Some (forget a v)
    | NewMarker v =>
        if (N.of_nat (b_markers a v) =? c_max c)%N then None
        else Some (mkA (b_val a) (fset (b_markers a) v (S (b_markers a v))) (b_marked a) (b_miss a) (b_wait a) (b_mons a) (b_reached a) (b_calls a))
    | Mark v i =>
        if Nat.ltb i (b_markers a v) then
          if inb (v, i) (b_marked a) then Some a
          else
            let a := mkA (b_val a) (b_markers a) ((v, i) :: b_marked a) (b_miss a) (b_wait a) (b_mons a) (b_reached a) (b_calls a) in
            match forv v (b_mons a) with
            | [] => Some (if (N.of_nat (missing a v) <=? b_miss a v)%N then reach a v else a)
            | ms => ask c a v ms
            end
        else None
    | Clear v i =>
        if Nat.ltb i (b_markers a v) then
          Some (mkA (b_val a) (b_markers a) (filter (fun p => negb (same (v, i) p)) (b_marked a)) (b_miss a) (b_wait a) (b_mons a) (b_reached a) (b_calls a))
        else None
    | Threshold v t => Some (mkA (b_val a) (b_markers a) (b_marked a) (fset (b_miss a) v (t mod 2 ^ 32)%N) (b_wait a) (b_mons a) (b_reached a) (b_calls a))
    | Observe v h => Some (mkA (b_val a) (b_markers a) (b_marked a) (b_miss a) (b_wait a ++ [(v, h)]) (b_mons a) (b_reached a) (b_calls a))
    | Withdraw v h => Some (mkA (b_val a) (b_markers a) (b_marked a) (b_miss a) (rm (v, h) (b_wait a)) (b_mons a) (b_reached a) (b_calls a))
    | Release v => Some (mkA (b_val a) (b_markers a) (b_marked a) (b_miss a) (notv v (b_wait a)) (b_mons a) (b_reached a)
                             (rev (map (Cancel v) (forv v (b_wait a))) ++ b_calls a))
    | Attach v m => Some (mkA (b_val a) (b_markers a) (b_marked a) (b_miss a) (b_wait a) (b_mons a ++ [(v, m)]) (b_reached a) (b_calls a))
    | Detach v m => Some (mkA (b_val a) (b_markers a) (b_marked a) (b_miss a) (b_wait a) (rm (v, m) (b_mons a)) (b_reached a) (b_calls a))
    | Pass d => Some a
    end
  else None.

(** A new state. *)
Definition afresh (c : cfg) : ab := begin c (mkA (c_init c) (fun _ => 0) [] (fun _ => 0%N) [] [] [] []).
(** Calls in their order. *)
Fixpoint srun_from (c : cfg) (a : ab) (l : list op) : option ab :=
  match l with [] => Some a | o :: r => match sstep c a o with Some a => srun_from c a r | None => None end end.
(** A state and the calls made on it. *)
Definition srun (c : cfg) (l : list op) : option ab := srun_from c (afresh c) l.

(** A configuration of which nothing is asked that cannot be: a value to start
    with, at least one value, counters that hold the number of markers, and no
    monitor that resets the state while it is being asked. *)
Definition usual (c : cfg) : Prop := c_init c < c_n c /\ (c_max c < 2 ^ 32)%N /\ forall m, c_mon c m <> Clean.

(** Whether a call may change the value without the tracker (State.hpp 361-374,
    540-560). *)
Definition untold (o : op) : bool := match o with Mark _ _ | Reset | ResetTo _ => true | _ => false end.
(** Whether a call is a reset. *)
Definition resets (o : op) : bool := match o with Reset | ResetTo _ => true | _ => false end.

(** The time that passes while the value is [v], told from the values that
    getValue returns. *)
Fixpoint spent (c : cfg) (s : st) (l : list op) (v : nat) : N :=
  match l with
  | [] => 0
  | o :: r => ((match o with Pass d => if Nat.eqb (value s) v then d else 0 | _ => 0 end)
               + match step c s o with Some s => spent c s r v | None => 0 end)%N
  end.
(** The time since the value last changed. *)
Fixpoint since (c : cfg) (s : st) (l : list op) (t : N) : N :=
  match l with
  | [] => t
  | o :: r => match step c s o with
              | Some s' => since c s' r (match o with Pass d => (t + d)%N | _ => if Nat.eqb (value s) (value s') then t else 0%N end)
              | None => t end
  end.

(** How often an observer is enrolled, and withdrawn. *)
Definition enrolled (l : list op) (v h : nat) : nat :=
  length (filter (fun o => match o with Observe w k => same (v, h) (w, k) | _ => false end) l).
(** How often it is scheduled or cancelled. *)
Definition told (l : list call) (v h : nat) : nat :=
  length (filter (fun o => match o with Sched w k | Cancel w k => same (v, h) (w, k) | _ => false end) l).
(** How often it waits. *)
Definition waits (s : st) (v h : nat) : nat := count_occ Nat.eq_dec (m_aud (s_sets s v)) h.
(** Whether it is ever withdrawn. *)
Definition withdrawn (l : list op) (v h : nat) : bool :=
  existsb (fun o => match o with Withdraw w k => same (v, h) (w, k) | _ => false end) l.
