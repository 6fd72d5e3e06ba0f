(** Timing of states: sparta::StateTimerUnit with its pool of timers.

    Source (below /repo/sparta/sparta/simulation): StateTimerUnit.hpp ("su").

    Simplifications:
    - the sets of states are known by numbers instead of the hash codes of
      their types, which are taken to differ; states by their numbers;
    - a histogram is the list of the values added to it, the last one first
      (what it shows for them is the subject of HistogramModel);
    - cycle numbers do not wrap at 64 bits;
    - the map of active timers is gone through in order of allocation, latest
      first (its order is not specified; it decides only the order in which
      values are added at one query);
    - a handle is the number of its timer. [None] is a failed assertion, an
      access outside of a container, or a call on a handle that is gone. *)
From Coq Require Import NArith List Bool Arith.
Import ListNotations.
Open Scope N_scope.

(** StateSet (su 152-168): active_state_index_, active_state_starting_time_,
    state_set_delta_. *)
Record sset := mkSet { a_state : option nat; a_start : N; a_delta : nat -> N }.

(** The members of a StateTimer that change (su 250-259): state_set_map_ and
    last_query_time_. *)
Record timer := mkTimer { t_set : nat -> sset; t_query : N }.

(** The constructors (su 161-167, 181-195). *)
Definition timer0 : timer := mkTimer (fun _ => mkSet None 0 (fun _ => 0)) 0.

(** The unit: the current cycle, timer_list_ptr_, active_timer_map_ptr_,
    available_timer_vec_ptr_ (the last one first), and the histograms by set
    and state (su 412-431, 531-537, 590-599). *)
Record unit_ := mkUnit {
  u_now : N;
  u_timers : list timer;
  u_active : list nat;
  u_avail : list nat;
  u_hist : nat -> nat -> list N }.

(** What is fixed: the numbers of states of the sets (su 545-559) and
    num_state_timer_init_ (su 423). *)
Record par := mkPar { p_sizes : list nat; p_more : nat }.

(** The constructor (su 708-729, 745-774). *)
Definition unit0 (p : par) : unit_ :=
  mkUnit 0 (repeat timer0 (p_more p)) [] (rev (seq 0 (p_more p))) (fun _ _ => []).

(** MAX_NUM_STATETIMER (su 431). *)
Definition max_timers : N := 10000.

(** Assignment to one place of a function. *)
Definition fset {A} (f : nat -> A) (i : nat) (v : A) : nat -> A :=
  fun j => if Nat.eqb j i then v else f j.

(** An element of a vector replaced. *)
Fixpoint put {A} (l : list A) (i : nat) (v : A) : list A :=
  match l, i with
  | [], _ => []
  | _ :: r, O => v :: r
  | x :: r, S j => x :: put r j v
  end.

(** endTimerState_ (su 201-214) for a set with the active state [x]. *)
Definition end_state (now q : N) (s : sset) (x : nat) : sset :=
  mkSet (a_state s) (a_start s)
    (fset (a_delta s) x (a_delta s x + (if q <? a_start s then now - a_start s else now - q))).

(** allocateTimer (su 353-382): new timers if none is available, then the last
    available one. *)
Definition allocate (p : par) (u : unit_) : option (nat * unit_) :=
  let n := length (u_timers u) in
  let u1 :=
    match u_avail u with
    | _ :: _ => Some u
    | [] =>
      if negb (N.of_nat n <? max_timers) then None
      else Some (mkUnit (u_now u) (u_timers u ++ repeat timer0 (p_more p)) (u_active u)
                        (rev (seq n (p_more p))) (u_hist u))
    end in
  match u1 with
  | None => None
  | Some u1 =>
    match u_avail u1 with
    | [] => None
    | i :: r => Some (i, mkUnit (u_now u1) (u_timers u1) (i :: u_active u1) r (u_hist u1))
    end
  end.

(** A timer in use. *)
Definition in_use (u : unit_) (i : nat) : bool := existsb (Nat.eqb i) (u_active u).

(** A timer with one set changed. *)
Definition with_set (u : unit_) (i : nat) (t : timer) (k : nat) (s : sset) : unit_ :=
  mkUnit (u_now u) (put (u_timers u) i (mkTimer (fset (t_set t) k s) (t_query t)))
         (u_active u) (u_avail u) (u_hist u).

(** startState (su 61-96). *)
Definition start_state (p : par) (u : unit_) (i k x : nat) : option unit_ :=
  if negb (in_use u i) then None else
  match nth_error (u_timers u) i, nth_error (p_sizes p) k with
  | Some t, Some size =>
    let s := t_set t k in
    let s1 :=
      match a_state s with
      | Some a =>
        if Nat.eqb a x then None
        else if negb (0 <? a_start s) then None
        else Some (end_state (u_now u) (t_query t) s a)
      | None => Some s
      end in
    match s1 with
    | None => None
    | Some s1 => if negb (Nat.ltb x size) then None
                 else Some (with_set u i t k (mkSet (Some x) (u_now u) (a_delta s1)))
    end
  | _, _ => None
  end.

(** endState (su 103-133). *)
Definition stop_state (p : par) (u : unit_) (i k x : nat) : option unit_ :=
  if negb (in_use u i) then None else
  match nth_error (u_timers u) i, nth_error (p_sizes p) k with
  | Some t, Some size =>
    let s := t_set t k in
    match a_state s with
    | Some a =>
      if negb (Nat.eqb a x) then None
      else let s1 := end_state (u_now u) (t_query t) s a in
           Some (with_set u i t k (mkSet None 0 (a_delta s1)))
    | None => None
    end
  | _, _ => None
  end.

(** The loops of queryStateTimer_ and releaseStateTimer_ up to the update of
    the histograms (su 617-632, 649-667), for one set; [clear] tells the
    second. *)
Definition settle (now q : N) (clear : bool) (s : sset) : sset :=
  match a_state s with
  | Some a => let s1 := end_state now q s a in
              if clear then mkSet None 0 (a_delta s1) else s1
  | None => s
  end.

(** updateHistogram (su 488-500): every time goes to its histogram and is set
    to zero. *)
Definition report (p : par) (f : nat -> sset) (h : nat -> nat -> list N) : nat -> nat -> list N :=
  fun k x =>
    match nth_error (p_sizes p) k with
    | Some size => if Nat.ltb x size then a_delta (f k) x :: h k x else h k x
    | None => h k x
    end.

(** What remains of the set (su 497). *)
Definition blank (s : sset) : sset := mkSet (a_state s) (a_start s) (fun _ => 0).

(** queryStateTimer_ (su 607-636). *)
Definition query_timer (p : par) (u : unit_) (i : nat) : option unit_ :=
  match nth_error (u_timers u) i with
  | None => None
  | Some t =>
    if t_query t =? u_now u then Some u
    else let f := fun k => settle (u_now u) (t_query t) false (t_set t k) in
         Some (mkUnit (u_now u) (put (u_timers u) i (mkTimer (fun k => blank (f k)) (u_now u)))
                      (u_active u) (u_avail u) (report p f (u_hist u)))
  end.

(** queryAllActiveTimer (su 675-682), by dynamicQuery (su 302-306, 312-322). *)
Fixpoint query_all (p : par) (l : list nat) (u : unit_) : option unit_ :=
  match l with
  | [] => Some u
  | i :: r => match query_timer p u i with Some u' => query_all p r u' | None => None end
  end.

(** releaseStateTimer_ and releaseTimer (su 642-670, 388-398), when the handle
    goes (su 239-245) or by releaseAllActiveTimer (su 687-695). *)
Definition release (p : par) (u : unit_) (i : nat) : option unit_ :=
  if negb (in_use u i) then None else
  match nth_error (u_timers u) i with
  | None => None
  | Some t =>
    let f := fun k => settle (u_now u) (t_query t) true (t_set t k) in
    Some (mkUnit (u_now u) (put (u_timers u) i (mkTimer (fun k => blank (f k)) (t_query t)))
                 (remove Nat.eq_dec i (u_active u)) (i :: u_avail u) (report p f (u_hist u)))
  end.

(** What happens: cycles go by; a timer is allocated and [i] is its number; a
    state is started or ended; all timers are queried; a handle goes. *)
Inductive op :=
| Tick (n : N)
| Alloc (i : nat)
| Start (i k x : nat)
| Stop (i k x : nat)
| Query
| Release (i : nat).

(** One of them. *)
Definition step (p : par) (u : unit_) (o : op) : option unit_ :=
  match o with
  | Tick n => Some (mkUnit (u_now u + n) (u_timers u) (u_active u) (u_avail u) (u_hist u))
  | Alloc i => match allocate p u with
               | Some (j, u') => if Nat.eqb i j then Some u' else None
               | None => None
               end
  | Start i k x => start_state p u i k x
  | Stop i k x => stop_state p u i k x
  | Query => query_all p (u_active u) u
  | Release i => release p u i
  end.

(** A history, the latest operation first. *)
Fixpoint run (p : par) (h : list op) : option unit_ :=
  match h with
  | [] => Some (unit0 p)
  | o :: r => match run p r with Some u => step p u o | None => None end
  end.
