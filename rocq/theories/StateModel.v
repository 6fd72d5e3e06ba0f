(** sparta::State: values, markers, observers and monitors.

    Sources (below /repo/sparta/sparta): simulation/State.hpp ("st"),
    simulation/Audience.hpp ("au"), simulation/StateTracker.hpp ("tr").

    Simplifications: a value is its number in the enumeration, which runs from
    0; handles and monitors are numbers. The calls of Scheduleable and Monitor
    are recorded in a log. What a monitor does when it is signalled is one of
    three actions; it does not attach or detach monitors meanwhile. The tracker exists and is the unit of this state
    alone; ticks do not wrap around. [None]: a failed assertion, or an access
    outside an array. *)
From Coq Require Import List NArith Bool Arith.
Import ListNotations.

(** What a monitor does in signalSet (st 236). *)
Inductive act := Nothing | Force (v : nat) | Clean.

(** The number of values, __LAST (st 748); whether EnumT is bool; the initial
    value (st 746); MAX_MARKERS (st 121); the monitors. *)
Record cfg := mkC { c_n : nat; c_bool : bool; c_init : nat; c_max : N; c_mon : nat -> act }.

(** A call made by the state: Scheduleable::schedule and cancel for an observer
    of a value (au 62-69, 29-36), Monitor::signalSet (st 236). *)
Inductive call := Sched (v h : nat) | Cancel (v h : nat) | Signal (v m : nat).

(** MarkerSet (st 383-392). The markers in use are a list of their marked_
    (st 208); its length is marker_cnt_. *)
Record mset := mkM { m_count : N; m_thresh : N; m_marks : list bool; m_aud : list nat; m_set : bool; m_mons : list nat }.

(** State (st 746-753), with the tick and the log, last call first; of the
    tracker: active_state_index, its starting time, state_delta_set (tr 670-681). *)
Record st := mkS { s_cur : nat; s_sets : nat -> mset; s_log : list call;
                   s_now : N; s_act : nat; s_start : N; s_delta : nat -> N }.

(** Assignment to one place of a function. *)
Definition fset {A} (f : nat -> A) (i : nat) (v : A) : nat -> A := fun j => if Nat.eqb j i then v else f j.
(** Assignment to one place of a list. *)
Fixpoint lset {A} (l : list A) (i : nat) (v : A) : list A :=
  match l, i with [], _ => [] | _ :: r, O => v :: r | x :: r, S i => x :: lset r i v end.
(** uint32_t arithmetic. *)
Definition w32 (x : N) : N := (x mod 2 ^ 32)%N.
(** marker_cnt_ (st 387). *)
Definition m_cnt (m : mset) : N := N.of_nat (length (m_marks m)).

(** Assignment to one marker set. *)
Definition upd (s : st) (v : nat) (m : mset) : st :=
  mkS (s_cur s) (fset (s_sets s) v m) (s_log s) (s_now s) (s_act s) (s_start s) (s_delta s).
(** setValue_ (st 400-402). *)
Definition set_cur (s : st) (v : nat) : st :=
  mkS v (s_sets s) (s_log s) (s_now s) (s_act s) (s_start s) (s_delta s).
(** A call. *)
Definition say (s : st) (c : call) : st :=
  mkS (s_cur s) (s_sets s) (c :: s_log s) (s_now s) (s_act s) (s_start s) (s_delta s).

(** notifyObservers (st 341-344) with Audience::notify (au 62-69). *)
Definition notify (s : st) (v : nat) : st :=
  let m := s_sets s v in
  let s := fold_left (fun s h => say s (Sched v h)) (m_aud m) s in
  upd s v (mkM (m_count m) (m_thresh m) (m_marks m) [] true (m_mons m)).

(** startState (tr 607-624) with endTimerState_ (tr 670-677); a tracker that is
    in use has an active state. *)
Definition start_state (s : st) (v : nat) : st :=
  if Nat.eqb (s_act s) v then s
  else mkS (s_cur s) (s_sets s) (s_log s) (s_now s) v (s_now s)
           (fset (s_delta s) (s_act s) (s_delta s (s_act s) + (s_now s - s_start s))%N).

(** setValue (st 518-532). *)
Definition set_value (c : cfg) (s : st) (v : nat) : option st :=
  if Nat.ltb v (c_n c) then Some (notify (set_cur (start_state s v) v) v) else None.

(** MarkerSet::reset (st 296-302). *)
Definition m_reset (m : mset) : mset :=
  mkM 0 (m_thresh m) (map (fun _ => false) (m_marks m)) (m_aud m) false (m_mons m).
(** The loop over the marker sets (st 542-544, 557-559). *)
Definition reset_sets (s : st) : st :=
  mkS (s_cur s) (fun v => m_reset (s_sets s v)) (s_log s) (s_now s) (s_act s) (s_start s) (s_delta s).
(** attemptSetValue_ (st 408-421). *)
Definition attempt (c : cfg) (s : st) : option st := if c_bool c then set_value c s 0 else Some s.
(** reset without a value (st 540-546). *)
Definition reset (c : cfg) (s : st) : option st := attempt c (reset_sets (set_cur s (c_init c))).
(** reset to a value (st 555-560). *)
Definition reset_to (s : st) (v : nat) : st := reset_sets (set_cur s v).

(** The action of one monitor. *)
Definition mon_act (c : cfg) (s : st) (m : nat) : option st :=
  match c_mon c m with Nothing => Some s | Force v => set_value c s v | Clean => reset c s end.
(** The loop over the monitors (st 364-366). *)
Fixpoint signal (c : cfg) (s : st) (v : nat) (ms : list nat) : option st :=
  match ms with
  | [] => Some s
  | m :: ms => match mon_act c (say s (Signal v m)) m with Some s => signal c s v ms | None => None end
  end.

(** jointSet_ (st 361-374). *)
Definition joint_set (c : cfg) (s : st) (v : nat) : option st :=
  let m := s_sets s v in
  let k := w32 (m_count m + 1) in
  let s := upd s v (mkM k (m_thresh m) (m_marks m) (m_aud m) (m_set m) (m_mons m)) in
  match m_mons m with
  | _ :: _ => signal c s v (m_mons m)
  | [] => if (w32 (m_cnt m + 2 ^ 32 - k) <=? m_thresh m)%N then Some (notify (set_cur s v) v) else Some s
  end.
(** marked_ of a marker is assigned (st 177, 186). *)
Definition put_mark (s : st) (v i : nat) (b : bool) : st :=
  let m := s_sets s v in upd s v (mkM (m_count m) (m_thresh m) (lset (m_marks m) i b) (m_aud m) (m_set m) (m_mons m)).
(** Marker::set (st 174-179) of marker [i] for value [v]. *)
Definition mark (c : cfg) (s : st) (v i : nat) : option st :=
  match nth_error (m_marks (s_sets s v)) i with
  | Some true => Some s
  | Some false => match joint_set c s v with Some s => Some (put_mark s v i true) | None => None end
  | None => None
  end.
(** Marker::clear (st 182-188) with clearMark_ (st 377-380). *)
Definition clear (s : st) (v i : nat) : option st :=
  match nth_error (m_marks (s_sets s v)) i with
  | Some false => Some s
  | Some true =>
      let m := s_sets s v in
      if (m_count m =? 0)%N then None
      else Some (put_mark (upd s v (mkM (m_count m - 1) (m_thresh m) (m_marks m) (m_aud m) (m_set m) (m_mons m))) v i false)
  | None => None
  end.
(** makeMarker (st 263-268). *)
Definition new_marker (c : cfg) (s : st) (v : nat) : option st :=
  let m := s_sets s v in
  if (m_cnt m =? c_max c)%N then None
  else Some (upd s v (mkM (m_count m) (m_thresh m) (m_marks m ++ [false]) (m_aud m) (m_set m) (m_mons m))).

(** std::find and erase of the first equal element (au 54-60, st 330-336). *)
Fixpoint drop (x : nat) (l : list nat) : list nat :=
  match l with [] => [] | y :: r => if Nat.eqb y x then r else y :: drop x r end.

(** Members of a set that one call replaces (st 305-336, au 43-46, 54-60). *)
Definition set_thresh (s : st) (v : nat) (t : N) : st :=
  let m := s_sets s v in upd s v (mkM (m_count m) t (m_marks m) (m_aud m) (m_set m) (m_mons m)).
(** As above, the audience. *)
Definition set_aud (s : st) (v : nat) (l : list nat) : st :=
  let m := s_sets s v in upd s v (mkM (m_count m) (m_thresh m) (m_marks m) l (m_set m) (m_mons m)).
(** As above, the monitors. *)
Definition set_mons (s : st) (v : nat) (l : list nat) : st :=
  let m := s_sets s v in upd s v (mkM (m_count m) (m_thresh m) (m_marks m) (m_aud m) (m_set m) l).
(** Audience::release (au 29-36). *)
Definition release (s : st) (v : nat) : st :=
  set_aud (fold_left (fun s h => say s (Cancel v h)) (m_aud (s_sets s v)) s) v [].

(** The calls of a user: setValue, both resets, newMarker, Marker::set and
    clear, setMarkedThreshold, observe, withdraw, release, attachMonitor and
    detachMonitor (st 518-729); time passes. *)
Inductive op := SetValue (v : nat) | Reset | ResetTo (v : nat) | NewMarker (v : nat) | Mark (v i : nat) | Clear (v i : nat)
  | Threshold (v : nat) (t : N) | Observe (v h : nat) | Withdraw (v h : nat) | Release (v : nat)
  | Attach (v m : nat) | Detach (v m : nat) | Pass (d : N).

(** The value a call is given. *)
Definition arg (o : op) : option nat :=
  match o with
  | SetValue v | ResetTo v | NewMarker v | Mark v _ | Clear v _ | Threshold v _ | Observe v _ | Withdraw v _ | Release v
  | Attach v _ | Detach v _ => Some v
  | Reset | Pass _ => None
  end.

(** One call; its value is one of the enumeration. *)
Definition step (c : cfg) (s : st) (o : op) : option st :=
  if match arg o with Some v => Nat.ltb v (c_n c) | None => true end then
    match o with
    | SetValue v => set_value c s v
    | Reset => reset c s
    | ResetTo v => Some (reset_to s v)
    | NewMarker v => new_marker c s v
    | Mark v i => mark c s v i
    | Clear v i => clear s v i
    | Threshold v t => Some (set_thresh s v (w32 t))
    | Observe v h => Some (set_aud s v (m_aud (s_sets s v) ++ [h]))
    | Withdraw v h => Some (set_aud s v (drop h (m_aud (s_sets s v))))
    | Release v => Some (release s v)
    | Attach v m => Some (set_mons s v (m_mons (s_sets s v) ++ [m]))
    | Detach v m => Some (set_mons s v (drop m (m_mons (s_sets s v))))
    | Pass d => Some (mkS (s_cur s) (s_sets s) (s_log s) (s_now s + d)%N (s_act s) (s_start s) (s_delta s))
    end
  else None.

(** The constructor (st 438-479), at tick 0. *)
Definition construct (c : cfg) : option st :=
  if Nat.ltb (c_init c) (c_n c) then
    attempt c (mkS (c_init c) (fun _ => mkM 0 0 [] [] false []) [] 0 (c_init c) 0 (fun _ => 0%N))
  else None.
(** Calls in their order. *)
Fixpoint run_from (c : cfg) (s : st) (l : list op) : option st :=
  match l with [] => Some s | o :: r => match step c s o with Some s => run_from c s r | None => None end end.
(** A state and the calls made on it. *)
Definition run (c : cfg) (l : list op) : option st :=
  match construct c with Some s => run_from c s l | None => None end.

(** The copy constructor (st 482-487) copies the marker sets with their counts,
    audiences and monitors (st 256), and the tracker. A marker that came with the
    copy still refers to the set of the original (st 205, 171), and makeMarker,
    the only way to a marker, does not hand it out again. The copy has made no
    calls. *)
Definition copy (s : st) : st := mkS (s_cur s) (s_sets s) [] (s_now s) (s_act s) (s_start s) (s_delta s).

(** getValue, numMarks, numMarkers, complete, isSet (st 497-499, 609-629,
    654-657), getTimeInState (st 508-512, tr 660-663). *)
Definition value (s : st) : nat := s_cur s.
(** numMarks (st 609-611). *)
Definition num_marks (s : st) (v : nat) : N := m_count (s_sets s v).
(** numMarkers (st 618-620). *)
Definition num_markers (s : st) (v : nat) : N := m_cnt (s_sets s v).
(** complete (st 627-629). *)
Definition complete (s : st) (v : nat) : bool := (num_marks s v =? num_markers s v)%N.
(** isSet (st 654-657). *)
Definition is_set (s : st) (v : nat) : bool := m_set (s_sets s v).
(** isMarked of marker [i] (st 191-193). *)
Definition is_marked (s : st) (v i : nat) : bool := nth i (m_marks (s_sets s v)) false.
(** getTimeInState (st 508-512, tr 660-663). *)
Definition time_in_state (s : st) : N := (s_now s - s_start s)%N.
