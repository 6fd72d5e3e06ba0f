(** Model of sparta::SyncOutPort and SyncInPort. Sources: /repo/sparta/sparta/ports/SyncPort.hpp (no prefix), Port.hpp ("port"),
    /repo/sparta/sparta/simulation/Clock.hpp ("clock").
    One SyncInPort with all SyncOutPorts bound to it; a SyncOutPort has one SyncInPort (154-155). Clocks are their periods. The scheduler is reduced to what its
    own model shows: a payload is delivered at its tick, in the phase of the port. What handlers do are further steps. Pipeline collection, logging, the watch
    dog and the limit on payloads in flight (PayloadModel) are left out. [None]: a failed assertion, a step that cannot happen, or one of three things outside the
    model: delays of 2^53 ticks and more, for which the conversions through double of 911 and 946 may round, arrivals or sends numbered 2^64 - 1, which the
    code would take for "none yet" (394, 1046), and arrivals past tick 2^64, where the numbers of ticks wrap around. *)
From Coq Require Import List NArith Bool.
From Verif Require Import ClockModel.
Import ListNotations.
Open Scope N_scope.

Section SP.
Context {A : Type}.

(** The period of clk_ (385) of every SyncOutPort; the period of receiver_clock_ (433), receive_delay_ticks_ and receive_delay_cycles_ (1042-1043) and the phase of
    forward_event_ (440-443) of the SyncInPort. *)
Record ycfg := mkYC { y_out : list N; y_per : N; y_rt : N; y_rc : N; y_ph : nat }.
(** setPortDelay (553-569), the default being 0. *)
Definition whole_delay (out : list N) (per cycles : N) (ph : nat) : ycfg := mkYC out per (get_tick per cycles) cycles ph.
(** setPortDelay with a fractional number of cycles (575-591), given the number of ticks, getTick of the double (clock 217-220). *)
Definition tick_delay (out : list N) (per ticks : N) (ph : nat) : ycfg := mkYC out per ticks (W64 (ticks + (per - 1)) / per) ph.

(** A payload of forward_event_: tick and datum. *)
Record fly := mkFly { f_due : N; f_dat : A }.
(** Current tick and phase; the payloads of forward_event_, in order of scheduling; what was given to the consumer; prev_data_arrival_tick_ (1047),
    num_in_flight_ (1057, not wrapping around at 2^32), cur_is_ready_, prev_is_ready_ (1050-1051), set_ready_tick_ (1061); prev_data_send_cycle_ (395) of every
    SyncOutPort. *)
Record yst := mkY { y_now : N; y_phase : nat; y_fly : list fly; y_log : list fly; y_prev : option N; y_num : N; y_cur : bool; y_old : bool; y_set : N; y_last : list (option N) }.
(** After construction and setInitialReadyState (601-606), the default being true. *)
Definition y_init (c : ycfg) (ready : bool) : yst := mkY 0 0 [] [] None 0 ready ready 0 (map (fun _ => None) (y_out c)).

(** Value of a call. *)
Definition ok {B} (r : res B) : option B := match r with Ok x => Some x | _ => None end.
(** Continue if it has one. *)
Definition bind {B D} (x : option B) (f : B -> option D) : option D := match x with Some y => f y | None => None end.
(** getTick of the delay as a double (clock 217-220, 911, 914, 955), as far as it is exact. *)
Definition tick_of (per cycles : N) : option N := if cycles * per <? 2 ^ 53 then Some (cycles * per) else None.
(** computeSendToReceiveTickDelay_ (908-934). *)
Definition send_delay (c : ycfg) (now per cycles : N) (slide : bool) (prev : option N) : option N :=
  bind (tick_of per cycles) (fun sd =>
  bind (ok (crossing_delay now sd per (y_rt c) (y_per c))) (fun num =>
    let abs := W64 (num + now) in
    let abs' := match prev with Some p => if slide && (abs <=? p) then W64 (p + y_per c) else abs | None => abs end in
    if abs' mod y_per c =? 0 then Some (sub64 abs' now) else None)).
(** send_ of the SyncInPort (991-1031) with checkSchedulerPhaseForZeroCycleDelivery_ (port 456-474): the new state and num_delay_ticks. *)
Definition send_ (c : ycfg) (s : yst) (x : A) (per cycles : N) (slide : bool) : option (yst * N) :=
  bind (send_delay c (y_now s) per cycles slide (y_prev s)) (fun num =>
    let abs := W64 (num + y_now s) in
    if negb (abs mod y_per c =? 0) then None
    else if match y_prev s with Some p => negb (p <? abs) | None => false end then None
    else if (abs =? 2 ^ 64 - 1) || (abs <? y_now s) then None
    else if (num =? 0) && Nat.ltb (y_ph c) (y_phase s) then None
    else Some (mkY (y_now s) (y_phase s) (y_fly s ++ [mkFly abs x]) (y_log s) (Some abs) (y_num s + 1) (y_cur s) (y_old s) (y_set s) (y_last s), num)).

(** The loop of computeNextAvailableCycleForSend (344-351), from [beat] on, [left] further beats. *)
Fixpoint beats (c : ycfg) (now per cycles beat : N) (prev : option N) (left : nat) : option N :=
  bind (send_delay c now per (cycles + beat) true prev) (fun d =>
    let p := W64 (now + d) in match left with O => Some p | S k => beats c now per cycles (beat + 1) (Some p) k end).
(** computeNextAvailableCycleForSend (330-367) with computeReverseSendToReceiveTickDelay_ (945-960). *)
Definition next_cycle (c : ycfg) (s : yst) (per cycles : N) (num : nat) : option N :=
  bind (ok (is_posedge per (y_now s))) (fun edge => if negb edge then None else
  bind (beats c (y_now s) per cycles 0 (y_prev s) num) (fun arr =>
  bind (tick_of per cycles) (fun sd =>
    if negb (arr =? W64 (arr / y_per c * y_per c)) then None else
  bind (ok (reverse_crossing_delay arr sd per (y_rt c) (y_per c))) (fun r =>
    if arr <? r then None else
  bind (ok (get_cycle per (arr - r))) (fun k =>
    let next := W64 (k + cycles) in if y_now s / per <=? next then Some next else None))))).
(** Replacing an element of a vector. *)
Fixpoint put {B} (l : list B) (i : nat) (x : B) : list B :=
  match l, i with [], _ => [] | _ :: r, O => x :: r | y :: r, S j => y :: put r j x end.
(** send of SyncOutPort [o] (290-319): the state it leaves and, if no assertion fails, the number returned. *)
Definition y_send (c : ycfg) (s : yst) (o : nat) (x : A) (cycles : N) (slide : bool) : yst * option N :=
  match nth_error (y_out c) o, nth_error (y_last s) o with
  | Some per, Some last =>
      match next_cycle c s per cycles 0 with
      | None => (s, None)
      | Some cyc =>
          match send_ c s x per cycles slide with
          | None => (s, None)
          | Some (s', num) =>
              if match last with Some l => negb (l <? cyc) | None => false end || (cyc =? 2 ^ 64 - 1) then (s', None)
              else (mkY (y_now s') (y_phase s') (y_fly s') (y_log s') (y_prev s') (y_num s') (y_cur s') (y_old s') (y_set s') (put (y_last s') o (Some cyc)), Some num)
          end
      end
  | _, _ => (s, None)
  end.

(** setReady (621-639). *)
Definition set_ready (s : yst) (b : bool) : option yst :=
  if y_set s <? y_now s then Some (mkY (y_now s) (y_phase s) (y_fly s) (y_log s) (y_prev s) (y_num s) b (y_cur s) (y_now s) (y_last s))
  else if (y_now s =? y_set s) && eqb b (y_cur s) then Some s else None.
(** getLatchedReady_ (752-760) at the current tick. *)
Definition latched (s : yst) : bool := negb (((y_set s =? y_now s) && negb (y_old s)) || ((y_set s <? y_now s) && negb (y_cur s))).
(** forwardData_ (778-824), the payload having left the scheduler. *)
Definition forward (c : ycfg) (s : yst) (x : A) : option yst :=
  if negb (y_set s <=? y_now s) || (y_num s =? 0) then None
  else
    let s1 := mkY (y_now s) (y_phase s) (y_fly s) (y_log s) (y_prev s) (y_num s - 1) (y_cur s) (y_old s) (y_set s) (y_last s) in
    if latched s then Some (mkY (y_now s) (y_phase s) (y_fly s) (y_log s ++ [mkFly (y_now s) x]) (y_prev s) (y_num s - 1) (y_cur s) (y_old s) (y_set s) (y_last s))
    else option_map fst (send_ c s1 x (y_per c) 1 false).
(** The first payload due now. *)
Fixpoint take_fly (now : N) (l : list fly) : option (fly * list fly) :=
  match l with
  | [] => None
  | f :: r => if f_due f =? now then Some (f, r) else option_map (fun x => (fst x, f :: snd x)) (take_fly now r)
  end.

(** isReady of a SyncOutPort (182-185) with couldAccept_ (856-887); equal frequency is taken to be equal period. *)
Definition is_ready (c : ycfg) (s : yst) (o : nat) : option bool :=
  bind (nth_error (y_out c) o) (fun per =>
  bind (ok (crossing_delay (y_now s) (y_now s) per (y_rt c) (y_per c))) (fun num =>
    let abs := W64 (num + y_now s) in
    let free := match y_prev s with Some p => p <? abs | None => true end in
    if negb (y_set s <=? y_now s) then None
    else if latched s then Some free
    else if negb (per =? y_per c) || negb ((y_rc c =? 1) || (y_rc c =? 0)) then None
    else Some (free && negb ((0 <? y_num s) || (y_rc c =? 0))))).
(** isReadyPS of a SyncOutPort (192-195) with getRawReady_ (765-769), and getReady (644-646). *)
Definition is_ready_ps (c : ycfg) (s : yst) : option bool := if y_rc c =? 0 then Some (y_cur s) else None.
(** isDriven of a SyncOutPort (206-213, and 219-226 with 0 cycles) with isDriven of the SyncInPort for a sender (507-519, 527-539). *)
Definition out_driven (c : ycfg) (s : yst) (o : nat) (cycles : N) : option bool :=
  bind (nth_error (y_out c) o) (fun per =>
  bind (send_delay c (y_now s) per cycles false (y_prev s)) (fun num =>
    Some (match y_prev s with Some p => negb (p <? W64 (num + y_now s)) | None => false end))).

(** Calls of the ports and moves of the scheduler. *)
Inductive yop := YSend (o : nat) (x : A) (cycles : N) (slide : bool) | YReady (b : bool) | YFire | YPhase (q : nat) | YTime (t : N).
(** send (290), setReady (621), the scheduler firing a payload (forwardData_ 778), moving on to a later phase, or to a later tick when nothing is left before it. *)
Definition ystep (c : ycfg) (s : yst) (op : yop) : option yst :=
  match op with
  | YSend o x cycles slide => match y_send c s o x cycles slide with (s', Some _) => Some s' | _ => None end
  | YReady b => set_ready s b
  | YFire =>
      if Nat.eqb (y_ph c) (y_phase s) then
        bind (take_fly (y_now s) (y_fly s)) (fun fr =>
          forward c (mkY (y_now s) (y_phase s) (snd fr) (y_log s) (y_prev s) (y_num s) (y_cur s) (y_old s) (y_set s) (y_last s)) (f_dat (fst fr)))
      else None
  | YPhase q =>
      if Nat.ltb (y_phase s) q && (Nat.leb q (y_ph c) || forallb (fun f => negb (f_due f =? y_now s)) (y_fly s))
      then Some (mkY (y_now s) q (y_fly s) (y_log s) (y_prev s) (y_num s) (y_cur s) (y_old s) (y_set s) (y_last s)) else None
  | YTime t =>
      if (y_now s <? t) && forallb (fun f => t <=? f_due f) (y_fly s)
      then Some (mkY t 0 (y_fly s) (y_log s) (y_prev s) (y_num s) (y_cur s) (y_old s) (y_set s) (y_last s)) else None
  end.
(** An execution. *)
Fixpoint yrun (c : ycfg) (s : yst) (ops : list yop) : option yst :=
  match ops with [] => Some s | o :: r => match ystep c s o with Some s' => yrun c s' r | None => None end end.
End SP.
Arguments fly : clear implicits.
Arguments yst : clear implicits.
Arguments yop : clear implicits.
