(** Model of sparta::SharedData. Source: /repo/sparta/sparta/resources/SharedData.hpp (sd below), with
    /repo/sparta/sparta/events/GlobalEvent.hpp (ge) and /repo/sparta/sparta/utils/ValidValue.hpp (vv). *)
From Coq Require Import List Arith Bool.
Import ListNotations.

Section SD.
Context {A : Type}.

(** Data members (sd 247-253): current_state_ (0 or 1) as a boolean, the two ValidValue entries of data_ (an
    invalid entry is [None]; the stale value kept by clearValid (vv) cannot be read), and the scheduled
    update events: [d_now] are due in the Update phase of the current cycle and have not fired yet, [d_next]
    are due in the next cycle (sd 236; one payload proxy per call, ge 153-158). *)
Record sdata := mkSD { d_cur : bool; d_0 : option A; d_1 : option A; d_now : nat; d_next : nat }.

(** data_[i] (sd 253). *)
Definition dget (s : sdata) (i : bool) : option A := if i then d_1 s else d_0 s.
(** Assignment to data_[i] (sd 229, 234; vv operator=) and clearValid (sd 202-215). *)
Definition dset (s : sdata) (i : bool) (v : option A) : sdata :=
  if i then mkSD (d_cur s) (d_0 s) v (d_now s) (d_next s) else mkSD (d_cur s) v (d_1 s) (d_now s) (d_next s).
(** NState_ (sd 43-45): (current_state_ + 1) & 1. *)
Definition ns (s : sdata) : bool := negb (d_cur s).
(** PState_ (sd 48-50). *)
Definition ps (s : sdata) : bool := d_cur s.
(** Constructor (sd 64-71). *)
Definition sd_init (v : A) : sdata := mkSD false (Some v) None 0 0.
(** isValid (sd 131-133), read / access (sd 140-153): [None] is the failed assertion. *)
Definition sd_read (s : sdata) : option A := dget s (ps s).
(** isValidNS (sd 175-177), readNS / accessNS (sd 185-199). *)
Definition sd_readNS (s : sdata) : option A := dget s (ns s).
(** update_ (sd 240-244). *)
Definition sd_update (s : sdata) : sdata :=
  let s1 := mkSD (ns s) (d_0 s) (d_1 s) (d_now s) (d_next s) in dset s1 (ns s1) None.

(** The calls of the API. *)
Inductive sdop := SWrite (v : A) | SWritePS (v : A) | SClear | SClearNS | SClearPS | SMove.
(** writeImpl_ (sd 233-238) with manual_update = [man]; writePSImpl_ (sd 228-230); clear, clearNS, clearPS
    (sd 202-215); SMove continues with a copy- or move-constructed object (sd 73-109): scheduled updates belong
    to the handler of the old object and either die with it (ge 123, 141) or act on it. *)
Definition sd_op (man : bool) (s : sdata) (o : sdop) : sdata :=
  match o with
  | SWrite v => let s1 := dset s (ns s) (Some v) in
                if man then s1 else mkSD (d_cur s1) (d_0 s1) (d_1 s1) (d_now s1) (S (d_next s1))
  | SWritePS v => dset s (ps s) (Some v)
  | SClear => dset (dset s (ps s) None) (ns s) None
  | SClearNS => dset s (ns s) None
  | SClearPS => dset s (ps s) None
  | SMove => mkSD (d_cur s) (d_0 s) (d_1 s) 0 0
  end.

(** Executions: API calls, the firing of one due update event, and the start of the next cycle, which the
    scheduler reaches only after all events due in this one have fired. update() (sd 220-224) is ManUpd. *)
Inductive sdact := SOp (o : sdop) | SFire | SNext | ManUpd.
(** One step; [None]: not an execution of the program. *)
Definition sd_step (man : bool) (s : sdata) (a : sdact) : option sdata :=
  match a with
  | SOp o => Some (sd_op man s o)
  | SFire => match d_now s with
             | O => None
             | S n => Some (sd_update (mkSD (d_cur s) (d_0 s) (d_1 s) n (d_next s)))
             end
  | SNext => match d_now s with O => Some (mkSD (d_cur s) (d_0 s) (d_1 s) (d_next s) 0) | S _ => None end
  | ManUpd => if man then Some (sd_update s) else None
  end.
(** A whole execution. *)
Fixpoint sd_run (man : bool) (s : sdata) (l : list sdact) : option sdata :=
  match l with [] => Some s | a :: r => match sd_step man s a with Some s' => sd_run man s' r | None => None end end.
End SD.
Arguments sdata : clear implicits.
Arguments sdop : clear implicits.
Arguments sdact : clear implicits.
