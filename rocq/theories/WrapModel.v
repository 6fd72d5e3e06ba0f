(** sparta::utils::ValidValue and sparta::utils::LockedValue.

    Source: /repo/sparta/sparta/utils/ValidValue.hpp ("vv"),
    /repo/sparta/sparta/utils/LockedValue.hpp ("lv").

    Simplifications: objects are numbered, and constructing object i anew is
    destroying it and constructing it again, from itself as if it were not destroyed; [dflt] is a value-initialised T,
    [gone v] what moving from v leaves in it and [self v] what v is after
    being moved to itself; copies of T are equal and == of T is [eqb]. An
    assertion that fails throws, and the caller may catch and go on. The text
    written by operator<< is left out. The constructor with arguments (vv 46-49)
    takes one value; what it does with a const rvalue ValidValue is left out. *)
From Coq Require Import List Bool Arith.
Import ListNotations.

(** valid_ and value_ (vv 200-201). *)
Record vv (T : Type) := mkV { v_valid : bool; v_val : T }.
Arguments mkV {T}. Arguments v_valid {T}. Arguments v_val {T}.
(** The type T (vv 24): see above. *)
Record typ (T : Type) := mkT { dflt : T; gone : T -> T; self : T -> T; eqb : T -> T -> bool }.
Arguments mkT {T}. Arguments dflt {T}. Arguments gone {T}. Arguments self {T}. Arguments eqb {T}.

(** What a call gives: nothing, a value, a truth value, a failed assertion. *)
Inductive res (T : Type) := Done | Val (v : T) | Is (b : bool) | Throw.
Arguments Done {T}. Arguments Val {T}. Arguments Is {T}. Arguments Throw {T}.

(** The calls of vv 32-182 on numbered objects. *)
Inductive vop (T : Type) :=
| VNew (i : nat) | VMake (i : nat) (v : T) | VCopyC (i j : nat) | VMoveC (i j : nat)
| VCopy (i j : nat) | VMove (i j : nat) | VSet (i : nat) (v : T) | VSetMove (i : nat) (v : T)
| VEq (i : nat) (v : T) | VNe (i : nat) (v : T) | VEqV (i j : nat) | VNeV (i j : nat)
| VIsValid (i : nat) | VConv (i : nat) | VGet (i : nat) | VWrite (i : nat) (v : T) | VClear (i : nat).
Arguments VNew {T}. Arguments VMake {T}. Arguments VCopyC {T}. Arguments VMoveC {T}. Arguments VCopy {T}.
Arguments VMove {T}. Arguments VSet {T}. Arguments VSetMove {T}. Arguments VEq {T}. Arguments VNe {T}.
Arguments VEqV {T}. Arguments VNeV {T}. Arguments VIsValid {T}. Arguments VConv {T}. Arguments VGet {T}.
Arguments VWrite {T}. Arguments VClear {T}.

(** The objects, one of them changed. *)
Definition put {A : Type} (m : nat -> A) (i : nat) (a : A) : nat -> A := fun k => if Nat.eqb k i then a else m k.

(** getValue and the conversions (vv 142-145, 153-156, 162-165, 172-175). *)
Definition v_get {T} (x : vv T) : res T := if v_valid x then Val (v_val x) else Throw.
(** operator== with a value (vv 96-99). *)
Definition v_eq {T} (t : typ T) (x : vv T) (v : T) : res T := if v_valid x then Is (eqb t (v_val x) v) else Throw.
(** operator== with another (vv 115-118): only the left one is asked whether it
    is valid. *)
Definition v_eqv {T} (t : typ T) (x y : vv T) : res T := if v_valid x then Is (eqb t (v_val x) (v_val y)) else Throw.
(** operator!= (vv 106-108, 125-127). *)
Definition v_not {T} (r : res T) : res T := match r with Is b => Is (negb b) | _ => r end.

(** One call. *)
Definition v_step {T} (t : typ T) (m : nat -> vv T) (o : vop T) : (nat -> vv T) * res T :=
  match o with
  | VNew i => (put m i (mkV false (dflt t)), Done)                    (* vv 32-35 *)
  | VMake i v => (put m i (mkV true v), Done)                         (* vv 46-49 *)
  | VCopyC i j => (put m i (m j), Done)                               (* vv 54, 65 *)
  | VMoveC i j => (put (put m j (mkV false (gone t (v_val (m j))))) i (m j), Done)   (* vv 57-62 *)
  | VCopy i j => (put m i (m j), Done)                                (* vv 68 *)
  | VMove i j =>                                                      (* vv 69: valid_ of the source stays *)
      if Nat.eqb i j then (put m i (mkV (v_valid (m i)) (self t (v_val (m i)))), Done)
      else (put (put m j (mkV (v_valid (m j)) (gone t (v_val (m j))))) i (m j), Done)
  | VSet i v => (put m i (mkV true v), Val v)                         (* vv 76-79 *)
  | VSetMove i v => (put m i (mkV true v), Val v)                     (* vv 86-89 *)
  | VEq i v => (m, v_eq t (m i) v)
  | VNe i v => (m, v_not (v_eq t (m i) v))
  | VEqV i j => (m, v_eqv t (m i) (m j))
  | VNeV i j => (m, v_not (v_eqv t (m i) (m j)))
  | VIsValid i => (m, Is (v_valid (m i)))                             (* vv 133-135 *)
  | VConv i => (m, v_get (m i))
  | VGet i => (m, v_get (m i))
  | VWrite i v =>                                                     (* a write through the reference of vv 153, 172 *)
      match v_get (m i) with
      | Val _ => (put m i (mkV (v_valid (m i)) v), Done)
      | r => (m, r)
      end
  | VClear i => (put m i (mkV false (v_val (m i))), Done)             (* vv 180-182 *)
  end.
(** Calls one after the other, with what they give. *)
Fixpoint v_run {T} (t : typ T) (m : nat -> vv T) (l : list (vop T)) : (nat -> vv T) * list (res T) :=
  match l with
  | [] => (m, [])
  | o :: k => let (m1, r) := v_step t m o in let (m2, rs) := v_run t m1 k in (m2, r :: rs)
  end.

(** What an archive holds. *)
Inductive tok (T : Type) := TB (b : bool) | TV (v : T).
Arguments TB {T}. Arguments TV {T}.
(** serialize (vv 188-197) with an archive that is written. *)
Definition v_save {T} (x : vv T) : list (tok T) := if v_valid x then [TB true; TV (v_val x)] else [TB false].
(** serialize (vv 188-197) with an archive that is read; None if something else
    comes next. *)
Definition v_load {T} (x : vv T) (a : list (tok T)) : option (vv T * list (tok T)) :=
  match a with
  | TB true :: TV v :: r => Some (mkV true v, r)
  | TB false :: r => Some (mkV false (v_val x), r)
  | _ => None
  end.
(** Several objects saved to one archive, in order (vv 188-197). *)
Definition v_saves {T} (l : list (vv T)) : list (tok T) := flat_map v_save l.
(** Several objects loaded from one archive, in order (vv 188-197). *)
Fixpoint v_loads {T} (l : list (vv T)) (a : list (tok T)) : option (list (vv T) * list (tok T)) :=
  match l with
  | [] => Some ([], a)
  | x :: k =>
      match v_load x a with
      | None => None
      | Some (y, r) => match v_loads k r with None => None | Some (ys, r') => Some (y :: ys, r') end
      end
  end.

(** is_locked_ and value_ (lv 123-124). *)
Record lv (T : Type) := mkL { l_locked : bool; l_val : T }.
Arguments mkL {T}. Arguments l_locked {T}. Arguments l_val {T}.
(** The calls of lv 59-121; LWrite is a write through the references of lv 95-97
    and lv 109-111. *)
Inductive lop (T : Type) := LSet (v : T) | LSetLock (v : T) | LLock | LIsLocked | LGet | LEq (v : T) | LNe (v : T) | LWrite (v : T).
Arguments LSet {T}. Arguments LSetLock {T}. Arguments LLock {T}. Arguments LIsLocked {T}. Arguments LGet {T}.
Arguments LEq {T}. Arguments LNe {T}. Arguments LWrite {T}.
(** The constructors (lv 46, 49, 52): default, with a value, with value and lock. *)
Definition l_new {T} (t : typ T) : lv T := mkL false (dflt t).
Definition l_make {T} (v : T) : lv T := mkL false v. (* lv 49 *)
Definition l_make_lock {T} (v : T) (b : bool) : lv T := mkL b v. (* lv 52 *)
(** One call (lines beside). *)
Definition l_step {T} (t : typ T) (x : lv T) (o : lop T) : lv T * res T :=
  match o with
  | LSet v => if l_locked x then (x, Throw) else (mkL (l_locked x) v, Done)      (* lv 59-64 *)
  | LSetLock v => if l_locked x then (x, Throw) else (mkL true v, Done)          (* lv 68-73 *)
  | LLock => (mkL true (l_val x), Done)                                          (* lv 76-78 *)
  | LIsLocked => (x, Is (l_locked x))                                            (* lv 81-83 *)
  | LGet => (x, Val (l_val x))                                                   (* lv 88-90, 102-104 *)
  | LEq v => (x, Is (eqb t (l_val x) v))                                         (* lv 114-116 *)
  | LNe v => (x, Is (negb (eqb t (l_val x) v)))                                  (* lv 119-121 *)
  | LWrite v => (mkL (l_locked x) v, Done)                                       (* lv 95-97, 109-111 *)
  end.
(** Calls one after the other, with what they give. *)
Fixpoint l_run {T} (t : typ T) (x : lv T) (l : list (lop T)) : lv T * list (res T) :=
  match l with
  | [] => (x, [])
  | o :: k => let (x1, r) := l_step t x o in let (x2, rs) := l_run t x1 k in (x2, r :: rs)
  end.
