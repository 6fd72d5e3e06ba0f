(** Statistic instances: a value measured over a window of simulated time, for a counter, a parameter, a statistic
    definition (an expression over other instances) or a free expression.
    si = sparta/src/StatisticInstance.cpp, sh = sparta/sparta/statistics/StatisticInstance.hpp,
    nt = sparta/sparta/statistics/ExpressionNodeTypes.hpp, nv = sparta/sparta/statistics/ExpressionNodeVariables.hpp.
    A double is the library's executable IEEE format (spec_float, 53 bits of precision, exponents below 1024). *)
From Coq Require Import ZArith Bool List Floats.SpecFloat.
Import ListNotations.
Open Scope Z_scope.

(** double (sh 255, 589) and the two operations on it that the code itself does: the conversion of a uint64_t counter
    value (si 189, 551, 554) and the difference (si 554). Both round to nearest, ties to even. *)
Definition dbl := spec_float.
Definition of_u64 (z : Z) : dbl := binary_normalize 53 1024 z 0 false.
Definition dsub (a b : dbl) : dbl := SFsub 53 1024 a b.
Definition dadd (a b : dbl) : dbl := SFadd 53 1024 a b.
Definition NAN : dbl := S754_nan.

(** Scheduler::INDEFINITE (si 175, 243): the largest uint64_t, an end tick that means not ended. *)
Definition INDEF : Z := 2 ^ 64 - 1.

(** What the instances read: the scheduler's elapsed ticks (si 174, 205), the counters (CounterBase::get, si 189), the
    parameters (getDoubleValue, si 195), the getters of simulation variables (nv 164-167), and which tree nodes still
    exist (node_ref_.expired(), si 178-194). *)
Record world := mkW
  { now : Z; ctr : nat -> Z; par : nat -> dbl; sim : nat -> dbl;
    c_up : nat -> bool; p_up : nat -> bool; d_up : nat -> bool }.

(** The state of one instance (sh 511-518, 584-589): start_tick_, end_tick_, initial_ (None = the ValidValue is not
    valid, sh 542-544) with its is_cumulative_ flag (sh 577), result_. *)
Record st := mkSt { s_start : Z; s_end : Z; s_init : option dbl; s_cum : bool; s_result : dbl }.

(** Expression nodes and the instances in them. A StatVariable (nv 23-28) holds its instance by value, so the whole is
    a tree. EConst = Constant (nt 226-228), ESim = SimVariable and ReferenceVariable (nv 125-140, 215-225), EUn, EBin,
    ETern = Operation with the operands its type reads, UnaryFunction, BinaryFunction, TernaryFunction (nt 20-30,
    286-301, 391-419, 523-553) with the function they apply. ECtr, EPar, EDef, EFree are instances of a counter (with
    whether its behaviour is COUNT_LATEST), a parameter, a statistic definition, and a free expression (sh 128-130; with
    whether a scheduler was given by setContext, sh 439-452). Left out: OP_NULL, snapshot loggers, sub-statistics, text. *)
Inductive expr :=
| EConst (d : dbl)
| ESim (n : nat)
| EUn (f : dbl -> dbl) (a : expr)
| EBin (f : dbl -> dbl -> dbl) (a b : expr)
| ETern (f : dbl -> dbl -> dbl -> dbl) (a b c : expr)
| ECtr (c : nat) (latest : bool) (s : st)
| EPar (p : nat) (s : st)
| EDef (d : nat) (body : expr) (s : st)
| EFree (ctx : bool) (body : expr) (s : st).

(** Ok, or what is thrown: ReversedStatisticRange (si 235), FutureStatisticRange (si 239, 250), the SpartaException
    about a destructed node (si 178-193, 208-222), the assertion of getScheduler_ (si 571-572). After a throw the object
    is not modelled further. *)
Inductive res (A : Type) := Ok (a : A) | Reversed | Future | Gone | NoSched.
Arguments Ok {A} a. Arguments Reversed {A}. Arguments Future {A}. Arguments Gone {A}. Arguments NoSched {A}.

(** Exceptions pass through the callers (si 182, 212, 230; nt 169-178, 356-362, 483-491). *)
Definition bind {A B : Type} (x : res A) (f : A -> res B) : res B :=
  match x with Ok a => f a | Reversed => Reversed | Future => Future | Gone => Gone | NoSched => NoSched end.

(** InitialStatValue::resetValue (sh 566-574) and getValue (sh 562-564). *)
Definition reset (s : st) (d : dbl) : option dbl :=
  if s_cum s then match s_init s with Some x => Some x | None => Some d end else Some d.
Definition initial (s : st) : dbl := match s_init s with Some x => x | None => of_u64 0 end.

(** start (si 173-202) on an instance whose initial_ becomes i. *)
Definition started (w : world) (s : st) (i : option dbl) : st := mkSt (now w) INDEF i (s_cum s) NAN.

(** start of a node (si 173-202; nt 169-173, 254-255, 356-358, 483-486; nv 94-96, 177-179). *)
Fixpoint start (w : world) (e : expr) : res expr :=
  match e with
  | EConst d => Ok (EConst d)
  | ESim n => Ok (ESim n)
  | EUn f a => bind (start w a) (fun a' => Ok (EUn f a'))
  | EBin f a b => bind (start w a) (fun a' => bind (start w b) (fun b' => Ok (EBin f a' b')))
  | ETern f a b c => bind (start w a) (fun a' => bind (start w b) (fun b' => bind (start w c) (fun c' => Ok (ETern f a' b' c'))))
  | ECtr c l s => if c_up w c then Ok (ECtr c l (started w s (reset s (of_u64 (ctr w c))))) else Gone
  | EPar p s => if p_up w p then Ok (EPar p (started w s (reset s (par w p)))) else Gone
  | EDef d b s =>
      if d_up w d then bind (start w b) (fun b' => Ok (EDef d b' (started w s (reset s (of_u64 0))))) else Gone
  | EFree x b s => if x then bind (start w b) (fun b' => Ok (EFree x b' (started w s (s_init s)))) else NoSched
  end.

(** getValue (si 233-264) around the value v that computeValue_ would give: the range checks, then v while the window is
    open, the stored result once it is ended. *)
Definition in_range (w : world) (s : st) (v : res dbl) : res dbl :=
  if s_end s <? s_start s then Reversed
  else if now w <? s_start s then Future
  else if s_end s =? INDEF then v
  else if now w <? s_end s then Future
  else Ok (s_result s).

(** evaluate of a node (nt 90-111, 245-247, 344-346, 469-473; nv 75-77, 164-167) and getValue of an instance. *)
Fixpoint value (w : world) (e : expr) : res dbl :=
  match e with
  | EConst d => Ok d
  | ESim n => Ok (sim w n)
  | EUn f a => bind (value w a) (fun x => Ok (f x))
  | EBin f a b => bind (value w a) (fun x => bind (value w b) (fun y => Ok (f x y)))
  | ETern f a b c => bind (value w a) (fun x => bind (value w b) (fun y => bind (value w c) (fun z => Ok (f x y z))))
  | ECtr c l s =>
      in_range w s (Ok (if c_up w c then if l then of_u64 (ctr w c) else dsub (of_u64 (ctr w c)) (initial s) else NAN))
  | EPar p s => in_range w s (Ok (if p_up w p then par w p else NAN))
  | EDef d b s => in_range w s (if d_up w d then value w b else Ok NAN)
  | EFree x b s => if x then in_range w s (value w b) else NoSched
  end.

(** computeValue_ (si 539-564), called by end on the instance itself. *)
Definition compute (w : world) (e : expr) : res dbl :=
  match e with
  | ECtr c l s => Ok (if c_up w c then if l then of_u64 (ctr w c) else dsub (of_u64 (ctr w c)) (initial s) else NAN)
  | EPar p s => Ok (if p_up w p then par w p else NAN)
  | EDef d b s => if d_up w d then value w b else Ok NAN
  | EFree x b s => value w b
  | _ => Ok NAN
  end.

(** end (si 204-231) on the state of an instance, with the result computed. *)
Definition ended (w : world) (s : st) (r : dbl) : st := mkSt (s_start s) (now w) (s_init s) (s_cum s) r.

(** end of a node (si 204-231; nt 174-178, 257-258, 360-362, 488-491; nv 97-99, 181-183). *)
Fixpoint finish (w : world) (e : expr) : res expr :=
  match e with
  | EConst d => Ok (EConst d)
  | ESim n => Ok (ESim n)
  | EUn f a => bind (finish w a) (fun a' => Ok (EUn f a'))
  | EBin f a b => bind (finish w a) (fun a' => bind (finish w b) (fun b' => Ok (EBin f a' b')))
  | ETern f a b c => bind (finish w a) (fun a' => bind (finish w b) (fun b' => bind (finish w c) (fun c' => Ok (ETern f a' b' c'))))
  | ECtr c l s => if c_up w c then bind (compute w e) (fun r => Ok (ECtr c l (ended w s r))) else Gone
  | EPar p s => if p_up w p then bind (compute w e) (fun r => Ok (EPar p (ended w s r))) else Gone
  | EDef d b s =>
      if d_up w d
      then bind (finish w b) (fun b' => bind (compute w (EDef d b' s)) (fun r => Ok (EDef d b' (ended w s r))))
      else Gone
  | EFree x b s =>
      if x
      then bind (finish w b) (fun b' => bind (compute w (EFree x b' s)) (fun r => Ok (EFree x b' (ended w s r))))
      else NoSched
  end.

(** accumulateStatistic (sh 236-243): from now on start keeps a valid initial_; it reaches every instance in the
    expression through getStats (nt 217-223; nv 113-116). *)
Definition cumulative (s : st) : st := mkSt (s_start s) (s_end s) (s_init s) true (s_result s).
Fixpoint accumulate (e : expr) : expr :=
  match e with
  | EConst d => EConst d
  | ESim n => ESim n
  | EUn f a => EUn f (accumulate a)
  | EBin f a b => EBin f (accumulate a) (accumulate b)
  | ETern f a b c => ETern f (accumulate a) (accumulate b) (accumulate c)
  | ECtr c l s => ECtr c l (cumulative s)
  | EPar p s => EPar p (cumulative s)
  | EDef d b s => EDef d (accumulate b) (cumulative s)
  | EFree x b s => EFree x (accumulate b) (cumulative s)
  end.

(** A new instance before the start() of its constructor (sh 511-518, 584-589; si 97). *)
Definition st0 : st := mkSt 0 INDEF None false NAN.

(** Calls of a user on an instance: start (si 173), end (si 204), each at some moment. *)
Inductive call := Cstart (w : world) | Cend (w : world).
Definition act (c : call) (e : expr) : res expr := match c with Cstart w => start w e | Cend w => finish w e end.
Fixpoint acts (cs : list call) (e : expr) : res expr :=
  match cs with [] => Ok e | c :: r => bind (act c e) (acts r) end.
