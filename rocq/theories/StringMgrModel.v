(** sparta::StringManager: one copy of each string.

    Source: /repo/sparta/sparta/utils/StringManager.hpp ("sm").

    Simplifications: an address is a number, and [new] gives one that was not
    given before; the map is a list of pairs of which the order is not looked at,
    so dumpStrings (sm 195-208) is left out; a string is shorter than 2^64
    characters. The pointers handed out are not const: a user may write through
    them. *)
From Coq Require Import List NArith Bool Arith String.
Import ListNotations.

(** string_map_ and max_string_len_ (sm 105-106); what the addresses given so far
    hold; the next address. *)
Record mgr := mkG { g_map : list (string * nat); g_len : N; g_mem : nat -> string; g_next : nat }.

(** std::map::find. *)
Fixpoint look (s : string) (l : list (string * nat)) : option nat :=
  match l with [] => None | (k, p) :: r => if String.eqb k s then Some p else look s r end.
(** std::string::size. *)
Definition size (s : string) : N := N.of_nat (String.length s).

(** findString (sm 157-165); the assertion cannot fail, as a new address is not
    null. *)
Definition find_string (g : mgr) (s : string) : option nat := look s (g_map g).
(** internString (sm 138-150): size() is converted to uint32_t by std::max. *)
Definition intern (g : mgr) (s : string) : mgr * nat :=
  match find_string g s with
  | Some p => (g, p)
  | None =>
      let p := g_next g in
      (mkG ((s, p) :: g_map g) (N.max (g_len g) (size s mod 2 ^ 32))
           (fun q => if Nat.eqb q p then s else g_mem g q) (S p), p)
  end.
(** The constructor (sm 122-128) interns the empty string; EMPTY (sm 218). *)
Definition construct : mgr * nat := intern (mkG [] 0 (fun _ => EmptyString) 0) EmptyString.
(** hasString (sm 171-173). *)
Definition has_string (g : mgr) (s : string) : bool := match find_string g s with Some _ => true | None => false end.
(** isInterned (sm 181-189). *)
Definition is_interned (g : mgr) (p : nat) : bool := existsb (fun e => Nat.eqb (snd e) p) (g_map g).
(** getNumStrings (sm 213-215). *)
Definition num_strings (g : mgr) : N := (N.of_nat (List.length (g_map g)) mod 2 ^ 32)%N.
(** A user writes through a pointer. *)
Definition scribble (g : mgr) (p : nat) (s : string) : mgr :=
  mkG (g_map g) (g_len g) (fun q => if Nat.eqb q p then s else g_mem g q) (g_next g).

(** Strings interned one after the other: the manager and the pointers. *)
Fixpoint interns (g : mgr) (l : list string) : mgr * list nat :=
  match l with
  | [] => (g, [])
  | s :: r => let (g1, p) := intern g s in let (g2, ps) := interns g1 r in (g2, p :: ps)
  end.
