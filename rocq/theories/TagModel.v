(** sparta::Tag: hierarchical sequence numbers.

    Source: /repo/sparta/sparta/utils/Tag.hpp ("tag").

    Simplifications: a tag is the number of its place among all tags made so
    far; no tag is destroyed, so a parent pointer stays good. A recursion along
    parents has fuel; [None] is a recursion that does not end within it. *)
From Coq Require Import List NArith Bool Arith String DecimalString DecimalN.
Import ListNotations.

(** Data members (tag 152-154). *)
Record tg := mkT { t_par : option nat; t_seq : N; t_child : N }.
(** All tags, their number, and global_seq_ (tag 155). *)
Record heap := mkH { h_n : nat; h_tag : nat -> tg; h_glob : N }.

(** ++ of a SequenceType, uint32_t (tag 32). *)
Definition inc (x : N) : N := ((x + 1) mod 2 ^ 32)%N.
(** Assignment to one tag. *)
Definition put (f : nat -> tg) (i : nat) (t : tg) : nat -> tg := fun j => if Nat.eqb j i then t else f j.
(** A tag is added. *)
Definition add (h : heap) (t : tg) (g : N) : heap := mkH (S (h_n h)) (put (h_tag h) (h_n h) t) g.

(** At the start: global_seq_ is 1 (tag 197). *)
Definition empty : heap := mkH 0 (fun _ => mkT None 0 1) 1.

(** Tag() (tag 38-40), and Tag(nullptr) (tag 63-65). *)
Definition new (h : heap) : heap := add h (mkT None (h_glob h) 1) (inc (h_glob h)).
(** Tag(parent) (tag 56-62). *)
Definition child (h : heap) (p : nat) : heap :=
  let t := h_tag h p in
  add (mkH (h_n h) (put (h_tag h) p (mkT (t_par t) (t_seq t) (inc (t_child t)))) (h_glob h)) (mkT (Some p) (t_child t) 1) (h_glob h).
(** Tag(const Tag &) (tag 47). *)
Definition copy (h : heap) (i : nat) : heap := add h (h_tag h i) (h_glob h).
(** The implicit copy assignment. *)
Definition assign (h : heap) (i j : nat) : heap := mkH (h_n h) (put (h_tag h) i (h_tag h j)) (h_glob h).
(** resetGlobalSeqNum (tag 147-149). *)
Definition reset (h : heap) : heap := mkH (h_n h) (h_tag h) 1.

(** Decimal digits, as a stream writes a uint32_t (tag 77, 80). *)
Definition dec (x : N) : string := NilEmpty.string_of_uint (N.to_uint x).
(** operator std::string (tag 73-83). *)
Fixpoint text (fuel : nat) (h : heap) (i : nat) : option string :=
  match fuel with
  | O => None
  | S fuel =>
      match t_par (h_tag h i) with
      | Some p => match text fuel h p with Some s => Some (s ++ "." ++ dec (t_seq (h_tag h i)))%string | None => None end
      | None => Some (dec (t_seq (h_tag h i)))
      end
  end.
(** operator== of two tags (tag 92-109). *)
Fixpoint equal (fuel : nat) (h : heap) (i j : nat) : option bool :=
  match fuel with
  | O => None
  | S fuel =>
      match t_par (h_tag h i), t_par (h_tag h j) with
      | Some p, Some q => if (t_seq (h_tag h i) =? t_seq (h_tag h j))%N then equal fuel h p q else Some false
      | None, None => Some (t_seq (h_tag h i) =? t_seq (h_tag h j))%N
      | _, _ => Some false
      end
  end.
(** operator== with a text (tag 130-133). *)
Definition equal_text (fuel : nat) (h : heap) (i : nat) (s : string) : option bool :=
  match text fuel h i with Some t => Some (String.eqb t s) | None => None end.

(** What a user does with tags. *)
Inductive op := New | Child (p : nat) | Copy (i : nat) | Assign (i j : nat) | ResetSeq.
(** One step; the tags it names exist. *)
Definition step (h : heap) (o : op) : option heap :=
  match o with
  | New => Some (new h)
  | Child p => if Nat.ltb p (h_n h) then Some (child h p) else None
  | Copy i => if Nat.ltb i (h_n h) then Some (copy h i) else None
  | Assign i j => if Nat.ltb i (h_n h) && Nat.ltb j (h_n h) then Some (assign h i j) else None
  | ResetSeq => Some (reset h)
  end.
(** Steps in their order. *)
Fixpoint run_from (h : heap) (l : list op) : option heap :=
  match l with [] => Some h | o :: r => match step h o with Some h => run_from h r | None => None end end.
(** From the start of the program. *)
Definition run (l : list op) : option heap := run_from empty l.
