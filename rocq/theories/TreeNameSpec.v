(** What a user of the device tree expects, stated on the nodes: their names,
    aliases, groups, parents and children in the order they were added. *)
From Coq Require Import NArith Bool String Ascii Arith List.
From Verif Require Import ParamTreeSpec TreeNameModel.
Import ListNotations.
Open Scope string_scope.

(** A node answers to a text: its name, an alias, or its group with the
    index behind it. The empty name does not count. *)
Definition answers (s : st) (k : nat) (x : string) : Prop :=
  exists t, nth_error s k = Some t /\
    (x = t_name t /\ x <> "" \/ In x (t_alias t) \/
     t_group t <> "" /\ x = (t_group t ++ dec (t_idx t))%string).

(** A node is a child of another. *)
Definition child_of (s : st) (k p : nat) : Prop :=
  exists t, nth_error s k = Some t /\ t_up t = Some p.

(** The children of a node in the order they were added. *)
Definition kids (s : st) (p : nat) : list nat :=
  match nth_error s p with Some t => t_kids t | None => [] end.

(** The child of a node that a text means: of those that answer to it, the
    one added first. *)
Definition meant (s : st) (p : nat) (x : string) (k : nat) : Prop :=
  exists a b, kids s p = (a ++ k :: b)%list /\ answers s k x /\
    forall k', In k' a -> ~ answers s k' x.

(** A path from node to node: an empty name goes to the parent, another one
    to the child it means. *)
Inductive route (s : st) : nat -> list string -> nat -> Prop :=
| r_here i : route s i [] i
| r_up i p ns j : child_of s i p -> route s p ns j -> route s i ("" :: ns) j
| r_down i k x ns j : x <> "" -> meant s i x k -> route s k ns j ->
    route s i (x :: ns) j.

(** A node below another, with the nodes on the way, nearest to the top
    first. *)
Inductive below (s : st) : nat -> list nat -> nat -> Prop :=
| b_here i : below s i [] i
| b_down i k l j : child_of s k i -> below s k l j -> below s i (k :: l) j.

(** The text of a path: every name is followed by a dot; behind the last one,
    if it is not empty, the dot may be missing. *)
Inductive written : string -> list string -> Prop :=
| w_none : written "" []
| w_last n : n <> "" -> free_of "." n -> written n [n]
| w_name n p ns : free_of "." n -> written p ns ->
    written (n ++ "." ++ p) (n :: ns).

(** Texts put in the place of the wildcards of a pattern make a text. *)
Inductive fills : string -> list string -> string -> Prop :=
| fl_end : fills "" [] ""
| fl_char c p r x :
    c <> "*"%char -> c <> "?"%char -> c <> "+"%char ->
    fills p r x -> fills (String c p) r (String c x)
| fl_star p w r x : every in_line w -> fills p r x ->
    fills (String "*" p) (w :: r) (w ++ x)
| fl_plus p w r x : w <> "" -> every in_line w -> fills p r x ->
    fills (String "+" p) (w :: r) (w ++ x)
| fl_none p r x : fills p r x -> fills (String "?" p) ("" :: r) x
| fl_one p c r x : in_line c -> fills p r x ->
    fills (String "?" p) (String c "" :: r) (String c x).

(** The nodes a pattern finds, with the texts its wildcards stand for, part
    by part: an empty part goes to the parent, another one to every child
    that answers to a text the part accepts and that may be seen from its
    parent. *)
Inductive finds (s : st) (see : nat -> nat -> Prop)
  : nat -> list string -> nat -> list (list string) -> Prop :=
| f_here i : finds s see i [] i []
| f_up i p ns j ts : child_of s i p -> finds s see p ns j ts ->
    finds s see i ("" :: ns) j ts
| f_down i k pat x ns j w ts : pat <> "" -> child_of s k i -> answers s k x ->
    fills pat w x -> see i k -> finds s see k ns j ts ->
    finds s see i (pat :: ns) j (w :: ts).

(** Two nodes have the same privacy level. *)
Definition same_level (s : st) (i j : nat) : Prop :=
  option_map t_priv (nth_error s i) = option_map t_priv (nth_error s j).
