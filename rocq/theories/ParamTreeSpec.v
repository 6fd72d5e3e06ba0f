(** What a user of the parameter tree expects, stated without the functions
    of the model: patterns, paths and the parameters a pattern covers. *)
From Coq Require Import NArith List Bool String Ascii.
Import ListNotations.
Open Scope string_scope.

(** Every character of a string satisfies a condition. *)
Fixpoint every (P : ascii -> Prop) (s : string) : Prop :=
  match s with
  | EmptyString => True
  | String c r => P c /\ every P r
  end.

(** A character that is not the end of a line. *)
Definition in_line (c : ascii) : Prop := c <> "010"%char /\ c <> "013"%char.

(** A pattern accepts a name: an asterisk stands for any text, a plus for
    any text but the empty one, a question mark for at most one character,
    every other character for itself. (src/sparta.cpp 136-147 is the
    table of wildcards offered to users.) *)
Inductive glob : string -> string -> Prop :=
| glob_end : glob "" ""
| glob_char c p s :
    c <> "*"%char -> c <> "?"%char -> c <> "+"%char ->
    glob p s -> glob (String c p) (String c s)
| glob_star p s t :
    every in_line s -> glob p t -> glob (String "*" p) (s ++ t)
| glob_plus p s t :
    s <> "" -> every in_line s -> glob p t -> glob (String "+" p) (s ++ t)
| glob_opt_none p t : glob p t -> glob (String "?" p) t
| glob_opt_one p c t :
    in_line c -> glob p t -> glob (String "?" p) (String c t).

(** A pattern path covers a path: level by level. *)
Definition covers (ps ns : list string) : Prop := Forall2 glob ps ns.

(** A character does not occur in a string. *)
Definition free_of (c : ascii) (s : string) : Prop := every (fun d => d <> c) s.

(** Names joined by dots. *)
Fixpoint join (ns : list string) : string :=
  match ns with
  | [] => ""
  | [n] => n
  | n :: r => n ++ "." ++ join r
  end.

(** A path spells a list of names: the names, none of them empty and none
    with a dot inside, joined by dots; one more dot at the end does no
    harm. *)
Definition spells (path : string) (ns : list string) : Prop :=
  Forall (fun n => n <> "" /\ free_of "." n) ns /\
  (path = join ns \/ (ns <> [] /\ path = join ns ++ ".")).

(** A name that can be read: none of the seven characters that make a name
    a pattern for the parameter tree (src/sparta.cpp 136-147). *)
Definition readable (n : string) : Prop :=
  every (fun c => ~ In c ["("; ")"; "["; "]"; "*"; "?"; "+"]%char) n.

(** A name without characters that are special in a regular expression and
    that the parameter tree does not treat: the model says nothing about
    others. *)
Definition regular (n : string) : Prop :=
  every (fun c => ~ In c ["\"; "^"; "$"; "."; "{"; "}"; "|"]%char) n.

(** One list of names begins with another, shorter one. *)
Definition extends (ns ps : list string) : Prop :=
  exists x r, ns = (ps ++ x :: r)%list.
