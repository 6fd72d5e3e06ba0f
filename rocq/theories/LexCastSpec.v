(** The notation for numbers that sparta::utils::smartLexicalCast documents
    (sparta/sparta/utils/SmartLexicalCast.hpp 64-162), written down without reference to how it is parsed. *)
From Coq Require Import List NArith ZArith Arith Bool Ascii String Lia.
From Verif Require Import LexCastModel.
Import ListNotations.
Open Scope N_scope.

(** A separator: blank, underscore, comma, tab or newline (SmartLexicalCast.hpp 108-111). *)
Definition separator (c : ascii) : Prop := In (nat_of_ascii c) [32; 95; 44; 9; 10]%nat.

(** A lower-case letter instead of an upper-case one (the suffix table, SmartLexicalCast.hpp 82-106, and the digits of
    hexadecimal numbers, 74, hold every letter in both cases). *)
Definition lower (c : ascii) : N := let n := N_of_ascii c in if (65 <=? n) && (n <=? 90) then n + 32 else n.

(** The digit a character stands for (SmartLexicalCast.hpp 73-77, 116). *)
Definition digit (radix : N) (c : ascii) : option N :=
  let n := lower c in
  let d := if (48 <=? n) && (n <=? 57) then Some (n - 48)
           else if (97 <=? n) && (n <=? 102) then Some (n - 87) else None in
  match d with Some d => if d <? radix then Some d else None | None => None end.

(** The number a sequence of digits stands for, by place value (SmartLexicalCast.hpp 43-50). *)
Fixpoint positional (radix : N) (ds : text) : N :=
  match ds with
  | [] => 0
  | c :: r => match digit radix c with Some d => d | None => 0 end * radix ^ N.of_nat (List.length r) + positional radix r
  end.

(** All characters are digits (SmartLexicalCast.hpp 57-60). *)
Definition all_digits (radix : N) (ds : text) : Prop := Forall (fun c => digit radix c <> None) ds.

(** The factor a suffix stands for; no suffix is the factor 1 (SmartLexicalCast.hpp 79-106): n, k, m, g or b, t, p by
    powers of 1000, and the latter five followed by i by powers of 1024. *)
Definition unit_value (u : text) : option N :=
  match map lower u with
  | [] => Some 1
  | [110] => Some 1
  | [107] => Some (1000 ^ 1) | [109] => Some (1000 ^ 2) | [103] => Some (1000 ^ 3) | [98] => Some (1000 ^ 3)
  | [116] => Some (1000 ^ 4) | [112] => Some (1000 ^ 5)
  | [107; 105] => Some (1024 ^ 1) | [109; 105] => Some (1024 ^ 2) | [103; 105] => Some (1024 ^ 3)
  | [98; 105] => Some (1024 ^ 3) | [116; 105] => Some (1024 ^ 4) | [112; 105] => Some (1024 ^ 5)
  | _ => None
  end.

(** A decimal summand: digits, digits after the point ([[]]: no point), suffix (SmartLexicalCast.hpp 119-160). *)
Record term := mkTerm { t_int : text; t_frac : text; t_unit : text }.
(** A first summand with a radix prefix: prefix, digits, suffix (SmartLexicalCast.hpp 42-77). *)
Record head := mkHead { h_prefix : text; h_digits : text; h_unit : text }.
(** A number: possibly a summand with a prefix, then decimal ones (SmartLexicalCast.hpp 123-130). *)
Record literal := mkLit { l_head : option head; l_terms : list term }.

(** The radix of a prefix (SmartLexicalCast.hpp 73-77). *)
Definition radix_of (p : text) : option N :=
  match map lower p with [48; 120] => Some 16 | [48; 98] => Some 2 | [48] => Some 8 | _ => None end.

(** The characters of a text as tokens (SmartLexicalCast.hpp 108-111: separators may stand between digits). *)
Definition singles (s : text) : list text := map (fun c => [c]) s.

(** A suffix as a token, none if there is none. *)
Definition unit_token (u : text) : list text := match u with [] => [] | _ => [u] end.

(** The tokens of a summand, of a first summand, of a number (SmartLexicalCast.hpp 119-160). *)
Definition term_tokens (t : term) : list text :=
  singles (t_int t) ++ match t_frac t with [] => [] | f => [["."%char]] ++ singles f end ++ unit_token (t_unit t).
Definition head_tokens (h : head) : list text := [h_prefix h] ++ singles (h_digits h) ++ unit_token (h_unit h).
Definition tokens (l : literal) : list text :=
  match l_head l with Some h => head_tokens h | None => [] end ++ List.concat (map term_tokens (l_terms l)).

(** A text consisting of the tokens with any separators between, before and after them (SmartLexicalCast.hpp 108-111). *)
Inductive spelled : list text -> text -> Prop :=
| sp_end w : Forall separator w -> spelled [] w
| sp_token w t toks s : Forall separator w -> spelled toks s -> spelled (t :: toks) (w ++ t ++ s).

(** Well-formed summands: digits, at least one, and a known suffix (SmartLexicalCast.hpp 73-116). *)
Definition term_ok (t : term) : Prop :=
  all_digits 10 (t_int t) /\ all_digits 10 (t_frac t) /\ (t_int t <> [] \/ t_frac t <> []) /\
  unit_value (t_unit t) <> None.
Definition head_ok (h : head) : Prop :=
  exists r, radix_of (h_prefix h) = Some r /\ all_digits r (h_digits h) /\ h_digits h <> [] /\ unit_value (h_unit h) <> None.

(** The factor of a well-formed summand's suffix. *)
Definition factor (u : text) : N := match unit_value u with Some m => m | None => 0 end.

(** The value of summands and numbers: the value [v] of 12.34k is such that 100 * v = 1234 * 1000
    (SmartLexicalCast.hpp 155-159). *)
Definition term_value (t : term) (v : N) : Prop :=
  v * 10 ^ N.of_nat (List.length (t_frac t)) = positional 10 (t_int t ++ t_frac t) * factor (t_unit t).
Definition head_value (h : head) (v : N) : Prop :=
  exists r, radix_of (h_prefix h) = Some r /\ v = positional r (h_digits h) * factor (h_unit h).
Inductive terms_value : list term -> N -> Prop :=
| tv_nil : terms_value [] 0
| tv_cons t ts v vs : term_value t v -> terms_value ts vs -> terms_value (t :: ts) (v + vs).
Definition lit_value (l : literal) (v : N) : Prop :=
  match l_head l with
  | None => terms_value (l_terms l) v
  | Some h => exists a b, head_value h a /\ terms_value (l_terms l) b /\ v = a + b
  end.

(** No summand but the last is without suffix. *)
Fixpoint units_between (us : list text) : Prop :=
  match us with u :: ((_ :: _) as r) => u <> [] /\ units_between r | _ => True end.

(** A number that can be read in one way only: suffixes separate the summands; the suffix of a hexadecimal first summand
    is not one of the b's, which are digits (SmartLexicalCast.hpp 66-72); without a prefix the number does not start with
    a 0, unless it is 0 or the 0 of 0.5 (SmartLexicalCast.hpp 129-131: prefixes and suffixes are ambiguous). *)
Definition unambiguous (l : literal) : Prop :=
  units_between (match l_head l with Some h => [h_unit h] | None => [] end ++ map t_unit (l_terms l)) /\
  match l_head l with
  | Some h => match h_unit h with c :: _ => radix_of (h_prefix h) = Some 16 -> lower c <> 98 | [] => True end
  | None => match l_terms l with
            | t :: ts => forall r, t_int t = "0"%char :: r ->
                           r = [] /\ (t_frac t <> [] \/ (t_unit t = [] /\ ts = []))
            | [] => True
            end
  end.

(** What the parser demands of a fraction beyond being one: at most nine digits, none of them 0, each of them worth a
    whole number (SmartLexicalCast.hpp 345-363). *)
Definition fraction_ok (t : term) : Prop :=
  (List.length (t_frac t) <= 9)%nat /\
  forall i c d, nth_error (t_frac t) i = Some c -> digit 10 c = Some d ->
    d <> 0 /\ exists q, d * factor (t_unit t) = q * 10 ^ N.of_nat (Datatypes.S i).

(** The worth of the digits of a fraction, the first of them [i] places after the first, each rounded down to a whole
    number (SmartLexicalCast.hpp 345-363), and the values of summands and numbers with fractions rounded so. *)
Fixpoint frac_sum (f : text) (m : N) (i : N) : N :=
  match f with
  | [] => 0
  | c :: r => (match digit 10 c with Some d => d | None => 0 end) * m / 10 ^ (i + 1) + frac_sum r m (i + 1)
  end.
Definition term_floor (t : term) : N :=
  positional 10 (t_int t) * factor (t_unit t) + frac_sum (t_frac t) (factor (t_unit t)) 0.
Definition head_floor (h : head) : N :=
  match radix_of (h_prefix h) with Some r => positional r (h_digits h) * factor (h_unit h) | None => 0 end.
Definition lit_floor (l : literal) : N :=
  match l_head l with Some h => head_floor h | None => 0 end + fold_right N.add 0 (map term_floor (l_terms l)).
