(** Turning the text of a number into its value: sparta::utils::smartLexicalCast
    (sparta/sparta/utils/SmartLexicalCast.hpp, cited as "sl"; sparta/sparta/utils/LexicalCast.hpp, "lc";
    sparta/sparta/utils/Utils.hpp, "ut"). A std::string is the list of its characters; a position in it is represented by
    the characters from there on, std::string::npos by none. That identification loses nothing: find_first_not_of
    returns npos exactly if no character is left over, and parseNumericString (sl 185-209) gives "" both if it stops where
    it started and if it starts at the end. *)
From Coq Require Import List NArith ZArith Arith Bool Ascii String Lia.
From Verif Require Import LayoutModel StorageModel.
Import ListNotations.
Open Scope N_scope.

(** A text. *)
Definition text := list ascii.

(** A string literal as a text. *)
Definition str (s : string) : text := list_ascii_of_string s.

(** Membership of a character in a character set given as a string (std::string::find_first_not_of). *)
Definition isin (set : text) (c : ascii) : bool := existsb (Ascii.eqb c) set.

(** WHITESPACE (sl 111): blank, underscore, comma, tab, newline. *)
Definition WHITESPACE : text := [" "; "_"; ","; ascii_of_nat 9; ascii_of_nat 10]%char.
(** A character of WHITESPACE. *)
Definition ws (c : ascii) : bool := isin WHITESPACE c.

(** DECIMAL_DIGITS (sl 116). *)
Definition DECIMAL_DIGITS : text := str "0123456789.".

(** The table of prefixes (sl 73-77), one row per spelling, in the order in which they are tried (sl 236-237): spelling,
    radix, digits. *)
Definition prefixes : list (text * N * text) :=
  let hex := str "0123456789abcdefABCDEF" in
  [(str "0x", 16, hex); (str "0X", 16, hex); (str "0b", 2, str "01"); (str "0B", 2, str "01");
   (str "0", 8, str "01234567")].

(** The table of suffixes (sl 82-106), one row per spelling, in the order in which they are tried (sl 322-323). *)
Definition suffixes : list (text * N) :=
  [(str "ki", 2 ^ 10); (str "Ki", 2 ^ 10); (str "kI", 2 ^ 10); (str "KI", 2 ^ 10);
   (str "mi", 2 ^ 20); (str "Mi", 2 ^ 20); (str "mI", 2 ^ 20); (str "MI", 2 ^ 20);
   (str "gi", 2 ^ 30); (str "Gi", 2 ^ 30); (str "bi", 2 ^ 30); (str "Bi", 2 ^ 30);
   (str "gI", 2 ^ 30); (str "GI", 2 ^ 30); (str "bI", 2 ^ 30); (str "BI", 2 ^ 30);
   (str "ti", 2 ^ 40); (str "Ti", 2 ^ 40); (str "tI", 2 ^ 40); (str "TI", 2 ^ 40);
   (str "pi", 2 ^ 50); (str "Pi", 2 ^ 50); (str "pI", 2 ^ 50); (str "PI", 2 ^ 50);
   (str "n", 1); (str "N", 1); (str "k", 1000); (str "K", 1000); (str "m", 1000000); (str "M", 1000000);
   (str "g", 1000000000); (str "G", 1000000000); (str "b", 1000000000); (str "B", 1000000000);
   (str "t", 1000000000000); (str "T", 1000000000000); (str "p", 1000000000000000); (str "P", 1000000000000000)].

(** [s.find(p, pos) == pos] (sl 238-239, 324-326) for the text from pos on: what follows [p], if the text starts with it. *)
Fixpoint after (p s : text) : option text :=
  match p, s with
  | [], _ => Some s
  | a :: p', b :: s' => if Ascii.eqb a b then after p' s' else None
  | _ :: _, [] => None
  end.

(** find_first_not_of (sl 188, 219, 383): the characters up to the position found, and those from there on. *)
Fixpoint span (f : ascii -> bool) (s : text) : text * text :=
  match s with
  | [] => ([], [])
  | c :: r => if f c then let (a, b) := span f r in (c :: a, b) else ([], s)
  end.

(** parseNumericString (sl 185-209), for the text from pos on: the digits without separators, and the text from
    after_numeric on. Replacing every separator by "" (sl 202-206, ut 276-285) is filtering them out. *)
Definition parse_numeric (s digits : text) : text * text :=
  let (a, b) := span (fun c => isin digits c || ws c) s in (filter (fun c => negb (ws c)) a, b).

(** The value of a digit character in any of the radixes used. *)
Definition digit_value (c : ascii) : N :=
  let n := N_of_ascii c in
  if n <? 58 then n - 48 else if n <? 71 then n - 55 else n - 87.

(** std::stoul on a text of nothing but digits of the base. *)
Definition digits_value (base : N) (s : text) : N := fold_left (fun v c => v * base + digit_value c) s 0.

(** lexicalCast<uint64_t> (lc 120-132) on digits: std::stoul throws above the largest unsigned long, of 64 bits. *)
Definition lexical_cast (base : N) (s : text) : outcome N :=
  let v := digits_value base s in if v <? 2 ^ 64 then Done v else Refused.

(** The prefix loop (sl 234-263): the first row whose spelling starts the text and leaves digits to read gives radix,
    digits read and the text after them. *)
Fixpoint find_prefix (rows : list (text * N * text)) (s : text) : option (N * text * text) :=
  match rows with
  | [] => None
  | (p, radix, digits) :: rows' =>
      match after p s with
      | None => find_prefix rows' s
      | Some r =>
          match parse_numeric r digits with
          | ([], _) => find_prefix rows' s
          | (num, r') => Some (radix, num, r')
          end
      end
  end.

(** The suffix loop (sl 320-339): multiplier and the text after the suffix; without suffix 1 and the text itself. *)
Fixpoint find_suffix (rows : list (text * N)) (s : text) : N * text :=
  match rows with
  | [] => (1, s)
  | (p, m) :: rows' => match after p s with Some r => (m, r) | None => find_suffix rows' s end
  end.

(** The fraction loop (sl 349-363): digit by digit, each digit times the multiplier divided by the place. [ch - '0'] is
    asserted to be a digit (sl 351-352); a digit contributing nothing is refused (sl 354-359); ten_div is a uint32_t, so
    10 * ten_div wraps at 2^32, and a division by 0 (sl 360) is undefined. *)
Fixpoint add_fraction (fractional : text) (mult ten_div value : N) : outcome N :=
  match fractional with
  | [] => Done value
  | ch :: r =>
      let n := N_of_ascii ch in
      if (n <? 48) || (57 <? n) then Asserted
      else
        let frac := w64 ((n - 48) * mult) in
        if frac <? ten_div then Refused
        else if ten_div =? 0 then Undefined
        else add_fraction r mult (ten_div * 10 mod 2 ^ 32) (w64 (value + frac / ten_div))
  end.

(** numeric.find('.') and the split of sl 281-289: digits before the first point and, if there is one, after it. *)
Fixpoint split_point (s : text) : text * option text :=
  match s with
  | [] => ([], None)
  | c :: r => if Ascii.eqb c "."%char then ([], Some r) else let (a, b) := split_point r in (c :: a, b)
  end.

(** smartLexicalCast<uint64_t> from the extracted digits on (sl 270-391): [s] is the whole text, [num] the digits,
    [r] the text after them, [recur] the recursion of sl 369-372 on the text after the suffix. *)
Definition cast_rest (recur : text -> outcome (N * option nat)) (allow_recursion : bool) (s : text)
    (radix : N) (num r : text) : outcome (N * option nat) :=
  match num with
  | [] => Refused
  | _ :: _ =>
      let (whole, frac) := split_point num in
      match frac with
      | Some [] => Refused
      | _ =>
          let fractional := match frac with Some f => f | None => [] end in
          obind (match whole with [] => Done 0 | _ => lexical_cast radix whole end) (fun value =>
          match r with
          | [] => match fractional with [] => Done (value, None) | _ => Refused end
          | _ :: _ =>
              let (mult, r2) := find_suffix suffixes r in
              obind (add_fraction fractional mult 10 (w64 (value * mult))) (fun value =>
              obind (if allow_recursion then
                       obind (recur r2) (fun '(addition, end_pos) => Done (w64 (value + addition), end_pos))
                     else Done (value, Some (List.length s - List.length r2)%nat)) (fun '(value, end_pos) =>
              match end_pos with
              | None => Done (value, None)
              | Some e => match snd (span ws (skipn e s)) with [] => Done (value, Some e) | _ => Refused end
              end))
          end)
      end
  end.

(** smartLexicalCast<uint64_t> (sl 211-392): the value and end_pos ([None] is npos). The depth bounds the recursion of
    sl 369-372; [text_depth] suffices. *)
Fixpoint cast_rec (depth : nat) (allow_recursion allow_prefix : bool) (s : text) : outcome (N * option nat) :=
  match depth with
  | O => TooDeep
  | Datatypes.S depth' =>
      match snd (span ws s) with
      | [] => Done (0, None)
      | s1 =>
          match (if allow_prefix then find_prefix prefixes s1 else None) with
          | Some (radix, num, r) => cast_rest (cast_rec depth' true false) allow_recursion s radix num r
          | None => let (num, r) := parse_numeric s1 DECIMAL_DIGITS in
                    cast_rest (cast_rec depth' true false) allow_recursion s 10 num r
          end
      end
  end.

(** Enough depth for a text: each recursion is on a shorter one. *)
Definition text_depth (s : text) : nat := Datatypes.S (List.length s).

(** smartLexicalCast<uint64_t> with both options explicit (sl 211-215). *)
Definition cast_u64_opt (allow_recursion allow_prefix : bool) (s : text) : outcome (N * option nat) :=
  cast_rec (text_depth s) allow_recursion allow_prefix s.

(** smartLexicalCast<uint64_t> as parameters and command-line options call it (sl 166-169: both options default to true):
    the value. *)
Definition cast_u64 (s : text) : outcome N := obind (cast_u64_opt true true s) (fun '(v, _) => Done v).

(** smartLexicalCast<uint32_t>, <uint16_t>, <uint8_t> (sl 394-431), for the number of bits of the type. *)
Definition cast_unsigned (bits : N) (s : text) : outcome N :=
  obind (cast_u64 s) (fun v => if 2 ^ bits <=? v then Refused else Done v).

(** smartLexicalCast<int64_t> (sl 433-461). Multiplying INT64_MIN by -1 (sl 457-459) overflows: undefined. *)
Definition cast_i64 (s : text) : outcome Z :=
  let '(negate, s') :=
    match snd (span ws s) with
    | c :: r => if Ascii.eqb c "-"%char then (true, r) else (false, s)
    | [] => (false, s)
    end in
  obind (cast_u64 s') (fun v =>
  if negb negate && (2 ^ 63 <=? v) || negate && (2 ^ 63 <? v) then Refused
  else if negate then (if v =? 2 ^ 63 then Undefined else Done (- Z.of_N v)%Z)
  else Done (Z.of_N v)).

(** Conversion to a signed type of [bits] bits, modulo 2^bits. *)
Definition to_signed (bits : Z) (v : Z) : Z := ((v + 2 ^ (bits - 1)) mod 2 ^ bits - 2 ^ (bits - 1))%Z.

(** smartLexicalCast<int32_t> (sl 463-475). *)
Definition cast_i32 (s : text) : outcome Z :=
  obind (cast_i64 s) (fun v => if ((2 ^ 31 <=? v) || (v <? - 2 ^ 31))%Z then Refused else Done (to_signed 32 v)).
(** smartLexicalCast<int16_t> (sl 477-489): the bound tested is 2^16. *)
Definition cast_i16 (s : text) : outcome Z :=
  obind (cast_i64 s) (fun v => if ((2 ^ 16 <=? v) || (v <? - 2 ^ 16))%Z then Refused else Done (to_signed 16 v)).
(** smartLexicalCast<int8_t> (sl 491-503): the bound tested is 2^8. *)
Definition cast_i8 (s : text) : outcome Z :=
  obind (cast_i64 s) (fun v => if ((2 ^ 8 <=? v) || (v <? - 2 ^ 8))%Z then Refused else Done (to_signed 8 v)).
