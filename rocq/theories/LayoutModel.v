(** Laying out segments in a sparta::ArchData (sparta/sparta/functional/ArchData.hpp, cited as "ad";
    sparta/sparta/functional/ArchDataSegment.hpp, cited as "as"; sparta/sparta/functional/DataView.hpp, "dv"). *)
From Coq Require Import List NArith Arith Bool Lia.
From Verif Require Import MathUtilsModel.
Import ListNotations.
Open Scope N_scope.

(** How a call ends: normally, with a SpartaException, with a failed sparta_assert, in undefined behaviour, or - for the
    recursion of placeSegment_, ad 1553 - deeper than the given bound. *)
Inductive outcome (A : Type) := Done (a : A) | Refused | Asserted | Undefined | TooDeep.
Arguments Done {A} a. Arguments Refused {A}. Arguments Asserted {A}. Arguments Undefined {A}. Arguments TooDeep {A}.

(** offset_type is uint64_t (as 35): sums wrap. *)
Definition w64 (x : N) : N := x mod 2 ^ 64.

(** The constructor's checks of line_size and the mask it computes (ad 465-505): line_mask_ = ~((1 << line_lsb_) - 1) with
    an int 1, undefined from bit 31 on (MAX_LINE_SIZE, ad 95, admits exactly bit 31). line_size 0 means one line without
    bound, mask 0. The log2 in floating point is exact for powers of two up to 2^31. *)
Definition line_mask (L : N) : outcome N :=
  if L =? 0 then Done 0
  else if 2 ^ 31 <? L then Asserted
  else if negb (is_power_of_2 L) then Refused
  else if L =? 2 ^ 31 then Undefined
  else Done (2 ^ 64 - L).

(** A segment's constant attributes (as 44-67, 160-190): identifier ([None] is INVALID_ID), size, the identifier of the
    segment it is a subset of, the offset in it; g_view tells a DataView, whose place_ (dv 408-412) checks the placement,
    from a bare segment, whose place_ does nothing. *)
Record seg := mkSeg { g_id : option N; g_size : N; g_sub : option N; g_off : N; g_view : bool }.

(** isPowerOf2 (sparta/sparta/utils/Utils.hpp 153-155): accepts 0. *)
Definition pow2_or_0 (x : N) : bool := (x =? 0) || (N.land x (x - 1) =? 0).

(** Constructing a segment: as 44-67 for the size; dv 94-97 for a DataView with an offset but no parent. *)
Definition seg_ctor (s : seg) : bool :=
  pow2_or_0 (g_size s) &&
  negb (g_view s && match g_sub s with None => negb (g_off s =? 0) | Some _ => false end).

(** checkDataSize (ad 895-907): [true] if accepted. *)
Definition data_size_ok (L size : N) : bool := negb (size =? 0) && negb (negb (L =? 0) && (L <? size)).

(** Equality of valid identifiers (ad 562). *)
Definition same_id (a b : option N) : bool := match a, b with Some x, Some y => x =? y | _, _ => false end.

(** registerSegment (ad 551-573) before layout. That the same object is not registered twice (ad 557) is left out: the
    list holds distinct objects. *)
Definition register (L : N) (segs : list seg) (s : seg) : outcome (list seg) :=
  if negb (seg_ctor s) then Refused
  else if negb (data_size_ok L (g_size s)) then Refused
  else if existsb (fun o => same_id (g_id s) (g_id o)) segs then Refused
  else Done (segs ++ [s]).

(** Constructing and registering a sequence of segments. *)
Fixpoint register_all (L : N) (segs l : list seg) : outcome (list seg) :=
  match l with
  | [] => Done segs
  | s :: r => match register L segs s with Done segs' => register_all L segs' r | Refused => Refused | Asserted => Asserted
              | Undefined => Undefined | TooDeep => TooDeep end
  end.

(** Layout state: size_, num_lines_laid_out_ (uint32_t, ad 1652) and the placement of each registered segment, by position
    in seg_list_ (is_placed_ and offset_, as 196-197). The waste counters (ad 1576, 1591) are left out. *)
Record lay := mkLay { y_size : N; y_lines : N; y_at : nat -> option N }.

(** helper_map (ad 609-624): lookup by identifier. *)
Fixpoint find_id (segs : list seg) (id : N) (i : nat) : option nat :=
  match segs with
  | [] => None
  | s :: r => if same_id (g_id s) (Some id) then Some i else find_id r id (S i)
  end.
(** The duplicate check of layout (ad 616-620). *)
Fixpoint dup_id (segs : list seg) : bool :=
  match segs with [] => false | s :: r => existsb (fun o => same_id (g_id s) (g_id o)) r || dup_id r end.

(** checkInSingleLine (ad 933-938), with wrapping differences. *)
Definition in_line_ok (L mask off size : N) : bool :=
  negb (L <? w64 (w64 (off + size) + 2 ^ 64 - N.land off mask)).
(** checkSegment (ad 913-924). *)
Definition segment_ok (L mask total off size : N) : bool :=
  data_size_ok L size && in_line_ok L mask off size && negb (total <? w64 (off + size)).

(** seg->place(placement) (ad 1611; as 81-91; dv 408-412): refused if placed already; a DataView checks the placement and gets the line, which asserts
    that the offset is inside (ad 681-684). *)
Definition put (L mask : N) (s : seg) (i : nat) (p : N) (y : lay) : outcome lay :=
  match y_at y i with Some _ => Refused | None =>
  if g_view s && negb (segment_ok L mask (y_size y) p (g_size s)) then Refused
  else if g_view s && negb (p <? y_size y) then Asserted
  else Done (mkLay (y_size y) (y_lines y) (fun k => if Nat.eqb k i then Some p else y_at y k))
  end.

(** Host word, HOST_INT_SIZE (sparta/sparta/utils/ByteOrder.hpp 28). *)
Definition host_int : N := 4.

(** placeSegment_ for a segment that is not a subset (ad 1567-1609). *)
Definition place_root (L mask : N) (s : seg) (i : nat) (y : lay) : outcome lay :=
  let sz0 := y_size y in
  let sz := if sz0 mod host_int =? 0 then sz0 else w64 (sz0 + (host_int - sz0 mod host_int)) in
  let first := N.land sz mask in
  let last := N.land (w64 (sz + g_size s + 2 ^ 64 - 1)) mask in
  let fin sz lines := if sz mod host_int =? 0 then put L mask s i sz (mkLay (w64 (sz + g_size s)) lines (y_at y))
                      else Asserted in
  if negb (first =? last)
  then if first <? last then fin (w64 (first + L)) ((y_lines y + 1) mod 2 ^ 32) else Asserted
  else if y_lines y * L <=? first
       then if sz - first =? 0 then fin sz ((y_lines y + 1) mod 2 ^ 32) else Asserted
       else fin sz (y_lines y).

(** placeSegment_ (ad 1513-1614); the depth of the recursion is bounded by [fuel]. *)
Fixpoint place (fuel : nat) (L mask : N) (segs : list seg) (i : nat) (y : lay) : outcome lay :=
  match fuel with
  | O => TooDeep
  | S f =>
    match y_at y i with
    | Some _ => Done y
    | None =>
      match nth_error segs i with
      | None => Asserted
      | Some s =>
        match g_sub s with
        | None => place_root L mask s i y
        | Some id =>
          match find_id segs id 0 with
          | None => Refused
          | Some j =>
            match place f L mask segs j y with
            | Done y' =>
              match y_at y' j, nth_error segs j with
              | Some o, Some ps =>
                if g_size ps <? w64 (g_size s + g_off s) then Refused
                else put L mask s i (w64 (o + g_off s)) y'
              | _, _ => Asserted
              end
            | e => e
            end
          end
        end
      end
    end
  end.

(** The loop over seg_list_ (ad 626-630), from position [i] on. *)
Fixpoint place_all (fuel : nat) (L mask : N) (segs : list seg) (todo : list nat) (y : lay) : outcome lay :=
  match todo with
  | [] => Done y
  | i :: r => match place fuel L mask segs i y with Done y' => place_all fuel L mask segs r y' | e => e end
  end.

(** layout (ad 603-639) of a freshly constructed ArchData with these segments registered; the initial values written
    afterwards (ad 634-637) do not change placements. *)
Definition layout (fuel : nat) (L : N) (segs : list seg) : outcome lay :=
  match line_mask L with
  | Done mask =>
    if dup_id segs then Refused
    else place_all fuel L mask segs (seq 0 (length segs)) (mkLay 0 0 (fun _ => None))
  | Refused => Refused | Asserted => Asserted | Undefined => Undefined | TooDeep => TooDeep
  end.
