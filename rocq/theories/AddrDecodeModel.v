(* Model of sparta/cache/DefaultAddrDecoder.hpp. *)
Require Import NArith Bool.
Require Import Verif.MathUtilsModel.
Open Scope N_scope.

(* DefaultAddrDecoder.hpp:53-58, the members in use. *)
Record decoder := Dec {
  blk_addr_mask : N; blk_offset_mask : N; index_shift : N; index_mask : N; tag_shift : N }.

(* DefaultAddrDecoder.hpp:22-42, the constructor. None: a failed assert (28-29) or a division by zero
   (34). sz_bytes, line_sz * num_ways and num_sets * stride are 64-bit; num_sets, index_mask_ and the
   shifts are truncated to 32 bits. *)
Definition make_decoder (sz line_sz stride num_ways : N) (kb : bool) : option decoder :=
  if negb (is_power_of_2 line_sz) then None else
  if negb (is_power_of_2 stride) then None else
  let sz_bytes := if kb then wrap 64 (sz * 1024) else sz in
  let way_bytes := wrap 64 (line_sz * num_ways) in
  if way_bytes =? 0 then None else
  let num_sets := wrap 32 (sz_bytes / way_bytes) in
  Some {| blk_offset_mask := line_sz - 1;
          blk_addr_mask := 2 ^ 64 - 1 - (line_sz - 1);
          index_mask := wrap 32 (num_sets + (2 ^ 32 - 1));
          index_shift := wrap 32 (floor_log2_64 stride);
          tag_shift := wrap 32 (floor_log2_64 (wrap 64 (num_sets * stride))) |}.

(* DefaultAddrDecoder.hpp:43, calcTag (a shift of 64 or more is undefined: None). *)
Definition calc_tag (d : decoder) (addr : N) : option N :=
  if tag_shift d <? 64 then Some (N.shiftr addr (tag_shift d)) else None.
(* DefaultAddrDecoder.hpp:44, calcIdx; the result type is uint32_t. *)
Definition calc_idx (d : decoder) (addr : N) : option N :=
  if index_shift d <? 64 then Some (wrap 32 (N.land (N.shiftr addr (index_shift d)) (index_mask d))) else None.
(* DefaultAddrDecoder.hpp:45, calcBlockAddr. *)
Definition calc_block_addr (d : decoder) (addr : N) : N := N.land addr (blk_addr_mask d).
(* DefaultAddrDecoder.hpp:46, calcBlockOffset. *)
Definition calc_block_offset (d : decoder) (addr : N) : N := N.land addr (blk_offset_mask d).
