(** sparta::RegisterBase, its Field and Register (sparta/sparta/functional/Register.hpp, cited as "rg"), on top of
    RegisterBits ("rb", RegisterBitsModel) and the lines of ArchData ("ad", ArchDataModel). *)
From Coq Require Import List NArith ZArith Arith Bool Lia.
From Verif Require Import BitArrayModel RegisterBitsModel MathUtilsModel LayoutModel ArchDataModel StorageModel.
Import ListNotations.
Open Scope N_scope.

(** A RegisterBits that owns its bytes: num_bytes_ and the storage behind remote_data_ (rb 729-733), which has at least the
    eight bytes of local_storage_, zeroed by the constructors (rb 86-98, 107-122). The bytes above num_bytes_ matter: the
    operators read as many bytes of the right operand as the left one has. *)
Record rbits := mkRB { q_n : nat; q_buf : bytes }.
(** The bytes that count (rb 678-680). *)
Definition q_view (q : rbits) : bytes := firstn (q_n q) (q_buf q).
(** A new object holding these bytes (rb 86-98, then the stores of rb 32-62). *)
Definition q_fresh (l : bytes) : rbits := mkRB (length l) (l ++ repeat 0 (8 - length l)).
(** RegisterBits(const uint8_t*, n) (rb 144-147): a view of exactly these bytes. *)
Definition q_wrap (l : bytes) : rbits := mkRB (length l) l.
(** operator| and operator& (rb 209-274): the right operand's storage is read. Sizes without implementation give
    RegisterBits(nullptr), here an object of size 0 (its storage is never read below). *)
Definition q_merge (f : N -> N -> N) (a b : rbits) : option rbits := option_map q_fresh (rb_merge f (q_view a) (q_buf b)).
(** operator|= (rb 491-520): the storage above num_bytes_ stays. *)
Definition q_or_in (a b : rbits) : option rbits :=
  option_map (fun l => mkRB (q_n a) (l ++ skipn (q_n a) (q_buf a))) (rb_merge N.lor (q_view a) (q_buf b)).
(** operator~ (rb 280-306). *)
Definition q_not (a : rbits) : option rbits := option_map q_fresh (rb_not (q_view a)).
(** operator>>(uint32_t) (rb 313-398). *)
Definition q_shr (x86 : bool) (a : rbits) (k : N) : option rbits := option_map q_fresh (rb_shr x86 (q_view a) (k mod 2 ^ 32)).
(** operator<<(uint32_t) (rb 405-489). *)
Definition q_shl (a : rbits) (k : N) : option rbits := option_map q_fresh (rb_shl (q_view a) (k mod 2 ^ 32)).
(** operator<<=(uint32_t) (rb 526-615). *)
Definition q_shl_in (a : rbits) (k : N) : option rbits :=
  option_map (fun l => mkRB (q_n a) (l ++ skipn (q_n a) (q_buf a))) (rb_shl_in (q_view a) (k mod 2 ^ 32)).
(** set of a uint64_t (rb 646-651): memcpy of eight bytes into the storage, whatever num_bytes_ is. *)
Definition q_set64 (a : rbits) (v : N) : option rbits := option_map (mkRB (q_n a)) (rb_set 8 (q_buf a) v).
(** [None] of RegisterBitsModel is undefined behaviour. *)
Definition lift {A} (o : option A) : outcome A := match o with Some a => Done a | None => Undefined end.

(** Field::Definition (rg 176-207) without name and description; size_type is uint64_t. *)
Record fdef := mkFD { f_low : N; f_high : N; f_ro : bool }.

(** computeWriteMask_ (rg 1370-1378): the loop over the fields, before any of them is checked. *)
Fixpoint ro_loop (x86 : bool) (n : nat) (m : rbits) (l : list fdef) : outcome rbits :=
  match l with
  | [] => Done m
  | f :: r =>
      if f_ro f
      then let size := w64 (f_high f + 2 ^ 64 - f_low f + 1) in
           let down := w64 (8 * N.of_nat n + 2 ^ 64 - size) in
           obind (lift (q_shr x86 (q_fresh (rb_fill (repeat 0 n) 255)) down)) (fun a =>
           obind (lift (q_shl a (f_low f))) (fun b =>
           obind (lift (q_or_in m b)) (fun m' => ro_loop x86 n m' r)))
      else ro_loop x86 n m r
  end.
(** computeWriteMask_ (rg 1357-1381). *)
Definition write_mask (x86 : bool) (n : nat) (l : list fdef) : outcome rbits :=
  if negb (pow2_or_0 (N.of_nat n)) then Refused
  else obind (ro_loop x86 n (q_fresh (repeat 0 n)) l) (fun m => lift (q_not m)).

(** Field (rg 417-440): definition and masks. *)
Record fld := mkF { fl_def : fdef; fl_mask : rbits; fl_not : rbits }.
(** computeFieldMask_ (rg 138-150): the bit positions are cut to uint32_t. Shifting a uint64_t by 64 or more is undefined. *)
Definition field_mask (n : nat) (f : fdef) : outcome rbits :=
  let ones := (f_high f mod 2 ^ 32 + 2 ^ 32 - f_low f mod 2 ^ 32 + 1) mod 2 ^ 32 in
  let sh := w64 (64 + 2 ^ 64 - ones) in
  if 64 <=? sh then Undefined
  else obind (lift (q_set64 (q_fresh (repeat 0 n)) (N.shiftr (2 ^ 64 - 1) sh))) (fun m => lift (q_shl_in m (f_low f))).
(** Field constructor (rg 216-256): the masks are computed before the definition is checked. Names are not modelled. *)
Definition field_make (n : nat) (f : fdef) : outcome fld :=
  obind (field_mask n f) (fun m =>
  obind (lift (q_not m)) (fun nm =>
    let bits := w64 (8 * N.of_nat n) in
    if f_high f <? f_low f then Refused
    else if bits <=? f_low f then Refused
    else if bits <=? f_high f then Refused
    else if 64 <? w64 (f_high f - f_low f + 1) then Refused
    else Done (mkF f m nm))).
(** addField for every definition (rg 769-771). *)
Fixpoint fields_make (n : nat) (l : list fdef) : outcome (list fld) :=
  match l with [] => Done [] | f :: r => obind (field_make n f) (fun x => obind (fields_make n r) (fun xs => Done (x :: xs))) end.

(** A register in the tree: size, offset of its DataView in its line, Definition::writable, initial value ([None] for a null
    pointer), fields and write mask (rg 1390-1414, 1651). Groups, aliases, banks and callbacks are not modelled. *)
Record reg := mkReg { g_n : nat; g_off : N; g_writable : bool; g_init : option bytes; g_flds : list fld; g_mask : rbits }.
(** RegisterBase constructor (rg 722-786). *)
Definition reg_make (x86 : bool) (n : nat) (off : N) (wr : bool) (init : option bytes) (l : list fdef) : outcome reg :=
  obind (write_mask x86 n l) (fun m =>
  if negb (pow2_or_0 (N.of_nat n)) || (N.of_nat n =? 0) then Refused
  else obind (fields_make n l) (fun fs => Done (mkReg n off wr init fs m))).

(** What observers are told: the register's bytes after a read; before and after a write (rg 451-500, 1513-1514). *)
Inductive note := NRead (now : bytes) | NWrite (prior now : bytes).
(** The line the registers live in, its size, whether assert() is compiled in, whether the notification sources are observed
    (for all registers alike), and the notifications sent, latest first. prior_val_dview_ (rg 1657) occupies other bytes (C36)
    and is kept in the notification instead. *)
Record rst := mkRS { s_line : line; s_L : N; s_debug : bool; s_robs : bool; s_wobs : bool; s_log : list note }.
(** Another line contents. *)
Definition with_line (s : rst) (x : line) : rst := mkRS x (s_L s) (s_debug s) (s_robs s) (s_wobs s) (s_log s).
(** A notification is sent. *)
Definition noted (s : rst) (e : note) : rst := mkRS (s_line s) (s_L s) (s_debug s) (s_robs s) (s_wobs s) (e :: s_log s).
(** The register's bytes (what the DataViews given to the observers show). *)
Definition reg_bytes (g : reg) (s : rst) : bytes := firstn (g_n g) (skipn (N.to_nat (g_off g)) (l_data (s_line s))).

(** assert(isWritable()) (rg 1014, 1218, ...): a plain assert, absent when NDEBUG is defined. *)
Definition may_write (g : reg) (s : rst) : bool := g_writable g || negb (s_debug s).
(** The bounds assertion of the buffer accesses (rg 1206, 1212, 1219, ...): a size_t sum. *)
Definition in_reg (g : reg) (size off : N) : bool := w64 (off + size) <=? N.of_nat (g_n g).
(** Register::peek_ (rg 1598-1602). *)
Definition peek_ (g : reg) (s : rst) (size off : N) : outcome bytes := line_read (s_L s) (s_line s) (w64 (g_off g + off)) size.
(** Register::poke_ (rg 1623-1628). *)
Definition poke_ (g : reg) (s : rst) (buf : bytes) (off : N) : outcome rst :=
  if negb (may_write g s) then Asserted
  else obind (line_write (s_L s) (s_line s) (w64 (g_off g + off)) buf) (fun x => Done (with_line s x)).
(** Register::read_ (rg 1588-1596). *)
Definition read_ (g : reg) (s : rst) (size off : N) : outcome (rst * bytes) :=
  obind (peek_ g s size off) (fun b => Done (if s_robs s then noted s (NRead (reg_bytes g s)) else s, b)).
(** Register::write_ (rg 1609-1621). *)
Definition write_ (g : reg) (s : rst) (buf : bytes) (off : N) : outcome rst :=
  if negb (may_write g s) then Asserted
  else obind (poke_ g s buf off) (fun s' => Done (if s_wobs s then noted s' (NWrite (reg_bytes g s) (reg_bytes g s')) else s')).

(** read and peek of bytes (rg 1204-1214). *)
Definition reg_read (g : reg) (s : rst) (size off : N) : outcome (rst * bytes) :=
  if in_reg g size off then read_ g s size off else Asserted.
(** See reg_read (rg 1210-1214). *)
Definition reg_peek (g : reg) (s : rst) (size off : N) : outcome bytes :=
  if in_reg g size off then peek_ g s size off else Asserted.
(** The merged bytes of write and poke (rg 1220-1222, 1237-1239). old.data() has fewer bytes than are stored if an operator had
    no implementation for the size: indeterminate bytes. *)
Definition masked (x86 : bool) (g : reg) (s : rst) (val : bytes) (off : N) : outcome bytes :=
  obind (lift (q_shr x86 (g_mask g) (8 * off))) (fun m =>
  obind (peek_ g s (N.of_nat (length val)) off) (fun p =>
  obind (lift (q_not m)) (fun nm =>
  obind (lift (q_merge N.land (q_fresh p) nm)) (fun a =>
  obind (lift (q_merge N.land (q_wrap val) m)) (fun b =>
  obind (lift (q_merge N.lor a b)) (fun r =>
  if (q_n r <? length val)%nat then Undefined else Done (firstn (length val) (q_buf r)))))))).
(** write (rg 1216-1224) and poke (rg 1233-1241) of bytes: [how] is write_ or poke_. *)
Definition masked_access (how : reg -> rst -> bytes -> N -> outcome rst) (x86 : bool) (g : reg) (s : rst) (val : bytes) (off : N) : outcome rst :=
  if negb (may_write g s) then Asserted
  else if negb (in_reg g (N.of_nat (length val)) off) then Asserted
  else obind (masked x86 g s val off) (fun b => how g s b off).
(** writeUnmasked (rg 1226-1231) and pokeUnmasked (rg 1243-1248) of bytes. *)
Definition plain_access (how : reg -> rst -> bytes -> N -> outcome rst) (g : reg) (s : rst) (val : bytes) (off : N) : outcome rst :=
  if negb (may_write g s) then Asserted
  else if negb (in_reg g (N.of_nat (length val)) off) then Asserted
  else how g s val off.
(** write (rg 1216-1224). *)
Definition reg_write := masked_access write_.
(** poke (rg 1233-1241). *)
Definition reg_poke := masked_access poke_.
(** writeUnmasked of bytes (rg 1226-1231). *)
Definition reg_writeU := plain_access write_.
(** pokeUnmasked of bytes (rg 1243-1248). *)
Definition reg_pokeU := plain_access poke_.

(** The typed accesses of RegisterBase (rg 982-1075), sizeof(T) = [sz], index a uint32_t: the offset is idx * sizeof(T). *)
Definition toff (sz : nat) (idx : N) : N := idx mod 2 ^ 32 * N.of_nat sz.
(** write<T> (rg 1012-1016). *)
Definition reg_writeT x86 g s (sz : nat) (v idx : N) : outcome rst := reg_write x86 g s (wr sz v) (toff sz idx).
(** poke<T> (rg 1059-1063). *)
Definition reg_pokeT x86 g s (sz : nat) (v idx : N) : outcome rst := reg_poke x86 g s (wr sz v) (toff sz idx).
(** pokeUnmasked<T> (rg 1071-1075). *)
Definition reg_pokeUT g s (sz : nat) (v idx : N) : outcome rst := reg_pokeU g s (wr sz v) (toff sz idx).
(** RegisterBase::writeUnmasked<T> (rg 1040-1044). *)
Definition reg_writeUT g s (sz : nat) (v idx : N) : outcome rst := reg_writeU g s (wr sz v) (toff sz idx).
(** read<T> (rg 982-987). *)
Definition reg_readT g s (sz : nat) (idx : N) : outcome (rst * N) :=
  obind (reg_read g s (N.of_nat sz) (toff sz idx)) (fun r => Done (fst r, rd (snd r))).
(** dmiWriteImpl_ (rg 1641-1646): a memcpy through the raw pointer, unchecked; outside the line it is undefined. *)
Definition dmi_write (g : reg) (s : rst) (buf : bytes) (off : N) : outcome rst :=
  if negb (may_write g s) then Asserted
  else if s_L s <? g_off g + off + N.of_nat (length buf) then Undefined
  else let p := N.to_nat (g_off g + off) in
       Done (with_line s (mkLine (firstn p (l_data (s_line s)) ++ buf ++ skipn (p + length buf) (l_data (s_line s))) true)).
(** Register::dmiWrite<T> (rg 1558-1562). *)
Definition reg_dmiT g s (sz : nat) (v idx : N) : outcome rst := dmi_write g s (wr sz v) (toff sz idx).
(** Register::writeUnmasked<T> (rg 1571-1575), which hides the one of RegisterBase: the index itself is the byte offset. *)
Definition register_writeUT g s (sz : nat) (v idx : N) : outcome rst := dmi_write g s (wr sz v) (idx mod 2 ^ 32).

(** reset (rg 804-813): byte by byte. *)
Fixpoint reset_loop (x86 unmasked : bool) (g : reg) (s : rst) (i : N) (l : bytes) : outcome rst :=
  match l with
  | [] => Done s
  | b :: r => obind (if unmasked then reg_pokeUT g s 1 b i else reg_pokeT x86 g s 1 b i) (fun s' => reset_loop x86 unmasked g s' (i + 1) r)
  end.
(** See reset_loop; the initial value must have as many bytes as the register. *)
Definition reg_reset (x86 unmasked : bool) (g : reg) (s : rst) : outcome rst :=
  match g_init g with
  | None => Undefined
  | Some l => if (length l <? g_n g)%nat then Undefined else reset_loop x86 unmasked g s 0 (firstn (g_n g) l)
  end.

(** Field::read (rg 267-270, 372-377); [x] is a field of the register. *)
Definition fld_value (x86 : bool) (x : fld) (b : bytes) : outcome N :=
  obind (lift (q_merge N.land (q_fresh b) (fl_mask x))) (fun a =>
  obind (lift (q_shr x86 a (f_low (fl_def x)))) (fun r => Done (rb_as 8 (q_view r)))).
(** See fld_value. *)
Definition fld_read (x86 : bool) (g : reg) (s : rst) (x : fld) : outcome (rst * N) :=
  obind (reg_read g s (N.of_nat (g_n g)) 0) (fun r => obind (fld_value x86 x (snd r)) (fun v => Done (fst r, v))).
(** Field::peek (rg 277-280, 379-384). *)
Definition fld_peek (x86 : bool) (g : reg) (s : rst) (x : fld) : outcome N :=
  obind (reg_peek g s (N.of_nat (g_n g)) 0) (fld_value x86 x).
(** newRegisterValue_ (rg 401-415). *)
Definition fld_new (g : reg) (s : rst) (x : fld) (v : N) : outcome bytes :=
  obind (reg_peek g s (N.of_nat (g_n g)) 0) (fun old =>
  obind (lift (q_set64 (q_fresh (repeat 0 (Nat.max (g_n g) 8))) v)) (fun z =>
  obind (lift (q_shl_in z (f_low (fl_def x)))) (fun sv =>
  obind (lift (q_merge N.land sv (fl_not x))) (fun out =>
  obind (lift (rb_none (q_view out))) (fun ok =>
  if negb ok then Asserted
  else obind (lift (q_merge N.land (q_fresh old) (fl_not x))) (fun keep =>
       obind (lift (q_merge N.lor keep sv)) (fun r => Done (q_view r)))))))).
(** Field::write (rg 288-291, 386-389). *)
Definition fld_write x86 g s x v : outcome rst := obind (fld_new g s x v) (fun b => reg_write x86 g s b 0).
(** Field::poke (rg 300-303, 391-394). *)
Definition fld_poke x86 g s x v : outcome rst := obind (fld_new g s x v) (fun b => reg_poke x86 g s b 0).
(** Field::pokeUnmasked (rg 308-311, 396-399). *)
Definition fld_pokeU g s x v : outcome rst := obind (fld_new g s x v) (fun b => reg_pokeU g s b 0).

(** Calls on a set of registers in one line; [k] is the register, [j] its field. *)
Inductive rop :=
| RWrite (k : nat) (val : bytes) (off : N) | RPoke (k : nat) (val : bytes) (off : N)
| RWriteU (k : nat) (val : bytes) (off : N) | RPokeU (k : nat) (val : bytes) (off : N)
| RRead (k : nat) (size off : N) | RReset (k : nat) (unmasked : bool)
| RFWrite (k j : nat) (v : N) | RFPoke (k j : nat) (v : N) | RFPokeU (k j : nat) (v : N) | RFRead (k j : nat).
(** The register a call is about. *)
Definition rop_reg (o : rop) : nat :=
  match o with
  | RWrite k _ _ | RPoke k _ _ | RWriteU k _ _ | RPokeU k _ _ | RRead k _ _ | RReset k _
  | RFWrite k _ _ | RFPoke k _ _ | RFPokeU k _ _ | RFRead k _ => k
  end.
(** Its field. *)
Definition with_fld (g : reg) (j : nat) (f : fld -> outcome rst) : outcome rst :=
  match nth_error (g_flds g) j with Some x => f x | None => Refused end.
(** One call. *)
Definition rcall (x86 : bool) (g : reg) (s : rst) (o : rop) : outcome rst :=
  match o with
  | RWrite _ val off => reg_write x86 g s val off
  | RPoke _ val off => reg_poke x86 g s val off
  | RWriteU _ val off => reg_writeU g s val off
  | RPokeU _ val off => reg_pokeU g s val off
  | RRead _ size off => obind (reg_read g s size off) (fun r => Done (fst r))
  | RReset _ u => reg_reset x86 u g s
  | RFWrite _ j v => with_fld g j (fun x => fld_write x86 g s x v)
  | RFPoke _ j v => with_fld g j (fun x => fld_poke x86 g s x v)
  | RFPokeU _ j v => with_fld g j (fun x => fld_pokeU g s x v)
  | RFRead _ j => with_fld g j (fun x => obind (fld_read x86 g s x) (fun r => Done (fst r)))
  end.
(** A sequence of calls: one that is refused or fails an assertion before it stores anything leaves the state as it is;
    [None] after undefined behaviour. *)
Fixpoint rexec (x86 : bool) (rs : list reg) (s : rst) (l : list rop) : option rst :=
  match l with
  | [] => Some s
  | o :: r =>
      match nth_error rs (rop_reg o) with
      | None => None
      | Some g =>
          match rcall x86 g s o with
          | Done s' => rexec x86 rs s' r
          | Undefined | TooDeep => None
          | Refused | Asserted => rexec x86 rs s r
          end
      end
  end.
