(** Caches: sparta/cache/BasicCacheItem.hpp ("bi"), LineData.hpp ("ld"), BasicCacheSet.hpp ("bs"), Cache.hpp ("ca"),
    SimpleCache.hpp ("sc") and SimpleCache2.hpp ("s2"). The address decoder is AddrDecodeModel, the replacement policies are
    ReplacementModel. setAddrDecoder (ca 58-64), way orders (bs 212) and the statistics (sc 235-267) are left out. *)
From Coq Require Import List NArith Arith Bool Lia.
From Verif Require Import MathUtilsModel AddrDecodeModel ReplacementModel LayoutModel StorageModel.
Import ListNotations.
Open Scope N_scope.

(** A line (bi 62-66, ld 137-143, s2 46). way_num_ and set_idx_ are the positions in the lists below; the exclusive and shared
    flags are never looked at. *)
Record line := mkLn { ln_valid : bool; ln_mod : bool; ln_addr : N; ln_tag : N; ln_nt : bool; ln_data : list N }.
(** A replacement policy (ReplacementIF.hpp 14-51): getLRUWay, touchMRU, touchLRU and reset; None stands for a failed
    assertion or undefined behaviour. *)
Record policy (R : Type) := mkPol { p_new : R; p_lru : R -> option nat; p_mru : nat -> R -> option R; p_low : nat -> R -> option R; p_reset : R -> R }.
Arguments mkPol {R}. Arguments p_new {R}. Arguments p_lru {R}. Arguments p_mru {R}. Arguments p_low {R}. Arguments p_reset {R}.
(** LRUReplacement (LRUReplacement.hpp 21-86); reset does nothing (32-35), clone gives a new one (37-40). *)
Definition lru_policy (ways : nat) : policy (list nat) := mkPol (lru_init ways) lru_victim lru_touch_mru lru_touch_lru (fun s => s).
(** TreePLRUReplacement with 2^k ways (TreePLRUReplacement.hpp 41-167). *)
Definition plru_policy (k : nat) : policy bits :=
  mkPol plru_reset (fun b => Some (plru_victim k b)) (plru_touch_mru k) (plru_touch_lru k) (fun _ => plru_reset).

(** A set (bs 237-240) and the way last filled with non-temporal data (s2 32). *)
Record cset (R : Type) := mkSet { cs_ways : list line; cs_rep : R; cs_nt : nat }.
Arguments mkSet {R}. Arguments cs_ways {R}. Arguments cs_rep {R}. Arguments cs_nt {R}.
(** A cache (ca 199-204). *)
Record cache (R : Type) := mkCache { c_dec : decoder; c_sets : list (cset R) }.
Arguments mkCache {R}. Arguments c_dec {R}. Arguments c_sets {R}.
(** The constructors (ca 25-53, bs 24-41): every line is a copy of the default line. None: a failed assertion. num_sets_ is a
    uint32_t. *)
Definition make_cache {R} (p : policy R) (sz item_sz stride : N) (ways : nat) (kb : bool) (dflt : line) : option (cache R) :=
  match make_decoder sz item_sz stride (N.of_nat ways) kb with
  | None => None
  | Some d =>
      let n := wrap 32 ((if kb then wrap 64 (sz * 1024) else sz) / wrap 64 (item_sz * N.of_nat ways)) in
      Some (mkCache d (repeat (mkSet (repeat dflt ways) (p_new p) 0%nat) (N.to_nat n)))
  end.

(** A value that is not there when behaviour is undefined (bs 170, 176, 194; DefaultAddrDecoder.hpp 43-44). *)
Definition need {A} (o : option A) : outcome A := match o with Some x => Done x | None => Undefined end.
(** Replacing an element of a vector (bs 240, ca 204). *)
Fixpoint put {A} (i : nat) (x : A) (l : list A) : list A :=
  match i, l with O, _ :: r => x :: r | S j, y :: r => y :: put j x r | _, [] => [] end.
(** getCacheSet, peekCacheSet (ca 77-92): the position of the set of an address. *)
Definition set_of {R} (c : cache R) (addr : N) : outcome nat :=
  obind (need (calc_idx (c_dec c) addr)) (fun i => if i <? N.of_nat (length (c_sets c)) then Done (N.to_nat i) else Asserted).
(** A set by position (ca 97-110). *)
Definition nth_set {R} (c : cache R) (i : nat) : outcome (cset R) :=
  match nth_error (c_sets c) i with Some s => Done s | None => Asserted end.
(** peekItem and getItem of a set (bs 92-121): the first valid way with the tag. *)
Fixpoint find_way (tag : N) (ws : list line) : option nat :=
  match ws with
  | [] => None
  | l :: r => if ln_valid l && (ln_tag l =? tag) then Some 0%nat else option_map S (find_way tag r)
  end.
(** findInvalidWay (bs 198-207): the number of ways if there is none. *)
Fixpoint find_invalid (ws : list line) : nat := match ws with [] => 0%nat | l :: r => if negb (ln_valid l) then 0%nat else S (find_invalid r) end.
(** peekItem and getItem (ca 117-131). *)
Definition get_item {R} (c : cache R) (addr : N) : outcome (nat * option nat) :=
  obind (need (calc_tag (c_dec c) addr)) (fun t => obind (set_of c addr) (fun i => obind (nth_set c i) (fun s => Done (i, find_way t (cs_ways s))))).
(** The line in a way of a set (bs 145-156). *)
Definition way_line {R} (s : cset R) (w : nat) : outcome line := match nth_error (cs_ways s) w with Some l => Done l | None => Undefined end.
(** Assigning to a line in place and touching its way (sc 216-217; s2 205, 215). *)
Definition with_line {R} (c : cache R) (i w : nat) (l : line) : outcome (cache R) :=
  obind (nth_set c i) (fun s => Done (mkCache (c_dec c) (put i (mkSet (put w l (cs_ways s)) (cs_rep s) (cs_nt s)) (c_sets c)))).
(** touchMRU through getReplacementIF (sc 126-127, s2 179-183). *)
Definition touch_mru {R} (p : policy R) (c : cache R) (i w : nat) : outcome (cache R) :=
  obind (nth_set c i) (fun s => obind (need (p_mru p w (cs_rep s))) (fun r =>
    Done (mkCache (c_dec c) (put i (mkSet (cs_ways s) r (cs_nt s)) (c_sets c))))).
(** touchLRU (sc 217, s2 173-177). *)
Definition touch_lru {R} (p : policy R) (c : cache R) (i w : nat) : outcome (cache R) :=
  obind (nth_set c i) (fun s => obind (need (p_low p w (cs_rep s))) (fun r =>
    Done (mkCache (c_dec c) (put i (mkSet (cs_ways s) r (cs_nt s)) (c_sets c))))).
(** getLRUItem, peekLRUItem (ca 151-160, bs 167-177). *)
Definition lru_item {R} (p : policy R) (c : cache R) (addr : N) : outcome (nat * nat * line) :=
  obind (set_of c addr) (fun i => obind (nth_set c i) (fun s => obind (need (p_lru p (cs_rep s))) (fun w => obind (way_line s w) (fun l => Done (i, w, l))))).
(** setValid (ld 75), setModified (ld 76). *)
Definition set_valid (v : bool) (l : line) : line := mkLn v (ln_mod l) (ln_addr l) (ln_tag l) (ln_nt l) (ln_data l).
(** invalidateAll (sc 221-231, s2 242-253). *)
Definition cache_clear {R} (p : policy R) (c : cache R) : cache R :=
  mkCache (c_dec c) (map (fun s => mkSet (map (set_valid false) (cs_ways s)) (p_reset p (cs_rep s)) (cs_nt s)) (c_sets c)).

(** The next level: a byte for every address. It is what a subclass of SimpleCache talks to in its hooks. *)
Definition mget (m : N -> N) (a : N) (n : nat) : list N := map (fun i => m (a + N.of_nat i)) (seq 0 n).
(** Writing bytes; the address does not wrap here. *)
Definition mput (m : N -> N) (a : N) (buf : list N) : N -> N :=
  fun x => if (a <=? x) && (x <? a + N.of_nat (length buf)) then nth (N.to_nat (x - a)) buf 0 else m x.
(** A SimpleCache and its next level (sc 299-302). *)
Record simple (R : Type) := mkSimple { s_cache : cache R; s_through : bool; s_alloc : bool; s_mem : N -> N }.
Arguments mkSimple {R}. Arguments s_cache {R}. Arguments s_through {R}. Arguments s_alloc {R}. Arguments s_mem {R}.
(** replaceLine_ (sc 322-335). castout_ (sc 271) is overridden to write the line back; reload_ (sc 277-286) in addition fills the
    line from the next level. setAddr is bi 51-54. *)
Definition replace_line {R} (p : policy R) (s : simple R) (addr : N) : outcome (simple R * (nat * nat)) :=
  let c := s_cache s in
  obind (lru_item p c addr) (fun '(i, w, l) =>
    let m := if ln_valid l && ln_mod l then mput (s_mem s) (ln_addr l) (ln_data l) else s_mem s in
    let blk := calc_block_addr (c_dec c) addr in
    obind (need (calc_tag (c_dec c) blk)) (fun t =>
      obind (with_line c i w (mkLn true false (calc_block_addr (c_dec c) blk) t (ln_nt l) (mget m blk (length (ln_data l))))) (fun c' =>
        Done (mkSimple c' (s_through s) (s_alloc s) m, (i, w))))).
(** The first half of read and getLine (sc 116-127, 185-198): find or allocate, then touch. *)
Definition get_line {R} (p : policy R) (s : simple R) (addr : N) : outcome (simple R * (nat * nat)) :=
  obind (get_item (s_cache s) addr) (fun '(i, f) =>
    obind (match f with Some w => Done (s, (i, w)) | None => replace_line p s addr end) (fun '(s1, (i1, w)) =>
      obind (touch_mru p (s_cache s1) i1 w) (fun c => Done (mkSimple c (s_through s1) (s_alloc s1) (s_mem s1), (i1, w))))).
(** What a caller sees: bytes, an exception, a truth value, or a castout announcement. *)
Inductive answer := ABytes (l : list N) | AThrown | ADone | AHit (b : bool) | ACast (hit : bool) (victim : option (N * bool)).
(** LineData::read (ld 117-124). *)
Definition line_read (l : line) (off size : N) : option (list N) :=
  if off + size <=? N.of_nat (length (ln_data l)) then Some (firstn (N.to_nat size) (skipn (N.to_nat off) (ln_data l))) else None.
(** LineData::write (ld 126-133). *)
Definition line_write (l : line) (off : N) (buf : list N) : option (list N) :=
  if off + N.of_nat (length buf) <=? N.of_nat (length (ln_data l))
  then Some (firstn (N.to_nat off) (ln_data l) ++ buf ++ skipn (N.to_nat off + length buf) (ln_data l)) else None.
(** read (sc 111-132). An access beyond the line throws after the line was brought in. *)
Definition sc_read {R} (p : policy R) (s : simple R) (addr size : N) : outcome (simple R * answer) :=
  obind (get_line p s addr) (fun '(s1, (i, w)) => obind (nth_set (s_cache s1) i) (fun st => obind (way_line st w) (fun l =>
    Done (s1, match line_read l (calc_block_offset (c_dec (s_cache s1)) addr) size with Some d => ABytes d | None => AThrown end)))).
(** write (sc 137-176). *)
Definition sc_write {R} (p : policy R) (s : simple R) (addr : N) (buf : list N) : outcome (simple R * answer) :=
  obind (get_item (s_cache s) addr) (fun '(_, f) =>
    let miss := match f with None => true | _ => false end in
    if miss && negb (s_alloc s) then Done (mkSimple (s_cache s) (s_through s) (s_alloc s) (mput (s_mem s) addr buf), ADone)
    else obind (get_line p s addr) (fun '(s1, (i, w)) => obind (nth_set (s_cache s1) i) (fun st => obind (way_line st w) (fun l =>
      match line_write l (calc_block_offset (c_dec (s_cache s1)) addr) buf with
      | None => Done (s1, AThrown)
      | Some d => obind (with_line (s_cache s1) i w (mkLn (ln_valid l) true (ln_addr l) (ln_tag l) (ln_nt l) d)) (fun c =>
          Done (mkSimple c (s_through s1) (s_alloc s1) (if s_through s1 then mput (s_mem s1) addr buf else s_mem s1), ADone))
      end)))).
(** getLine (sc 183-201); the caller looks at the bytes. *)
Definition sc_line {R} (p : policy R) (s : simple R) (addr : N) : outcome (simple R * answer) :=
  obind (get_line p s addr) (fun '(s1, (i, w)) => obind (nth_set (s_cache s1) i) (fun st => obind (way_line st w) (fun l => Done (s1, ABytes (ln_data l))))).
(** invalidateLine (sc 208-219): the policy touched is the one of the set of the line's own address. *)
Definition sc_invalidate {R} (p : policy R) (s : simple R) (addr : N) : outcome (simple R * answer) :=
  let c := s_cache s in
  obind (get_item c addr) (fun '(i, f) =>
    match f with
    | None => Done (s, AThrown)
    | Some w => obind (nth_set c i) (fun st => obind (way_line st w) (fun l =>
        obind (with_line c i w (set_valid false l)) (fun c1 => obind (set_of c1 (ln_addr l)) (fun j => obind (touch_lru p c1 j w) (fun c2 =>
          Done (mkSimple c2 (s_through s) (s_alloc s) (s_mem s), ADone))))))
    end).
(** isHit (sc 84-88). *)
Definition is_hit {R} (c : cache R) (addr : N) : outcome bool := obind (get_item c addr) (fun '(_, f) => Done match f with Some _ => true | None => false end).
(** isHitWithCastout (sc 90-106). *)
Definition hit_castout {R} (p : policy R) (c : cache R) (addr : N) : outcome answer :=
  obind (get_item c addr) (fun '(_, f) => match f with
    | Some _ => Done (ACast true None)
    | None => obind (lru_item p c addr) (fun '(_, _, l) => Done (ACast false (if ln_valid l then Some (ln_addr l, ln_mod l) else None)))
    end).

(** The calls of a client of a SimpleCache; the last two are setWriteThroughMode and setWriteAllocateMode (sc 73, 79). *)
Inductive sop := SRead (addr size : N) | SWrite (addr : N) (buf : list N) | SLine (addr : N) | SInvalidate (addr : N) | SClear
  | SHit (addr : N) | SCastout (addr : N) | SThrough (b : bool) | SAlloc (b : bool).
(** One call (sc 84-231). *)
Definition sstep {R} (p : policy R) (s : simple R) (o : sop) : outcome (simple R * answer) :=
  match o with
  | SRead a n => sc_read p s a n
  | SWrite a buf => sc_write p s a buf
  | SLine a => sc_line p s a
  | SInvalidate a => sc_invalidate p s a
  | SClear => Done (mkSimple (cache_clear p (s_cache s)) (s_through s) (s_alloc s) (s_mem s), ADone)
  | SHit a => obind (is_hit (s_cache s) a) (fun b => Done (s, AHit b))
  | SCastout a => obind (hit_castout p (s_cache s) a) (fun r => Done (s, r))
  | SThrough b => Done (mkSimple (s_cache s) b (s_alloc s) (s_mem s), ADone)
  | SAlloc b => Done (mkSimple (s_cache s) (s_through s) b (s_mem s), ADone)
  end.
(** A history of calls on a SimpleCache (sc 18-337). *)
Fixpoint srun {R} (p : policy R) (s : simple R) (ops : list sop) : outcome (simple R * list answer) :=
  match ops with
  | [] => Done (s, [])
  | o :: r => obind (sstep p s o) (fun '(s1, a) => obind (srun p s1 r) (fun '(s2, l) => Done (s2, a :: l)))
  end.

(** SimpleCache2: the client chooses the line to replace (s2 110-155). The choice is by getLRUItem (s2 110-113), with a check for
    invalid ways (s2 117-120, bs 185-196), or non-temporal (s2 124-155). The result is the way in the set of the address. *)
Inductive choice := ByLRU | ByInvalid | ByNT (nt : bool).
(** getLineForReplacement, getLineForReplacementWithInvalidCheck (s2 110-155). *)
Definition victim {R} (p : policy R) (c : cache R) (addr : N) (k : choice) : outcome (nat * nat) :=
  obind (set_of c addr) (fun i => obind (nth_set c i) (fun s =>
    match k with
    | ByInvalid => let w := find_invalid (cs_ways s) in
        if Nat.ltb w (length (cs_ways s)) then Done (i, w)
        else obind (need (p_lru p (cs_rep s))) (fun v => obind (way_line s v) (fun _ => Done (i, v)))
    | ByNT true => match nth_error (cs_ways s) 0, nth_error (cs_ways s) 1 with
                   | Some l0, Some l1 => Done (i, if negb (ln_nt l0) then 0%nat else if negb (ln_nt l1) then 1%nat
                                                  else if Nat.eqb (cs_nt s) 0 then 0%nat else 1%nat)
                   | _, _ => Asserted
                   end
    | _ => obind (need (p_lru p (cs_rep s))) (fun v => obind (way_line s v) (fun _ => Done (i, v)))
    end)).
(** allocateWithMRUUpdate (s2 212-231) on the line in way [w] of set [i]: LineData::reset (ld 46-52, s2 38-41); [nt] is None in
    the overload without it. touchMRU uses the line's own set. *)
Definition s2_alloc {R} (p : policy R) (c : cache R) (i w : nat) (addr : N) (nt : option bool) : outcome (cache R) :=
  obind (nth_set c i) (fun s => obind (way_line s w) (fun l =>
    obind (need (calc_tag (c_dec c) addr)) (fun t =>
      obind (with_line c i w (mkLn true false (calc_block_addr (c_dec c) addr) t (match nt with Some b => b | None => ln_nt l end) (ln_data l))) (fun c1 =>
        obind (match nt with
               | Some true => obind (set_of c1 addr) (fun j => obind (nth_set c1 j) (fun sj =>
                                Done (mkCache (c_dec c1) (put j (mkSet (cs_ways sj) (cs_rep sj) w) (c_sets c1)))))
               | _ => Done c1
               end) (fun c2 => touch_mru p c2 i w))))).
(** invalidateLineWithLRUUpdate (s2 233-240); it needs lines with the two-argument reset of s2 38-41. *)
Definition s2_invalidate {R} (p : policy R) (c : cache R) (i w : nat) : outcome (cache R) :=
  obind (nth_set c i) (fun s => obind (way_line s w) (fun l =>
    obind (need (calc_tag (c_dec c) 0)) (fun t =>
      obind (with_line c i w (mkLn false false (calc_block_addr (c_dec c) 0) t false (ln_data l))) (fun c1 => touch_lru p c1 i w)))).
(** readWithMRUUpdate (s2 185-195). *)
Definition s2_read {R} (p : policy R) (c : cache R) (i w : nat) (addr size : N) : outcome (cache R * answer) :=
  obind (nth_set c i) (fun s => obind (way_line s w) (fun l =>
    match line_read l (calc_block_offset (c_dec c) addr) size with
    | None => Done (c, AThrown)
    | Some d => obind (touch_mru p c i w) (fun c1 => Done (c1, ABytes d))
    end)).
(** writeWithMRUUpdate (s2 197-208). *)
Definition s2_write {R} (p : policy R) (c : cache R) (i w : nat) (addr : N) (buf : list N) : outcome (cache R * answer) :=
  obind (nth_set c i) (fun s => obind (way_line s w) (fun l =>
    match line_write l (calc_block_offset (c_dec c) addr) buf with
    | None => Done (c, AThrown)
    | Some d => obind (with_line c i w (mkLn (ln_valid l) true (ln_addr l) (ln_tag l) (ln_nt l) d)) (fun c1 =>
        obind (touch_mru p c1 i w) (fun c2 => Done (c2, ADone)))
    end)).
(** What a client of a SimpleCache2 does with an address: look it up (s2 160-163); if it is there read, write, touch or
    invalidate the line; if it is not, choose a victim and allocate it; or invalidate everything. [T_] calls that do not apply
    are not made. *)
Inductive top := TFill (addr : N) (k : choice) (nt : option bool) | TRead (addr size : N) | TWrite (addr : N) (buf : list N)
  | TLow (addr : N) | TMru (addr : N) | TDrop (addr : N) | TClear.
(** One round of such a client, by s2 98-253. *)
Definition tstep {R} (p : policy R) (c : cache R) (o : top) : outcome (cache R * answer) :=
  let on_hit a (f : nat -> nat -> outcome (cache R * answer)) :=
    obind (get_item c a) (fun '(i, r) => match r with Some w => f i w | None => Done (c, AHit false) end) in
  match o with
  | TFill a k nt => obind (get_item c a) (fun '(_, r) => match r with
      | Some _ => Done (c, AHit true)
      | None => obind (victim p c a k) (fun '(i, w) => obind (s2_alloc p c i w a nt) (fun c1 => Done (c1, ADone)))
      end)
  | TRead a n => on_hit a (fun i w => s2_read p c i w a n)
  | TWrite a buf => on_hit a (fun i w => s2_write p c i w a buf)
  | TLow a => on_hit a (fun i w => obind (touch_lru p c i w) (fun c1 => Done (c1, ADone)))
  | TMru a => on_hit a (fun i w => obind (touch_mru p c i w) (fun c1 => Done (c1, ADone)))
  | TDrop a => on_hit a (fun i w => obind (s2_invalidate p c i w) (fun c1 => Done (c1, ADone)))
  | TClear => Done (cache_clear p c, ADone)
  end.
(** A history of such rounds (s2 50-287). *)
Fixpoint trun {R} (p : policy R) (c : cache R) (ops : list top) : outcome (cache R * list answer) :=
  match ops with
  | [] => Done (c, [])
  | o :: r => obind (tstep p c o) (fun '(c1, a) => obind (trun p c1 r) (fun '(c2, l) => Done (c2, a :: l)))
  end.
