(** Model of sparta::Buffer. Source: /repo/sparta/sparta/resources/Buffer.hpp.
    Pointers into the data pool are pool indexes. Sizes are natural numbers, assumed to stay below
    2^31. Iterators held while the pool grows dangle in the code; here they stay pool indexes, so
    nothing may be concluded about them. Statistics, collection and the move constructor are left
    out. [None] results are failed assertions or undefined behaviour. *)
From Coq Require Import List Arith Bool.
Import ListNotations.

Section BUFFER.
Context {A : Type}.

(** Data members (1007-1037). *)
Record buf := mkB {
  b_n : nat;                   (* num_entries_, the size of buffer_map_ *)
  b_cap : nat;                 (* buffer_map_.capacity() *)
  b_map : nat -> option nat;   (* buffer_map_ *)
  b_psz : nat;                 (* data_pool_size_ *)
  b_pcap : nat;                (* data_pool_.capacity() *)
  b_data : nat -> option A;    (* the objects of the pool (96-119); [None]: no object *)
  b_next : nat -> nat;         (* DataPointer::next_free (117) *)
  b_phys : nat -> nat;         (* DataPointer::physical_idx (118) *)
  b_free : nat;                (* free_position_ *)
  b_nv : nat;                  (* num_valid_ *)
  b_vsz : nat;                 (* validator_.size() (824) *)
  b_vcap : nat;                (* validator_.capacity() *)
  b_val : nat -> bool;         (* validator_ *)
  b_addr : nat -> nat;         (* address_map_ *)
  b_inf : option nat           (* is_infinite_mode_ and resize_delta_ *)
}.

(** Assignment to an element. *)
Definition fup {B : Type} (f : nat -> B) (i : nat) (x : B) : nat -> B := fun j => if j =? i then x else f j.
(** next_free after the loops at 705-708 and 902-907. *)
Definition seq_next (psz : nat) : nat -> nat := fun i => if S i <? psz then S i else i.

(** clear (694-714). An empty pool makes data_pool_size_ - 1 wrap. *)
Definition clear (b : buf) : option buf :=
  if b_psz b =? 0 then None
  else Some (mkB (b_n b) (b_cap b) (fun _ => None) (b_psz b) (b_pcap b)
                 (fun p => if existsb (fun i => match b_map b i with Some q => p =? q | None => false end)
                                      (seq 0 (b_n b)) then None else b_data b p)
                 (seq_next (b_psz b)) (b_phys b) 0 0 (b_vsz b) (b_vcap b) (fun _ => false) (fun _ => 0) (b_inf b)).
(** Constructor (1041-1073). *)
Definition init (n : nat) : option buf :=
  clear (mkB n n (fun _ => None) (n * 2) (n * 2) (fun _ => None) (fun _ => 0) (fun _ => 0) 0 0 n n
             (fun _ => false) (fun _ => 0) None).
(** makeInfinite (809-812). *)
Definition make_infinite (b : buf) (d : nat) : buf :=
  mkB (b_n b) (b_cap b) (b_map b) (b_psz b) (b_pcap b) (b_data b) (b_next b) (b_phys b) (b_free b) (b_nv b)
      (b_vsz b) (b_vcap b) (b_val b) (b_addr b) (Some d).

(** size (498-500). *)
Definition size (b : buf) : nat := b_nv b.
(** numFree (508-510): capacity() - size(). *)
Definition num_free (b : buf) : nat := b_n b - b_nv b.
(** read (426-429). *)
Definition read (b : buf) (i : nat) : option A :=
  if i <? b_nv b then match b_map b i with Some p => b_data b p | None => None end else None.

(** Capacity of a std::vector of the GNU library after resize to [nw]. *)
Definition grow (cap sz nw : nat) : nat := if nw <=? cap then cap else sz + Nat.max sz (nw - sz).
(** resizeInternalContainers_ (876-922); resizeIteratorValidator (856-860). If the pool is
    reallocated the move constructor (104-107) leaves physical_idx 0. *)
Definition resize (b : buf) (d : nat) : buf :=
  if num_free b =? 0 then
    let n' := b_cap b + d in
    let psz := n' * 2 in
    mkB n' (grow (b_cap b) (b_n b) n')
        (fun i => if i <? b_nv b then Some (b_addr b i) else b_map b i)
        psz (grow (b_pcap b) (b_psz b) psz) (b_data b) (seq_next psz)
        (if psz <=? b_pcap b then b_phys b else fun _ => 0)
        (b_nv b) (b_nv b) (b_vcap b + d) (grow (b_vcap b) (b_vsz b) (b_vcap b + d)) (b_val b) (b_addr b) (b_inf b)
  else b.
(** The growth at the start of push_backImpl_ (930-932) and insertImpl_ (964-966). *)
Definition pre_grow (b : buf) : buf := match b_inf b with Some d => resize b d | None => b end.

(** push_backImpl_ (926-958); also returns the iterator. *)
Definition push_back (b0 : buf) (x : A) : option (buf * nat) :=
  let b := pre_grow b0 in
  if num_free b =? 0 then None
  else let f := b_free b in
       if b_vsz b <=? f then None
       else Some (mkB (b_n b) (b_cap b) (fup (b_map b) (b_nv b) (Some f)) (b_psz b) (b_pcap b)
                      (fup (b_data b) f (Some x)) (b_next b) (fup (b_phys b) f (b_nv b)) (b_next b f)
                      (S (b_nv b)) (b_vsz b) (b_vcap b) (fup (b_val b) f true) (fup (b_addr b) (b_nv b) f) (b_inf b), f).

(** The three vectors changed by the shifting loops. *)
Definition maps : Type := (nat -> option nat) * (nat -> nat) * (nat -> nat).
(** The loop of insertImpl_ (982-991): [k] rounds from position [i] downwards. *)
Fixpoint shift_up (k i : nat) (s : maps) : option maps :=
  match k with
  | 0 => Some s
  | S k' => let '(m, ph, ad) := s in
            match m (i - 1) with
            | None => None
            | Some p => shift_up k' (i - 1) (fup m i (Some p), fup ph p i, fup ad i (ad (i - 1)))
            end
  end.
(** The loop of erase (644-654): [k] rounds from position [i] upwards. *)
Fixpoint shift_down (k i : nat) (s : maps) : option maps :=
  match k with
  | 0 => Some s
  | S k' => let '(m, ph, ad) := s in
            match m (S i) with
            | None => None
            | Some p => shift_down k' (S i) (fup m i (Some p), fup ph p i, fup ad i (ad (S i)))
            end
  end.

(** insertImpl_ (960-1004); also returns the iterator. Line 998 writes address_map_[num_valid_]. *)
Definition insert (b0 : buf) (idx : nat) (x : A) : option (buf * nat) :=
  let b := pre_grow b0 in
  if num_free b =? 0 then None
  else if b_nv b <? idx then None
  else let f := b_free b in
       if b_vsz b <=? f then None
       else match shift_up (b_nv b - idx) (b_nv b) (b_map b, fup (b_phys b) f idx, b_addr b) with
            | None => None
            | Some (m, ph, ad) =>
                Some (mkB (b_n b) (b_cap b) (fup m idx (Some f)) (b_psz b) (b_pcap b)
                          (fup (b_data b) f (Some x)) (b_next b) ph (b_next b f)
                          (S (b_nv b)) (b_vsz b) (b_vcap b) (fup (b_val b) f true) (fup ad (b_nv b) f) (b_inf b), f)
            end.

(** erase(uint32_t) (624-666). *)
Definition erase (b : buf) (idx : nat) : option buf :=
  if b_nv b <=? idx then None
  else match b_map b idx with
       | None => None
       | Some f =>
           if b_vsz b <=? f then None
           else match b_data b f with
                | None => None
                | Some _ =>
                    match shift_down (b_nv b - 1 - idx) idx (b_map b, b_phys b, b_addr b) with
                    | None => None
                    | Some (m, ph, ad) =>
                        Some (mkB (b_n b) (b_cap b) (fup m (b_nv b - 1) None) (b_psz b) (b_pcap b)
                                  (fup (b_data b) f None) (fup (b_next b) f (b_free b)) ph f
                                  (b_nv b - 1) (b_vsz b) (b_vcap b) (fup (b_val b) f false)
                                  (fup ad (b_nv b - 1) 0) (b_inf b))
                    end
                end
       end.

(** BufferIterator (130-340): [None] is the null entry, that is end(). *)
Definition iter := option nat.
(** begin (744-748). *)
Definition begin (b : buf) : iter := if b_nv b =? 0 then None else b_map b 0.
(** getIndex_ (155-160). *)
Definition it_index (b : buf) (it : iter) : nat := match it with None => b_n b | Some p => b_phys b p end.
(** isValid (243-249). *)
Definition it_valid (b : buf) (it : iter) : bool := match it with None => false | Some p => b_val b p end.
(** operator* (252-257). *)
Definition it_deref (b : buf) (it : iter) : option A :=
  match it with Some p => if b_val b p then b_data b p else None | None => None end.
(** operator++ (276-288). *)
Definition it_next (b : buf) (it : iter) : option iter :=
  match it with
  | Some p => if b_val b p then let idx := S (b_phys b p) in Some (if idx <? b_nv b then b_map b idx else None) else None
  | None => None
  end.
(** operator-- (298-316); decrementing index 0 wraps and fails the assertion at 308. *)
Definition it_prev (b : buf) (it : iter) : option iter :=
  if it_valid b it then
    match it_index b it with
    | 0 => None
    | S idx => if idx <? b_nv b then Some (b_map b idx) else if idx <? b_n b then Some None else None
    end
  else Some (if b_nv b =? 0 then it else b_map b (b_nv b - 1)).
(** operator< (205-210). *)
Definition it_lt (b : buf) (x y : iter) : bool := it_index b x <? it_index b y.
(** insert(const const_iterator &, ...) (573-582). *)
Definition insert_it (b : buf) (it : iter) (x : A) : option (buf * nat) := insert b (it_index b it) x.
(** erase(const const_iterator &) (672-679); also returns the iterator. *)
Definition erase_it (b : buf) (it : iter) : option (buf * iter) :=
  match erase b (it_index b it) with
  | None => None
  | Some b' => Some (b', b_map b' (it_index b' it))
  end.

(** The operations. *)
Inductive bop := BPush (x : A) | BInsert (i : nat) (x : A) | BErase (i : nat) | BClear | BInfinite (d : nat).
(** One call, with the iterator of push_back and insert. *)
Definition step (b : buf) (o : bop) : option (buf * option nat) :=
  match o with
  | BPush x => option_map (fun r => (fst r, Some (snd r))) (push_back b x)
  | BInsert i x => option_map (fun r => (fst r, Some (snd r))) (insert b i x)
  | BErase i => option_map (fun b' => (b', None)) (erase b i)
  | BClear => option_map (fun b' => (b', None)) (clear b)
  | BInfinite d => Some (make_infinite b d, None)
  end.
(** A sequence of calls with the iterators returned. *)
Fixpoint run (b : buf) (ops : list bop) : option (buf * list (option nat)) :=
  match ops with
  | [] => Some (b, [])
  | o :: r => match step b o with
              | None => None
              | Some (b', i) => match run b' r with None => None | Some (b2, l) => Some (b2, i :: l) end
              end
  end.
End BUFFER.
Arguments buf : clear implicits.
Arguments bop : clear implicits.
