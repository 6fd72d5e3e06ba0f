(** sparta::TieredMap<uint64_t, ValT> (sparta/sparta/utils/TieredMap.hpp, cited as "tm"). *)
From Coq Require Import List NArith ZArith Arith Bool Lia.
From Verif Require Import MathUtilsModel.
Import ListNotations.
Open Scope N_scope.

(** A node (tm 64): entries are null, child nodes, or - in the last tier - pairs. A pair is named by its position in
    pairs_ (tm 534); pair objects never move. *)
Inductive tn := Nd (l : list (option tn)) | Lf (p : nat).
(** The map (tm 504-546); num_tiers_ is the length of tier_shifts_ (tm 395-399, 469-474). Values are numbers.
    num_nodes_ and total_size_ only feed the memory estimate and are left out. *)
Record tmap := mkTM { t_size : N; t_shift : N; t_mask : N; t_pairs : list (N * N); t_shifts : list N; t_root : tn }.

(** computeMask<uint64_t> (sparta/sparta/utils/Utils.hpp 171-188) for size >= 1: log2 is exact for powers of two;
    1 << lsb_pos is an int, undefined from 31 bits on. Gives the mask's complement (tm 182) and the shift. *)
Definition compute_mask (size : N) : option (N * N) :=
  if is_power_of_2 size
  then let k := N.log2 size in if k <? 31 then Some (2 ^ k - 1, k) else None
  else None.
(** Constructor (tm 176-190) and allocateRoot_ (tm 390-400); a size that is not a power of two is refused. *)
Definition tm_make (size : N) : option tmap :=
  match compute_mask size with
  | Some (m, k) => Some (mkTM size k m [] [0] (Nd []))
  | None => None
  end.
(** clear (tm 258-266). *)
Definition tm_clear (s : tmap) : tmap := mkTM (t_size s) (t_shift s) (t_mask s) [] [0] (Nd []).

(** The loop of tryGet (tm 331-344) over tier_shifts_: [None] if an entry is not of the kind the tier expects. *)
Fixpoint tget (mask : N) (shifts : list N) (v : tn) (k : N) : option (option nat) :=
  match shifts with
  | [] => match v with Lf p => Some (Some p) | Nd _ => None end
  | s :: r => match v with
              | Nd l => match nth_error l (N.to_nat (N.land (N.shiftr k s) mask)) with
                        | Some (Some c) => tget mask r c k
                        | _ => Some None
                        end
              | Lf _ => None
              end
  end.
(** tryGet (tm 322-347). Shifting by 64 or more is undefined. *)
Definition tm_tryget (s : tmap) (k : N) : option (option nat) :=
  match t_shifts s with
  | [] => None
  | s0 :: _ => if 64 <=? s0 then None
               else if t_size s <=? N.shiftr k s0 then Some None
               else tget (t_mask s) (t_shifts s) (t_root s) k
  end.
(** find (tm 275-290): the pair. *)
Definition tm_find (s : tmap) (k : N) : option (option (N * N)) :=
  match tm_tryget s k with None => None | Some None => Some None | Some (Some p) =>
    match nth_error (t_pairs s) p with Some x => Some (Some x) | None => None end end.

(** node.resize(vidx + 1, nullptr) if needed (tm 430-432). *)
Definition resize (l : list (option tn)) (i : nat) : list (option tn) := l ++ repeat None (S i - length l).
(** Assignment to a node's entry (tm 433-445). *)
Fixpoint tput (l : list (option tn)) (i : nat) (c : tn) : list (option tn) :=
  match l, i with
  | [], _ => []
  | _ :: r, O => Some c :: r
  | x :: r, S j => x :: tput r j c
  end.
(** The loop of set_ (tm 424-458): descends, creating nodes, and stores the new pair number [p] in the last tier; an
    existing pair is reported instead. *)
Fixpoint tset (mask : N) (shifts : list N) (v : tn) (k : N) (p : nat) : option (tn * option nat) :=
  match shifts with
  | [] => None
  | s :: r =>
    match v with
    | Lf _ => None
    | Nd l =>
      let i := N.to_nat (N.land (N.shiftr k s) mask) in
      let l1 := resize l i in
      match r with
      | [] => match nth i l1 None with
              | None => Some (Nd (tput l1 i (Lf p)), None)
              | Some (Lf q) => Some (Nd l1, Some q)
              | Some (Nd _) => None
              end
      | _ :: _ =>
        match tset mask r (match nth i l1 None with None => Nd [] | Some c => c end) k p with
        | Some (c, e) => Some (Nd (tput l1 i c), e)
        | None => None
        end
      end
    end
  end.
(** addTier_ (tm 467-475). *)
Definition add_tier (s : tmap) : tmap :=
  mkTM (t_size s) (t_shift s) (t_mask s) (t_pairs s) (hd 0 (t_shifts s) + t_shift s :: t_shifts s) (Nd [Some (t_root s)]).
(** Assignment to the value of pair [p]. *)
Fixpoint pput (l : list (N * N)) (p : nat) (v : N) : list (N * N) :=
  match l, p with
  | [], _ => []
  | (k, _) :: r, O => (k, v) :: r
  | x :: r, S q => x :: pput r q v
  end.
(** set_ (tm 412-461); the recursion after addTier_ takes [fuel] ([None]: it does not end). The pair's number is the
    reference returned. *)
Fixpoint tm_set (fuel : nat) (s : tmap) (k v : N) : option (tmap * nat) :=
  match t_shifts s with
  | [] => None
  | s0 :: _ =>
    if 64 <=? s0 then None
    else if t_size s <=? N.shiftr k s0
    then match fuel with O => None | S f => tm_set f (add_tier s) k v end
    else match tset (t_mask s) (t_shifts s) (t_root s) k (length (t_pairs s)) with
         | Some (r, None) => Some (mkTM (t_size s) (t_shift s) (t_mask s) (t_pairs s ++ [(k, v)]) (t_shifts s) r, length (t_pairs s))
         | Some (r, Some q) => Some (mkTM (t_size s) (t_shift s) (t_mask s) (pput (t_pairs s) q v) (t_shifts s) r, q)
         | None => None
         end
  end.
(** operator[] (tm 298-304): the pair whose value is returned by reference. 64 levels suffice, see the proofs. *)
Definition tm_index (s : tmap) (k : N) : option (tmap * nat) :=
  match tm_tryget s k with
  | None => None
  | Some (Some p) => Some (s, p)
  | Some None => tm_set 64 s k 0
  end.
(** m[k] = v. *)
Definition tm_store (s : tmap) (k v : N) : option tmap :=
  match tm_index s k with
  | None => None
  | Some (s', p) => Some (mkTM (t_size s') (t_shift s') (t_mask s') (pput (t_pairs s') p v) (t_shifts s') (t_root s'))
  end.
(** Operations: m[k] = v, reading m[k], clear. *)
Inductive tmop := TStore (k v : N) | TTouch (k : N) | TClear.
(** One operation. *)
Definition tm_step (s : tmap) (o : tmop) : option tmap :=
  match o with TStore k v => tm_store s k v | TTouch k => option_map fst (tm_index s k) | TClear => Some (tm_clear s) end.
(** Several. *)
Fixpoint tm_run (s : tmap) (l : list tmop) : option tmap :=
  match l with [] => Some s | o :: r => match tm_step s o with Some s' => tm_run s' r | None => None end end.
