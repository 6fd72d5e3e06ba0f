(** SimpleMemoryMap: sparta/memory/SimpleMemoryMap.hpp ("mm"), and the accesses of sparta/memory/SimpleMemoryMapNode.hpp ("mn")
    that go through it. Nodes live in a list; a pointer is an optional position in it; nodes are never freed before the map
    (mm 162-164). The messages and dumps (mm 432-471, 765-800) are left out. *)
From Coq Require Import List NArith Arith Bool Lia.
From Verif Require Import MathUtilsModel LayoutModel StorageModel.
Import ListNotations.
Open Scope N_scope.

(** The largest address, ~(addr_t)0 (mm 259, 684, 699). *)
Definition top_addr : N := 2 ^ 64 - 1.
(** What addMapping looks at in a BlockingMemoryIF: its identity, getBlockSize and getRange (mm 226-234). *)
Record memif := mkMI { mi_id : N; mi_block : N; mi_range : N }.
(** Mapping (mm 61-108). *)
Record mapping := mkMap { m_start : N; m_end : N; m_memif : memif; m_off : N }.
(** Mapping::mapAddress (mm 114-116). *)
Definition map_address (m : mapping) (a : N) : N := wrap 64 (wrap 64 (2 ^ 64 + a - m_start m) + m_off m).
(** Mapping::overlaps (mm 132-134). *)
Definition overlaps (m : mapping) (a b : N) : bool :=
  ((m_start m <=? a) && (a <? m_end m)) || ((m_start m <? b) && (b <=? m_end m)) || ((a <? m_start m) && (m_end m <? b)).

(** BinTreeNode (mm 667-722, 802-807). [false] is the left child, [true] the right one. *)
Record node := mkNode { n_sep : N; n_par : option nat; n_l : option nat; n_r : option nat; n_dest : option mapping; n_red : bool }.
Definition heap := list node.
(** Following a child pointer (mm 804-805). *)
Definition kid (d : bool) (n : node) : option nat := if d then n_r n else n_l n.
(** Assigning to the fields of a node (mm 803-807). *)
Definition set_par (p : option nat) (n : node) : node := mkNode (n_sep n) p (n_l n) (n_r n) (n_dest n) (n_red n).
Definition set_kid (d : bool) (k : option nat) (n : node) : node :=
  if d then mkNode (n_sep n) (n_par n) (n_l n) k (n_dest n) (n_red n) else mkNode (n_sep n) (n_par n) k (n_r n) (n_dest n) (n_red n).
Definition set_red (b : bool) (n : node) : node := mkNode (n_sep n) (n_par n) (n_l n) (n_r n) (n_dest n) b.
(** Reading and writing through a pointer (mm 802-807). *)
Definition node_at (h : heap) (i : nat) : outcome node := match nth_error h i with Some n => Done n | None => Undefined end.
Fixpoint upd (h : heap) (i : nat) (f : node -> node) : heap :=
  match h, i with [], _ => [] | n :: r, O => f n :: r | n :: r, S j => n :: upd r j f end.
(** A pointer that is dereferenced (mm 802-807). *)
Definition deref_ (p : option nat) : outcome nat := match p with Some i => Done i | None => Undefined end.
(** Comparing pointers (mm 819-849). *)
Definition ptr_eq (p q : option nat) : bool := match p, q with Some i, Some j => Nat.eqb i j | None, None => true | _, _ => false end.

(** rotateLeft_ (mm 905-926) for [d = true], rotateRight_ (mm 931-952) for [d = false]: the pivot is the child on side d, and the
    parent's pointer on the other side is looked at first. *)
Definition rotate (d : bool) (h : heap) (root : option nat) (n : nat) : outcome (heap * option nat) :=
  obind (node_at h n) (fun x =>
    match kid d x with
    | None => Asserted
    | Some pivot =>
        obind (node_at h pivot) (fun y =>
          let inner := kid (negb d) y in
          let h1 := upd h n (set_kid d inner) in
          let h2 := match inner with Some b => upd h1 b (set_par (Some n)) | None => h1 end in
          let h3 := upd h2 pivot (set_par (n_par x)) in
          obind (match n_par x with
                 | None => Done (h3, Some pivot)
                 | Some p => obind (node_at h3 p) (fun z =>
                     Done (upd h3 p (set_kid (if ptr_eq (kid (negb d) z) (Some n) then negb d else d) (Some pivot)), root))
                 end) (fun '(h4, root4) =>
            Done (upd (upd h4 pivot (set_kid (negb d) (Some n))) n (set_par (Some pivot)), root4)))
    end).
(** The loop of RBTreeFixup_ (mm 819-858). The two halves (820-839, 840-857) are mirror images; [d] tells on which side of the
    grandparent the parent is, as tested in 820. *)
Fixpoint fix_loop (fuel : nat) (h : heap) (root : option nat) (n : nat) : outcome (heap * option nat) :=
  match fuel with
  | O => TooDeep
  | S fuel' =>
      if ptr_eq root (Some n) then Done (h, root)
      else obind (node_at h n) (fun x => obind (deref_ (n_par x)) (fun p => obind (node_at h p) (fun y =>
        if negb (n_red y) then Done (h, root)
        else obind (deref_ (n_par y)) (fun g => obind (node_at h g) (fun z =>
          let d := negb (ptr_eq (n_l z) (Some p)) in
          let rotations :=
            obind (if ptr_eq (kid (negb d) y) (Some n)
                   then obind (rotate (negb d) h root p) (fun '(h1, r1) => Done (h1, r1, p))
                   else Done (h, root, n)) (fun '(h1, r1, n1) =>
              obind (node_at h1 n1) (fun x1 => obind (deref_ (n_par x1)) (fun p1 =>
                let h2 := upd h1 p1 (set_red false) in
                obind (node_at h2 p1) (fun y1 => obind (deref_ (n_par y1)) (fun g1 =>
                  let h3 := upd h2 g1 (set_red true) in
                  obind (rotate d h3 r1 g1) (fun '(h4, r4) => fix_loop fuel' h4 r4 n1)))))) in
          match kid (negb d) z with
          | None => rotations
          | Some u => obind (node_at h u) (fun v =>
              if n_red v then fix_loop fuel' (upd (upd (upd h p (set_red false)) u (set_red false)) g (set_red true)) root g
              else rotations)
          end)))))
  end.
(** RBTreeFixup_ (mm 814-861). *)
Definition fixup (h : heap) (root : option nat) (n : nat) : outcome (heap * option nat) :=
  obind (node_at h n) (fun _ =>
    let h1 := upd h n (set_red true) in
    obind (fix_loop (S (length h)) h1 root n) (fun '(h2, r2) => obind (deref_ r2) (fun r => Done (upd h2 r (set_red false), r2)))).
(** The two constructors of nodes (mm 683-690, 715-722). *)
Definition sep_node (p : option nat) (s : N) : node := mkNode s p None None None true.
Definition map_node (p : option nat) (m : mapping) : node := mkNode top_addr p None None (Some m) true.
(** Hanging a new node under [n] on side [d] and rebalancing (mm 298-300, 311-313, 357-359, 378-380, 400-422). *)
Definition hang (d : bool) (h : heap) (root : option nat) (n : nat) (x : node) : outcome (heap * option nat * nat) :=
  let k := length h in
  obind (fixup (upd (h ++ [x]) n (set_kid d (Some k))) root k) (fun '(h1, r1) => Done (h1, r1, k)).

(** Finding or creating the separator for the start (mm 270-319). *)
Fixpoint place_start (fuel : nat) (h : heap) (root : option nat) (n : nat) (max start : N) : outcome (heap * option nat * nat * N) :=
  match fuel with
  | O => TooDeep
  | S f => obind (node_at h n) (fun x =>
      match n_dest x with
      | Some m =>
          if start <? m_start m then match n_l x with Some k => place_start f h root k max start | None => Asserted end
          else if m_end m <=? start then match n_r x with Some k => place_start f h root k max start | None => Asserted end
          else Refused
      | None =>
          if n_sep x =? start then Done (h, root, n, max)
          else if n_sep x <? start then
            match n_r x with Some k => place_start f h root k max start
            | None => obind (hang true h root n (sep_node (Some n) start)) (fun '(h1, r1, k) => Done (h1, r1, k, max)) end
          else match n_l x with Some k => place_start f h root k (n_sep x) start
               | None => obind (hang false h root n (sep_node (Some n) start)) (fun '(h1, r1, k) => Done (h1, r1, k, n_sep x)) end
      end)
  end.
(** Finding or creating the separator for the end (mm 323-385); the result is the node the mapping is placed from. *)
Fixpoint place_end (fuel : nat) (h : heap) (root : option nat) (n : nat) (max start end_ : N) : outcome (heap * option nat * nat) :=
  match fuel with
  | O => TooDeep
  | S f => obind (node_at h n) (fun x =>
      match n_dest x with
      | Some m =>
          if end_ <=? m_start m then match n_l x with Some k => place_end f h root k max start end_ | None => Asserted end
          else if m_end m <? end_ then match n_r x with Some k => place_end f h root k max start end_ | None => Asserted end
          else Refused
      | None =>
          if n_sep x =? end_ then Done (h, root, n)
          else if n_sep x <? start then Refused
          else if n_sep x =? start then
            match n_r x with
            | Some k => if n_sep x <=? max then place_end f h root k max start end_ else Asserted
            | None => if max =? end_ then Done (h, root, n) else hang true h root n (sep_node (Some n) end_)
            end
          else if n_sep x <? end_ then Refused
          else match n_l x with
               | Some k => place_end f h root k (n_sep x) start end_
               | None => if n_sep x =? end_ then Done (h, root, n) else hang false h root n (sep_node (Some n) end_)
               end
      end)
  end.
(** findSeparatorNode_ (mm 878-900). *)
Fixpoint find_sep (fuel : nat) (h : heap) (p : option nat) (a : N) : outcome nat :=
  match fuel with
  | O => TooDeep
  | S f => obind (deref_ p) (fun n => obind (node_at h n) (fun x =>
      match n_dest x with
      | Some m => if a <? m_start m then find_sep f h (n_l x) a else if m_end m <=? a then find_sep f h (n_r x) a else Refused
      | None => if a =? n_sep x then Done n else if n_sep x <? a then find_sep f h (n_r x) a else find_sep f h (n_l x) a
      end))
  end.
(** Placing the mapping (mm 391-422). *)
Definition place_map (h : heap) (root : option nat) (n : nat) (m : mapping) : outcome (heap * option nat * nat) :=
  obind (node_at h n) (fun x =>
    if n_sep x =? top_addr then Asserted
    else if m_end m <=? n_sep x then
      match n_l x with
      | None => hang false h root n (map_node (Some n) m)
      | Some _ => obind (find_sep (S (length h)) h root (m_start m)) (fun k => obind (node_at h k) (fun y =>
          match n_r y with Some _ => Asserted | None => hang true h root k (map_node (Some k) m) end))
      end
    else if n_sep x <=? m_start m then
      match n_r x with
      | None => hang true h root n (map_node (Some n) m)
      | Some _ => obind (find_sep (S (length h)) h root (m_end m)) (fun k => obind (node_at h k) (fun y =>
          match n_l y with Some _ => Asserted | None => hang false h root k (map_node (Some k) m) end))
      end
    else Refused).

(** A memory map (mm 958-986). *)
Record mmap := mkMM { mm_block : N; mm_mask : N; mm_heap : heap; mm_root : option nat; mm_maps : list mapping }.
(** The constructor (mm 149-157). The mask is computed in int: block sizes from 2^31 on are undefined behaviour. *)
Definition new_map (block : N) : outcome mmap :=
  if block =? 0 then Asserted else if N.log2 block <? 31 then Done (mkMM block (2 ^ N.log2 block - 1) [] None []) else Undefined.
(** The checks before the tree is touched (mm 226-256). *)
Definition add_checks (c : mmap) (m : mapping) : outcome unit :=
  if negb (mi_block (m_memif m) =? mm_block c) then Asserted
  else if negb (m_start m <? m_end m) then Asserted
  else if negb (N.land (m_start m) (mm_mask c) =? 0) then Asserted
  else if negb (N.land (m_end m) (mm_mask c) =? 0) then Asserted
  else if negb (N.land (m_off m) (mm_mask c) =? 0) then Asserted
  else if mi_range (m_memif m) <? wrap 64 (m_end m - m_start m + m_off m) then Refused
  else if existsb (fun x => overlaps x (m_start m) (m_end m)) (mm_maps c) then Refused
  else Done tt.
(** addMapping (mm 222-426). *)
Definition add_mapping (c : mmap) (m : mapping) : outcome mmap :=
  obind (add_checks c m) (fun _ =>
    obind (match mm_root c with
           | None => obind (fixup [sep_node None (m_start m)] (Some 0%nat) 0) (fun '(h, r) => Done (h, r, 0%nat, top_addr))
           | Some n => place_start (S (length (mm_heap c))) (mm_heap c) (mm_root c) n top_addr (m_start m)
           end) (fun '(h1, r1, n1, max) =>
      obind (place_end (S (length h1)) h1 r1 n1 max (m_start m) (m_end m)) (fun '(h2, r2, n2) =>
        obind (place_map h2 r2 n2 m) (fun '(h3, r3, _) => Done (mkMM (mm_block c) (mm_mask c) h3 r3 (mm_maps c ++ [m])))))).
(** findMapping (mm 492-519, 524-550). *)
Fixpoint find_from (fuel : nat) (h : heap) (p : option nat) (a : N) : outcome (option mapping) :=
  match fuel with
  | O => TooDeep
  | S f => match p with
    | None => Done None
    | Some n => obind (node_at h n) (fun x =>
        match n_dest x with
        | Some m => if a <? m_start m then find_from f h (n_l x) a else if m_end m <=? a then find_from f h (n_r x) a else Done (Some m)
        | None => if n_sep x <=? a then find_from f h (n_r x) a else find_from f h (n_l x) a
        end)
    end
  end.
Definition find_mapping (c : mmap) (a : N) : outcome (option mapping) := find_from (S (length (mm_heap c))) (mm_heap c) (mm_root c) a.
(** mapAddress (mm 609-615): the interface and the address in it. *)
Definition translate (c : mmap) (a : N) : outcome (option (memif * N)) :=
  obind (find_mapping c a) (fun r => Done match r with Some m => Some (m_memif m, map_address m a) | None => None end).
(** verifyHasMapping (mm 559-584): Refused is the exception. *)
Fixpoint verify_from (fuel : nat) (h : heap) (p : option nat) (a end_ : N) : outcome unit :=
  match fuel with
  | O => TooDeep
  | S f => match p with
    | None => Refused
    | Some n => obind (node_at h n) (fun x =>
        match n_dest x with
        | Some m => if a <? m_start m then verify_from f h (n_l x) a end_ else if m_end m <=? a then verify_from f h (n_r x) a end_
                    else if end_ <=? m_end m then Done tt else Refused
        | None => if n_sep x <=? a then verify_from f h (n_r x) a end_ else verify_from f h (n_l x) a end_
        end)
    end
  end.
Definition verify_has (c : mmap) (a size : N) : outcome unit := verify_from (S (length (mm_heap c))) (mm_heap c) (mm_root c) a (wrap 64 (a + size)).
(** A history of addMapping calls; a refused one throws before the tree is touched. *)
Fixpoint add_all (c : mmap) (l : list mapping) : outcome (mmap * list bool) :=
  match l with
  | [] => Done (c, [])
  | m :: r =>
      match add_mapping c m with
      | Done c1 => obind (add_all c1 r) (fun '(c2, bs) => Done (c2, true :: bs))
      | Refused | Asserted => obind (add_all c r) (fun '(c2, bs) => Done (c2, false :: bs))
      | Undefined => Undefined
      | TooDeep => TooDeep
      end
  end.
