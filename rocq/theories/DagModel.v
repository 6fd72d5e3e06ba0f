(** Model of the precedence graph sparta::DAG.
    Source: /repo/sparta/src/DAG.cpp (dag), /repo/sparta/src/Vertex.cpp (vtx),
            /repo/sparta/sparta/kernel/Vertex.hpp (vhpp),
            /repo/sparta/sparta/kernel/DAG.hpp (dhpp),
            /repo/sparta/src/Scheduleable.cpp (sch).
    Simplifications common to the file: vertices are numbers instead of pointers; labels,
    printing and the edge factory are left out; 32-bit counters do not wrap. *)
From Coq Require Import List Arith Bool Lia.
Import ListNotations.

(** A vertex, by identity (Vertex*, vhpp 81-290). *)
Definition vertex := nat.

(** alloc_vertices_ (dhpp 218), outbound_edge_list_ (vhpp 286) and num_inbound_edges_
    (vhpp 284) of each vertex. outbound_edge_map_ (vhpp 285) always holds the vertices of
    outbound_edge_list_ (both are changed together in vtx 33-34 and 49-57), so lookups in the
    map are lookups in the list. in_dag_ (vhpp 277) is membership in alloc_vertices_. *)
Record dag := mkDag { d_verts : list vertex; d_out : vertex -> list vertex; d_in : vertex -> nat }.

(** Function update. Assignment to one vertex's data member. *)
Definition fupd {A} (f : vertex -> A) (v : vertex) (x : A) : vertex -> A :=
  fun w => if Nat.eqb w v then x else f w.

(** Membership test: outbound_edge_map_.find (vtx 28, 44), isInDAG (vhpp 246). *)
Definition mem (v : vertex) (l : list vertex) : bool := existsb (Nat.eqb v) l.

(** Before initializeDAG_: empty graph (dag 121-130). *)
Definition d_empty : dag := mkDag [] (fun _ => []) (fun _ => 0).

(** The two registrations at the start of DAG::link (dag 171-179). *)
Definition register (d : dag) (v : vertex) : dag :=
  if mem v (d_verts d) then d else mkDag (d_verts d ++ [v]) (d_out d) (d_in d).

(** DAG::link (dag 168-195) with Vertex::link (vtx 24-38), without the early cycle check
    (see [link_early]). The flag is the result of Vertex::link. *)
Definition link (d : dag) (v w : vertex) : dag * bool :=
  let d := register (register d v) w in
  if Nat.eqb w v then (d, false)
  else if mem w (d_out d v) then (d, false)
  else (mkDag (d_verts d) (fupd (d_out d) v (d_out d v ++ [w])) (fupd (d_in d) w (S (d_in d w))), true).

(** Result of Vertex::unlink (vtx 40-62): the flag, or the assertion at vtx 58 failing. *)
Inductive unlink_res := Unlinked (d : dag) (b : bool) | UnlinkAssert.

(** DAG::unlink (dhpp 132-138), Vertex::unlink (vtx 40-62). *)
Definition unlink (d : dag) (v w : vertex) : unlink_res :=
  if Nat.eqb w v then Unlinked d false
  else if mem w (d_out d v) then
    let out := filter (fun x => negb (Nat.eqb x w)) (d_out d v) in
    match d_in d w with
    | 0 => UnlinkAssert
    | S n => Unlinked (mkDag (d_verts d) (fupd (d_out d) v out) (fupd (d_in d) w n)) true
    end
  else Unlinked d false.

(** Data changed by DAG::sort: pgid and sorted_num_inbound_edges_ of each vertex
    (vhpp 275, 287) and zlist (dag 202). *)
Record kst := mkK { k_gid : vertex -> nat; k_inb : vertex -> nat; k_z : list vertex }.

(** The loop over the out edges of one vertex (dag 237-260); [None]: the assertion at
    dag 243 fails. *)
Fixpoint relax (gid : nat) (outs : list vertex) (k : kst) : option kst :=
  match outs with
  | [] => Some k
  | w :: rest =>
      match k_inb k w with
      | 0 => None
      | S n =>
          let g := if Nat.leb (k_gid k w) gid then fupd (k_gid k) w (S gid) else k_gid k in
          let z := if Nat.eqb n 0 then k_z k ++ [w] else k_z k in
          relax gid rest (mkK g (fupd (k_inb k) w n) z)
      end
  end.

(** Outcome of DAG::sort: groups and num_groups_, CycleException (dag 270-272) or a failed
    assertion (dag 232, 243). *)
Inductive sort_res := Sorted (gid : vertex -> nat) (groups : nat) | CycleExc | SortAssert.

(** The loop (dag 226-265) and the final test; recursion on vcount (dag 232-233). *)
Fixpoint kahn (out : vertex -> list vertex) (vcount : nat) (k : kst) (groups : nat) : sort_res :=
  match k_z k with
  | [] => if Nat.eqb vcount 0 then Sorted (k_gid k) groups else CycleExc
  | v :: z =>
      match vcount with
      | 0 => SortAssert
      | S vc =>
          match relax (k_gid k v) (out v) (mkK (k_gid k) (k_inb k) z) with
          | None => SortAssert
          | Some k' =>
              let g := k_gid k' v in
              kahn out vc k' (if Nat.ltb groups g then S g else groups)
          end
      end
  end.

(** DAG::sort (dag 198-274). The call of detectCycle and printCycles (dag 204-207) only
    prints and changes markers. Vertex::reset is vhpp 139-145. *)
Definition sort (d : dag) : sort_res :=
  kahn (d_out d) (length (d_verts d))
       (mkK (fun _ => 1) (d_in d) (filter (fun v => Nat.eqb (d_in d v) 0) (d_verts d))) 1.

(** CycleMarker (vhpp 88-92). *)
Inductive color := White | Gray | Black.

(** The switch on a neighbour's marker (vtx 81-96), for [dfs] and [find]. *)
Definition is_white (c : color) : bool := match c with White => true | _ => false end.

(** Vertex::detectCycle (vtx 72-102). [None] would be running out of [fuel], the number of
    nested calls allowed; C08 shows that the number of vertices is enough. *)
Fixpoint dfs (out : vertex -> list vertex) (fuel : nat) (m : vertex -> color) (v : vertex)
  : option (bool * (vertex -> color)) :=
  match fuel with
  | 0 => None
  | S f =>
      (fix go (ws : list vertex) (m : vertex -> color) : option (bool * (vertex -> color)) :=
         match ws with
         | [] => Some (false, fupd m v Black)
         | w :: rest =>
             match m w with
             | White =>
                 match dfs out f m w with
                 | None => None
                 | Some (true, m') => Some (true, m')
                 | Some (false, m') => go rest m'
                 end
             | Gray => Some (true, m)
             | Black => go rest m
             end
         end) (out v) (fupd m v Gray)
  end.

(** The loop of DAG::detectCycle over alloc_vertices_ (dag 284-291). *)
Fixpoint dfs_all (out : vertex -> list vertex) (fuel : nat) (vs : list vertex) (m : vertex -> color)
  : option bool :=
  match vs with
  | [] => Some false
  | v :: rest =>
      if is_white (m v) then
        match dfs out fuel m v with
        | None => None
        | Some (true, _) => Some true
        | Some (false, m') => dfs_all out fuel rest m'
        end
      else dfs_all out fuel rest m
  end.

(** DAG::detectCycle (dag 277-292). *)
Definition detect_cycle (d : dag) : option bool :=
  dfs_all (d_out d) (S (length (d_verts d))) (d_verts d) (fun _ => White).

(** Vertex::findCycle (vtx 125-157): as [dfs], with cycle_set built by push_front on the way
    out. [None]: out of fuel. *)
Fixpoint find (out : vertex -> list vertex) (fuel : nat) (m : vertex -> color) (v : vertex)
  : option (option (list vertex) * (vertex -> color)) :=
  match fuel with
  | 0 => None
  | S f =>
      (fix go (ws : list vertex) (m : vertex -> color) : option (option (list vertex) * (vertex -> color)) :=
         match ws with
         | [] => Some (None, fupd m v Black)
         | w :: rest =>
             match m w with
             | White =>
                 match find out f m w with
                 | None => None
                 | Some (Some l, m') => Some (Some (w :: l), m')
                 | Some (None, m') => go rest m'
                 end
             | Gray => Some (Some [w], m)
             | Black => go rest m
             end
         end) (out v) (fupd m v Gray)
  end.

(** The loop of DAG::getCycles_ (dag 347-354); the result is cycle_set. *)
Fixpoint find_all (out : vertex -> list vertex) (fuel : nat) (vs : list vertex) (m : vertex -> color)
  : option (list vertex) :=
  match vs with
  | [] => Some []
  | v :: rest =>
      if is_white (m v) then
        match find out fuel m v with
        | None => None
        | Some (Some l, _) => Some l
        | Some (None, m') => find_all out fuel rest m'
        end
      else find_all out fuel rest m
  end.

(** DAG::getCycles_ (dag 338-355). *)
Definition get_cycles (d : dag) : option (list vertex) :=
  find_all (d_out d) (S (length (d_verts d))) (d_verts d) (fun _ => White).

(** CycleException::writeCycleAsText (dag 15-52): [true] when every assertion holds (an edge
    between consecutive vertices, dag 22; an edge from the last vertex into the list, dag 51).
    An empty list dereferences a null pointer at dag 43 and counts as failing. *)
Fixpoint write_consecutive (out : vertex -> list vertex) (l : list vertex) : bool :=
  match l with
  | a :: ((b :: _) as r) => mem b (out a) && write_consecutive out r
  | _ => true
  end.
(** See [write_consecutive]; the second loop is dag 42-50. *)
Definition write_text (out : vertex -> list vertex) (l : list vertex) : bool :=
  match l with
  | [] => false
  | v :: _ => (write_consecutive out l && existsb (fun w => mem w (out (last l v))) l)%bool
  end.

(** DAG::link with early_cycle_detect_ set (dag 190-194); the flag says that CycleException
    is thrown. [None]: out of fuel. *)
Definition link_early (d : dag) (v w : vertex) : option (dag * bool) :=
  let (d', added) := link d v w in
  if added then
    match detect_cycle d' with
    | None => None
    | Some b => Some (d', b)
    end
  else Some (d', false).

(** The seven phases in order (SchedulingPhases.hpp 57-72); the GOP vertex of phase [p] is
    vertex [p], created first by initializeDAG_ (dag 147-153). Other vertices are >= 7. *)
Definition num_phases : nat := 7.

(** initializeDAG_ (dag 138-165). *)
Definition d_init : dag :=
  fold_left (fun d p => fst (link d p (S p))) [0; 1; 2; 3; 4; 5] d_empty.

(** setupDummyPrecedence_... of an event with vertex [v] in phase [p] (sch 113-157). *)
Definition phase_links (d : dag) (v : vertex) (p : nat) : dag :=
  let d := match p with 0 => d | S q => fst (link d q v) end in
  fst (link d v p).

(** Calls that build the graph: Scheduleable::precedes and DAG::link (sch 56-98, dag 168) on
    any vertices, Scheduleable::unlink (sch 100-106) on the vertices of two events, and the
    phase set-up of an event. *)
Inductive dop :=
| DLink (v w : vertex)
| DUnlink (v w : vertex)
| DPhase (v : vertex) (p : nat).

(** One call. A failed assertion keeps the graph. Scheduleable::unlink only reaches vertices
    of events (sch 105) and asserts that they differ (sch 103). *)
Definition dop_step (d : dag) (o : dop) : dag :=
  match o with
  | DLink v w => fst (link d v w)
  | DUnlink v w =>
      if (Nat.ltb v num_phases || Nat.ltb w num_phases)%bool then d
      else match unlink d v w with Unlinked d' _ => d' | UnlinkAssert => d end
  | DPhase v p => if (Nat.ltb p num_phases && negb (Nat.ltb v num_phases))%bool then phase_links d v p else d
  end.

(** A finished construction. *)
Definition build (ops : list dop) : dag := fold_left dop_step ops d_init.
