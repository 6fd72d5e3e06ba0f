(** Squashing the current branch: squashCurrentBranch_ of sparta/sparta/serialization/checkpoint/FastCheckpointer.hpp ("fc"
    572-759) on the checkpointer of CkptModel, with Checkpoint.hpp ("cp"), DeltaCheckpoint.hpp ("dc") and Checkpointer.hpp
    ("cr"). The saved checkpoints are given to the caller; what their destruction does later (cp 58-72) is left out: it
    clears the link of the new head to its predecessor, which is clear already (cp 175-180). *)
From Coq Require Import List NArith Arith Bool.
From Verif Require Import LayoutModel ArchDataModel StorageModel CkptModel.
Import ListNotations.
Open Scope N_scope.

(** The two counters and their assertions (fc 597-600, 667-670, 712-715, 743-746). *)
Definition uncount (snap : bool) (ac : N * N) : outcome (N * N) :=
  if fst ac =? 0 then Asserted
  else if snap then if snd ac =? 0 then Asserted else Done (dec (fst ac), dec (snd ac))
  else Done (dec (fst ac), snd ac).
(** Several. *)
Fixpoint uncounts (l : list (N * node)) (ac : N * N) : outcome (N * N) :=
  match l with
  | [] => Done ac
  | p :: r => obind (uncount (n_snap (snd p)) ac) (uncounts r)
  end.
(** Destroying checkpoints one after the other (fc 664-673, 749-751). *)
Fixpoint erase_all (xs : list N) (l : list (N * node)) : outcome (list (N * node)) :=
  match xs with
  | [] => Done l
  | x :: r => obind (erase x l) (erase_all r)
  end.
(** The entries of the map with an identifier outside a list (fc 657-662, 733-737). *)
Definition outside (ids : list N) (l : list (N * node)) : list (N * node) := filter (fun p => negb (mem (fst p) ids)) l.
(** flagDeleted asserts that the checkpoint is not flagged yet (dc 430-435; fc 607, 659, 741). *)
Definition some_dead (l : list (N * node)) : bool := existsb (fun p => n_dead (snd p)) l.

(** setHead_ (cr 671-677) with makeHeadCheckpoint (dc 536-539, cp 175-180), whose assertion this is; it is called for snapshots only. *)
Definition check_head (l : list (N * node)) (n : node) : outcome unit :=
  match n_prev n with
  | None => Done tt
  | Some p => obind (deref p l) (fun pn => if n_dead pn then Asserted else Done tt)
  end.
(** The loop over the chain (fc 708-730): saved, kept, head and counters. [chkpts_[id]] of an identifier that is not in the
    map gives a null pointer, which is followed. *)
Fixpoint part (k : ckpt) (ids stack : list N) (head : N) (ac : N * N) : outcome (list N * list N * N * (N * N)) :=
  match ids with
  | [] => Done ([], [], head, ac)
  | id :: r =>
      match stack with
      | [] => Done ([], [], head, ac)
      | t :: st =>
          if negb (id =? id_of k t) then
            match get id (k_nodes k) with
            | None => Undefined
            | Some n => obind (uncount (n_snap n) ac) (fun ac' =>
                obind (part k r stack head ac') (fun '(sv, kp, h, a) => Done (id :: sv, kp, h, a)))
            end
          else
            obind (deref t (k_nodes k)) (fun tn =>
              obind (if n_snap tn then obind (check_head (k_nodes k) tn) (fun _ => Done t) else Done head) (fun head' =>
                obind (part k r st head' ac) (fun '(sv, kp, h, a) => Done (sv, id_of k t :: kp, h, a))))
      end
  end.

(** The checkpointer with another map, head and counters. *)
Definition with_map (k : ckpt) (l : list (N * node)) (h : N) (ac : N * N) : ckpt :=
  mkCk l (Some h) (k_cur k) (k_next k) (fst ac) (snd ac) (k_deadn k) (k_thresh k) (k_total k).
(** The entries of a heap in the order of a list. *)
Definition pick (l : list (N * node)) (ids : list N) : list (N * node) :=
  flat_map (fun x => match get x l with Some n => [(x, n)] | None => [] end) ids.
(** Same lengths (fc 654-678): only other branches go. *)
Definition squash_only (k : ckpt) (h : N) (chain : list N) : outcome (ckpt * list (N * node)) :=
  let gone := outside chain (k_nodes k) in
  if some_dead gone then Asserted else
  obind (uncounts gone (k_alive k, k_snaps k)) (fun ac =>
    obind (erase_all (map fst gone) (k_nodes k)) (fun l =>
      match get (id_of k h) l with
      | None => Asserted
      | Some hn => if n_snap hn then Done (with_map k l h ac, []) else Asserted
      end)).
(** Different lengths (fc 683-752). The source clears the new head's link to its predecessor before it destroys checkpoints,
    here it comes after; destroying does not look at it. *)
Definition squash_part (k : ckpt) (h : N) (chain stack : list N) : outcome (ckpt * list (N * node)) :=
  obind (part k (rev chain) stack h (k_alive k, k_snaps k)) (fun '(sv, kp, h', ac) =>
    let gone := outside (sv ++ kp) (k_nodes k) in
    if some_dead gone then Asserted else
    obind (uncounts gone ac) (fun ac' =>
      obind (erase_all (map fst gone) (k_nodes k)) (fun l =>
        Done (with_map k (upd h' (set_prev None) (filter (fun p => mem (fst p) kp) l)) h' ac', pick l sv)))).
(** squashCurrentBranch_ without a new head (fc 572-577, 647-759). *)
Definition squash (k : ckpt) : outcome (ckpt * list (N * node)) :=
  match k_cur k, k_head k with
  | None, _ => Done (k, [])
  | _, None => Asserted
  | Some c, Some h =>
      obind (checkpoint_chain k (current_id k)) (fun chain =>
        obind (restore_chain (depth k) (k_nodes k) c) (fun stack =>
          obind (if Nat.eqb (length chain) (length stack) then squash_only k h chain else squash_part k h chain stack) (fun '(k', sv) =>
            if head_id k' =? no_id then Asserted else Done (k', sv))))
  end.
(** Looking up what a new head saves (fc 593-604). *)
Fixpoint take (k : ckpt) (ids : list N) (ac : N * N) : outcome (list (N * node) * (N * N)) :=
  match ids with
  | [] => Done ([], ac)
  | id :: r =>
      match get id (k_nodes k) with
      | None => Asserted
      | Some n => obind (uncount (n_snap n) ac) (fun ac' => obind (take k r ac') (fun '(l, a) => Done ((id, n) :: l, a)))
      end
  end.
(** squashCurrentBranch_ with a new head (fc 583-612) and createHead_ (fc 933-958). *)
Definition squash_new_head (w : world) : outcome (world * list (N * node)) :=
  let k := w_ck w in
  match k_cur k with
  | None => Done (w, [])
  | Some c =>
      obind (checkpoint_chain k (current_id k)) (fun chain =>
        obind (take k (rev chain) (k_alive k, k_snaps k)) (fun '(sv, ac) =>
          if some_dead (outside chain (k_nodes k)) then Asserted else
          obind (save_dats vector_storage true v_new (w_dats w)) (fun '(d, s) =>
            Done (mkW d (w_sched w) (mkCk [(k_next k, mkNode (now w) false None [] true s)] (Some (k_next k)) (Some (k_next k)) (k_next k + 1)
                    (inc (fst ac)) (inc (snd ac)) (k_deadn k) (k_thresh k) (k_total k)), sv))))
  end.

(** A call of the checkpointer or of squashCurrentBranch without a new head (fc 553-558). *)
Inductive sop := SCall (o : cop) | SSquash.
(** A history of calls with what was given to the disk, oldest first: an empty result is not handed over (fc 555-557). It
    ends where the program would; exceptions have no effect. *)
Fixpoint srun (sh : overshift) (w : world) (ops : list sop) : option (world * list (list (N * node))) :=
  match ops with
  | [] => Some (w, [])
  | SCall o :: r => match cstep sh w o with Done w' => srun sh w' r | Refused => srun sh w r | _ => None end
  | SSquash :: r =>
      match squash (w_ck w) with
      | Done (k, sv) =>
          match srun sh (mkW (w_dats w) (w_sched w) k) r with
          | Some (w', bs) => Some (w', match sv with [] => bs | _ => sv :: bs end)
          | None => None
          end
      | Refused => srun sh w r
      | _ => None
      end
  end.
