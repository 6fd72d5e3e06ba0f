(** Committed checkpoints on disk: sparta/src/CherryPickFastCheckpointer.cpp ("cc") and
    sparta/sparta/serialization/checkpoint/CherryPickFastCheckpointer.hpp ("ch"), with DeltaCheckpoint.hpp ("dc"),
    Checkpoint.hpp ("cp") and CheckpointBase.hpp ("cb") of the same directory. Which checkpoints a commit hands over
    (FastCheckpointer.hpp 572-759) is an argument here. The pipeline threads are taken as having run: what is put into a
    queue has arrived in its table, in order, and rows are read back in the order of their insertion. Compression and
    the archive give back what was put into them. *)
From Coq Require Import List NArith Arith Bool.
From Verif Require Import LayoutModel StorageModel.
Import ListNotations.
Open Scope N_scope.

(** UNIDENTIFIED_CHECKPOINT (cb 51), the largest value of chkpt_id_t. *)
Definition unidentified : N := 18446744073709551615.
(** Values of uint64_t (ch 33, cb 34). *)
Definition w64 (x : N) : N := x mod 18446744073709551616.
(** Difference of two uint64_t. *)
Definition sub64 (a b : N) : N := w64 (a + (18446744073709551616 - b)).

(** A checkpoint as far as it reaches the disk: identifier, tick (cb 93-96), whether it is a snapshot, and data (dc 545-550).
    The data is given by what loadState (dc 562-577) does to the simulator's state. *)
Record chk (S : Type) := mkC { c_id : N; c_tick : N; c_snap : bool; c_apply : S -> S }.
Arguments mkC {S}. Arguments c_id {S}. Arguments c_tick {S}. Arguments c_snap {S}. Arguments c_apply {S}.
(** ArchIdsForTick (ch 144-148), a row of TickRuns (cc 40-43). *)
Record run := mkR { r_start : N; r_end : N; r_tick : N }.
(** ChkptWindow (ch 267-272), a row of ChkptWindows (cc 31-36). *)
Record win (S : Type) := mkWin { w_sa : N; w_ea : N; w_st : N; w_et : N; w_cks : list (chk S) }.
Arguments mkWin {S}. Arguments w_sa {S}. Arguments w_ea {S}. Arguments w_st {S}. Arguments w_et {S}. Arguments w_cks {S}.
(** The two tables (cc 27-44). *)
Record db (S : Type) := mkDb { d_runs : list run; d_wins : list (win S) }.
Arguments mkDb {S}. Arguments d_runs {S}. Arguments d_wins {S}.
(** CherryPickFastCheckpointer (ch 305-313): tick_runs_, committed_arch_id_, committed_checkpoints_ and the tables. *)
Record writer (S : Type) := mkWr { k_runs : list run; k_next : N; k_ids : list N; k_db : db S }.
Arguments mkWr {S}. Arguments k_runs {S}. Arguments k_next {S}. Arguments k_ids {S}. Arguments k_db {S}.
(** A new one (cc 19-25, ch 310-313). *)
Definition fresh (S : Type) : writer S := mkWr [] 0 [] (mkDb [] []).

(** One round of the loop over the ticks (cc 198-218). *)
Fixpoint push_run (l : list run) (a t : N) : list run :=
  match l with
  | [] => [mkR a a t]
  | [r] => if r_tick r =? t then [mkR (r_start r) a (r_tick r)] else [r; mkR a a t]
  | r :: l' => r :: push_run l' a t
  end.
(** The loop (cc 197-218). *)
Fixpoint push_runs {S} (l : list run) (a : N) (cks : list (chk S)) : list run :=
  match cks with
  | [] => l
  | c :: cs => push_runs (push_run l a (c_tick c)) (w64 (a + 1)) cs
  end.
(** Sending all runs but the last one (cc 233-237): the runs sent and the rest. *)
Fixpoint drain (l : list run) : list run * list run :=
  match l with
  | [] => ([], [])
  | [r] => ([], [r])
  | r :: l' => let '(o, k) := drain l' in (r :: o, k)
  end.
(** The range of ticks of a window (cc 181-190). *)
Definition span {S} (cks : list (chk S)) : N * N :=
  fold_left (fun p c => (N.min (fst p) (c_tick c), N.max (snd p) (c_tick c))) cks (18446744073709551615, 0).
(** The process stage marks what it has written as deleted (cc 80-82) and marking asserts (dc 430-435). *)
Definition all_live {S} (cks : list (chk S)) : bool := forallb (fun c => negb (c_id c =? unidentified)) cks.

(** saveCheckpoints (cc 174-241) with the stages behind it (cc 60-90, 110-137). *)
Definition save {S} (k : writer S) (cks : list (chk S)) : outcome (writer S) :=
  match cks with
  | [] => Asserted
  | c :: _ =>
      if negb (c_snap c) then Asserted else
      match k_ids k with
      | _ :: _ => Asserted
      | [] =>
          let n := N.of_nat (length cks) in
          let sa := k_next k in
          let ea := sub64 (w64 (sa + n)) 1 in
          if ea <? sa then Asserted else
          if negb (all_live cks) then Asserted else
          let '(sent, kept) := drain (push_runs (k_runs k) sa cks) in
          Done (mkWr kept (w64 (sa + n)) (map c_id cks)
                  (mkDb (d_runs (k_db k) ++ sent) (d_wins (k_db k) ++ [mkWin sa ea (fst (span cks)) (snd (span cks)) cks])))
      end
  end.
(** commitCurrentBranch (cc 164-172) with the call of saveCheckpoints (FastCheckpointer.hpp 553-558); [cks] is what
    squashCurrentBranch_ returns. The caller's vector is [k_ids] afterwards. *)
Definition commit {S} (k : writer S) (cks : list (chk S)) : outcome (writer S) :=
  let k0 := mkWr (k_runs k) (k_next k) [] (k_db k) in
  match cks with
  | [] => Done k0
  | _ => save k0 cks
  end.
(** A series of commits. *)
Fixpoint commits {S} (k : writer S) (bs : list (list (chk S))) : outcome (writer S) :=
  match bs with
  | [] => Done k
  | b :: r => obind (commit k b) (fun k' => commits k' r)
  end.
(** preTeardown (cc 243-250). *)
Definition teardown {S} (k : writer S) : writer S :=
  mkWr [] (k_next k) (k_ids k) (mkDb (d_runs (k_db k) ++ k_runs k) (d_wins (k_db k))).
(** getNumCheckpoints of the writer (cc 439-455). The number of one record is read into an int; windows of 2^31 checkpoints
    or more are not modelled. *)
Definition num_saved {S} (k : writer S) : N :=
  fold_left (fun t w => w64 (t + w64 (sub64 (w_ea w) (w_sa w) + 1))) (d_wins (k_db k)) 0.

(** DatabaseCheckpointLoader (ch 198-212). *)
Record reader (S : Type) := mkRd { q_db : db S; q_cache : option (win S); q_runs : list run; q_num : N }.
Arguments mkRd {S}. Arguments q_db {S}. Arguments q_cache {S}. Arguments q_runs {S}. Arguments q_num {S}.
(** Length of a run (cc 271, 403, 408). *)
Definition run_len (r : run) : N := w64 (sub64 (r_end r) (r_start r) + 1).
(** Its constructor (cc 252-273). *)
Definition open_db {S} (d : db S) : outcome (reader S) :=
  match d_runs d with
  | [] => Asserted
  | _ => Done (mkRd d None (d_runs d) (fold_left (fun t r => w64 (t + run_len r)) (d_runs d) 0))
  end.
(** The search for the run of an index (cc 401-409). *)
Fixpoint locate (l : list run) (cur idx : N) : option (N * N) :=
  match l with
  | [] => None
  | r :: l' => if idx <? w64 (cur + run_len r) then Some (w64 (r_start r + sub64 idx cur), r_tick r)
               else locate l' (w64 (cur + run_len r)) idx
  end.
(** getChkptFromWindow_ (cc 311-328), giving the position in the window. *)
Definition from_window {S} (a t : N) (w : win S) : option nat :=
  if w_sa w <=? a then
    let i := a - w_sa w in
    if i <? N.of_nat (length (w_cks w)) then
      match nth_error (w_cks w) (N.to_nat i) with
      | Some c => if c_tick c =? t then Some (N.to_nat i) else None
      | None => None
      end
    else None
  else None.
(** What the archive gives back into an empty window (ch 281-287): as many checkpoints as the numbers say, an exception
    when there are fewer. *)
Definition unpack {S} (w : win S) : outcome (win S) :=
  let n := w64 (sub64 (w_ea w) (w_sa w) + 1) in
  if n <=? N.of_nat (length (w_cks w))
  then Done (mkWin (w_sa w) (w_ea w) (w_st w) (w_et w) (firstn (N.to_nat n) (w_cks w)))
  else Refused.
(** Linking the checkpoints of a window (cc 370-379): addNext refuses a tick that goes back (cp 117-120). *)
Fixpoint ticks_rise {S} (l : list (chk S)) : bool :=
  match l with
  | c :: ((d :: _) as l') => negb (c_tick d <? c_tick c) && ticks_rise l'
  | _ => true
  end.
(** The query (cc 339-343). *)
Definition asked {S} (a t : N) (w : win S) : bool := (w_sa w <=? a) && (a <=? w_ea w) && (w_st w <=? t) && (t <=? w_et w).
(** getChkptFromDisk_ (cc 336-392): the window that is now cached, and the position. *)
Definition from_disk {S} (d : db S) (a t : N) : outcome (option (win S * nat)) :=
  match filter (asked a t) (d_wins d) with
  | [] => Done None
  | [w] => obind (unpack w) (fun w' =>
      match from_window a t w' with
      | None => Asserted
      | Some i => if negb (ticks_rise (w_cks w')) then Refused
                  else if negb (all_live (w_cks w')) then Asserted else Done (Some (w', i))
      end)
  | _ => Asserted
  end.
(** getRestoreChain (dc 319-331) in a window linked like that: a delta without a predecessor follows a null pointer. *)
Fixpoint chain {S} (cks : list (chk S)) (i : nat) : outcome (list (chk S)) :=
  match nth_error cks i with
  | None => Undefined
  | Some c => if c_snap c then Done [c]
              else match i with
                   | O => Undefined
                   | Datatypes.S j => obind (chain cks j) (fun l => Done (l ++ [c]))
                   end
  end.
(** load (dc 386-396). *)
Definition load {S} (cks : list (chk S)) (i : nat) (s : S) : outcome S :=
  obind (chain cks i) (fun l => Done (fold_left (fun s c => c_apply c s) l s)).
(** loadCheckpoint (ch 173-178) and loadCheckpoint_ (cc 394-426). *)
Definition load_index {S} (q : reader S) (idx : N) (s : S) : outcome (reader S * S) :=
  if q_num q <=? idx then Refused else
  match locate (q_runs q) 0 idx with
  | None => Asserted
  | Some (a, t) =>
      match match q_cache q with
            | Some w => match from_window a t w with Some i => Some (w, i) | None => None end
            | None => None
            end with
      | Some (w, i) => obind (load (w_cks w) i s) (fun s' => Done (q, s'))
      | None => obind (from_disk (q_db q) a t) (fun r =>
          match r with
          | None => Refused
          | Some (w, i) => obind (load (w_cks w) i s) (fun s' => Done (mkRd (q_db q) (Some w) (q_runs q) (q_num q), s'))
          end)
      end
  end.
(** A series of loads, the state seen after each. *)
Fixpoint loads {S} (q : reader S) (is : list N) (s : S) : outcome (list S) :=
  match is with
  | [] => Done []
  | i :: r => obind (load_index q i s) (fun '(q', s') => obind (loads q' r s') (fun l => Done (s' :: l)))
  end.

(** DatabaseCheckpointReplayer (ch 220-253): the loader and next_checkpoint_idx_. *)
Record player (S : Type) := mkPl { p_rd : reader S; p_next : N }.
Arguments mkPl {S}. Arguments p_rd {S}. Arguments p_next {S}.
(** Its constructor (ch 229-235). *)
Definition play {S} (d : db S) (s : S) : outcome (player S * S) :=
  obind (open_db d) (fun q => obind (load_index q 0 s) (fun '(q', s') => Done (mkPl q' 1, s'))).
(** step (cc 428-437). *)
Definition pstep {S} (p : player S) (s : S) : outcome (bool * player S * S) :=
  if q_num (p_rd p) <=? p_next p then Done (false, p, s)
  else obind (load_index (p_rd p) (p_next p) s) (fun '(q', s') => Done (true, mkPl q' (w64 (p_next p + 1)), s')).
(** Calling step [n] times: the states seen after those that returned true. *)
Fixpoint psteps {S} (n : nat) (p : player S) (s : S) : outcome (list S) :=
  match n with
  | O => Done []
  | Datatypes.S m => obind (pstep p s) (fun '(b, p', s') =>
      obind (psteps m p' s') (fun l => Done (if b then s' :: l else l)))
  end.
