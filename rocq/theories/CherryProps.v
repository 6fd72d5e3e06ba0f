(** C78, C79: committed checkpoints go to disk completely and come back by index. *)
From Coq Require Import List NArith Arith Bool Lia Sorted.
From Verif Require Import LayoutModel StorageModel CherryModel CherrySpec CherryProofs.
Import ListNotations.
Open Scope N_scope.

(** Checkpoints over a state that is one number: a snapshot sets it, a delta adds to it. *)
Definition snap (id t v : N) : chk N := mkC id t true (fun _ => v).
Definition delta (id t v : N) : chk N := mkC id t false (fun s => s + v).
(** Four commits; ticks repeat within and across them, and go back with the last. *)
Definition four : list (list (chk N)) :=
  [[snap 0 5 10; delta 1 5 1; delta 2 7 2]; []; [snap 4 7 20; delta 7 9 1]; [snap 9 3 30]].
(** The states they were taken of. *)
Definition four_states : list (list N) := [[10; 11; 13]; []; [20; 21]; [30]].
(** The rows without the checkpoints. *)
Definition rows (o : outcome (writer N)) : option (list (N * N * N) * list (N * N * N * N)) :=
  match o with
  | Done k => let d := k_db (teardown k) in
              Some (map (fun r => (r_start r, r_end r, r_tick r)) (d_runs d), map (fun w => (w_sa w, w_ea w, w_st w, w_et w)) (d_wins d))
  | _ => None
  end.
Lemma four_rows : rows (commits (fresh N) four) = Some ([(0, 1, 5); (2, 3, 7); (4, 4, 9); (5, 5, 3)], [(0, 2, 5, 7); (3, 4, 7, 9); (5, 5, 3, 3)]).
Proof. vm_compute. reflexivity. Qed.
Lemma four_ok : count four < two64 /\ Forall batch_ok four /\ Forall ticks_ok four /\ Forall2 (records None) four four_states.
Proof.
  split; [vm_compute; reflexivity|]. split.
  - repeat constructor; discriminate.
  - split.
    + repeat constructor; cbn; try lia.
    + repeat constructor; cbn; intros; try discriminate; try (injection H as <-); reflexivity.
Qed.

(** A series of commits goes through exactly if every commit that hands over anything starts with a snapshot and contains
    no deleted checkpoint; the last one reports the identifiers of its own checkpoints. *)
Theorem C78_accepted : forall S (bs : list (list (chk S))), count bs < two64 ->
  ((exists k, commits (fresh S) bs = Done k) <-> Forall batch_ok bs)
  /\ (forall k b r, commits (fresh S) bs = Done k -> bs = r ++ [b] -> k_ids k = map c_id b).
Proof.
  intros S bs B. split; [split|].
  - intros [k E]. apply (commits_only _ _ _ _ E).
  - intros O. destruct (commits_ok _ bs B O) as [k [E _]]. exists k. exact E.
  - intros k b r E ->. destruct (commits_ok _ _ B (commits_only _ _ _ _ E)) as [k' [E' [_ Q]]]. rewrite E in E'. injection E' as <-.
    rewrite Q by (destruct r; discriminate). rewrite last_last. reflexivity.
Qed.
Print Assumptions C78_accepted.
Example C78_accepted_ex : count four < two64 /\ (exists k, commits (fresh N) four = Done k /\ k_ids k = [9])
  /\ commits (fresh N) [[delta 1 5 1]] = Asserted.
Proof.
  destruct four_ok as [B [O _]]. split; [exact B|]. destruct (C78_accepted N four B) as [[_ A] Q]. split; [|reflexivity].
  destruct (A O) as [k E]. exists k. split; [exact E|]. rewrite (Q k [snap 9 3 30] [[snap 0 5 10; delta 1 5 1; delta 2 7 2]; []; [snap 4 7 20; delta 7 9 1]] E eq_refl). reflexivity.
Qed.

(** After the teardown the rows of TickRuns give, written out, every committed checkpoint's number and tick, in order and
    once each; neighbouring rows have different ticks. *)
Theorem C78_runs : forall S (bs : list (list (chk S))) k, count bs < two64 -> commits (fresh S) bs = Done k ->
  concat (map expand (d_runs (k_db (teardown k)))) = number 0 (map c_tick (concat bs))
  /\ Sorted (fun r r' => r_tick r <> r_tick r') (d_runs (k_db (teardown k))).
Proof.
  intros S bs k B E. pose proof (commits_inv _ _ _ E B) as I. cbn [teardown k_db d_runs]. split; [|apply I].
  apply (covers_expand _ _ _ _ (i_cov _ _ I)).
Qed.
Print Assumptions C78_runs.
Example C78_runs_ex : count four < two64 /\ (exists k, commits (fresh N) four = Done k)
  /\ number 0 (map c_tick (concat four)) = [(0, 5); (1, 5); (2, 7); (3, 7); (4, 9); (5, 3)].
Proof.
  destruct four_ok as [B [O _]]. split; [exact B|]. split; [|vm_compute; reflexivity]. apply (proj1 (C78_accepted N four B)), O.
Qed.

Lemma wins_cks : forall S a ws (bs : list (list (chk S))), wins a ws bs ->
  map w_cks ws = filter (fun b => match b with [] => false | _ => true end) bs.
Proof. intros S a ws bs W. induction W; cbn; auto. destruct b; [congruence|]. rewrite IHW. reflexivity. Qed.
Lemma wins_nth : forall S a ws (bs : list (list (chk S))), wins a ws bs -> forall i w, nth_error ws i = Some w ->
  w_sa w = a + count (firstn i (map w_cks ws)) /\ w_ea w + 1 = w_sa w + N.of_nat (length (w_cks w))
  /\ w_cks w <> [] /\ (w_st w, w_et w) = span (w_cks w).
Proof.
  intros S a ws bs W. induction W as [a|a ws bs W IH|a b ws bs NB W IH]; intros i w E; [destruct i; discriminate|apply IH, E|].
  destruct i as [|i].
  - injection E as <-. cbn [w_sa w_ea w_st w_et w_cks firstn]. unfold count. cbn [concat length].
    assert (0 < length b)%nat by (destruct b; [congruence|cbn; lia]). split; [lia|]. split; [lia|]. split; [exact NB|].
    destruct (span b); reflexivity.
  - destruct (IH i w E) as [H1 H2]. split; [|exact H2]. rewrite H1. cbn [map firstn w_cks]. unfold count. cbn [concat]. rewrite len_app. lia.
Qed.

(** Every commit that hands over anything becomes one window that holds its checkpoints; its numbers follow on those of the
    windows before and its ticks are the smallest and the largest inside. *)
Theorem C78_windows : forall S (bs : list (list (chk S))) k, count bs < two64 -> commits (fresh S) bs = Done k ->
  Forall (Forall (fun c => c_tick c < two64)) bs ->
  map w_cks (d_wins (k_db k)) = filter (fun b => match b with [] => false | _ => true end) bs
  /\ forall i w, nth_error (d_wins (k_db k)) i = Some w ->
       w_sa w = count (firstn i (map w_cks (d_wins (k_db k)))) /\ w_ea w + 1 = w_sa w + N.of_nat (length (w_cks w))
       /\ (forall c, In c (w_cks w) -> w_st w <= c_tick c <= w_et w)
       /\ In (w_st w) (map c_tick (w_cks w)) /\ In (w_et w) (map c_tick (w_cks w)).
Proof.
  intros S bs k B E T. pose proof (i_win _ _ (commits_inv _ _ _ E B)) as W. split; [apply (wins_cks _ _ _ _ W)|].
  intros i w I. destruct (wins_nth _ _ _ _ W i w I) as [H1 [H2 [H3 H4]]]. split; [exact H1|]. split; [exact H2|].
  destruct (span_acc _ (w_cks w) 18446744073709551615 0) as [S1 [S2 [S3 [S4 S5]]]]. fold (span (w_cks w)) in *. rewrite <- H4 in *. cbn [fst snd] in *.
  split; [exact S3|]. destruct (w_cks w) as [|c l] eqn:Q; [congruence|].
  assert (TC : c_tick c < two64).
  { assert (In (w_cks w) bs) as IB.
    { apply (filter_In (fun b => match b with [] => false | _ => true end)). rewrite <- (wins_cks _ _ _ _ W). apply in_map. apply (nth_error_In _ _ I). }
    rewrite Q in IB. pose proof (proj1 (Forall_forall _ _) T _ IB) as F. inversion F; subst. assumption. }
  pose proof (S3 c (or_introl eq_refl)) as SC. split.
  - destruct S4 as [S4|S4]; [|exact S4]. left. lia.
  - destruct S5 as [S5|S5]; [|exact S5]. left. lia.
Qed.
Print Assumptions C78_windows.
Example C78_windows_ex : count four < two64 /\ (exists k, commits (fresh N) four = Done k) /\ Forall (Forall (fun c => c_tick c < two64)) four.
Proof.
  destruct four_ok as [B [O _]]. split; [exact B|]. split; [apply (proj1 (C78_accepted N four B)), O|]. repeat constructor; cbn; lia.
Qed.

Lemma wins_total : forall S a ws (bs : list (list (chk S))), wins a ws bs -> a + count bs < two64 -> forall t, t + count bs < two64 ->
  fold_left (fun t w => CherryModel.w64 (t + CherryModel.w64 (sub64 (w_ea w) (w_sa w) + 1))) ws t = t + count bs.
Proof.
  intros S a ws bs W. induction W as [a|a ws bs W IH|a b ws bs NB W IH]; intros A t L; [unfold count; cbn; lia|apply IH; assumption|].
  unfold count in *. cbn [concat] in *. rewrite len_app in *. cbn [fold_left w_ea w_sa].
  assert (0 < length b)%nat by (destruct b; [congruence|cbn; lia]). rewrite sub64_le by lia.
  rewrite (w64_small (a + N.of_nat (length b) - 1 - a + 1)) by lia. rewrite w64_small by lia. rewrite IH; lia.
Qed.
(** The writer counts the checkpoints committed so far. *)
Theorem C78_count : forall S (bs : list (list (chk S))) k, count bs < two64 -> commits (fresh S) bs = Done k -> num_saved k = count bs.
Proof.
  intros S bs k B E. unfold num_saved. rewrite (wins_total _ _ _ _ (i_win _ _ (commits_inv _ _ _ E B))); lia.
Qed.
Print Assumptions C78_count.
Example C78_count_ex : count four = 6 /\ count four < two64 /\ (exists k, commits (fresh N) four = Done k).
Proof. destruct four_ok as [B [O _]]. split; [reflexivity|]. split; [exact B|apply (proj1 (C78_accepted N four B)), O]. Qed.

Lemma reader_of : forall S (bs : list (list (chk S))) k rs rest q, inv bs k -> count bs < two64 -> d_runs (k_db k) ++ k_runs k = rs ++ rest ->
  open_db (mkDb rs (d_wins (k_db k))) = Done q -> exists ts ts', map c_tick (concat bs) = ts ++ ts' /\ q_num q = N.of_nat (length ts)
    /\ covers (N.of_nat (length ts)) rest ts' (count bs) /\ rok bs ts q.
Proof.
  intros S bs k rs rest q I B D E. pose proof (i_cov _ _ I) as C. rewrite D in C. apply covers_app in C.
  destruct C as [ts [ts' [m [T [C1 C2]]]]]. pose proof (covers_end _ _ _ _ C1) as M. rewrite N.add_0_l in M.
  assert (L : N.of_nat (length ts) <= count bs) by (unfold count; rewrite <- (map_length c_tick (concat bs)), T, len_app; lia).
  exists ts, ts'. split; [exact T|]. unfold open_db in E. cbn [d_runs] in E. destruct rs as [|r rs]; [discriminate|].
  injection E as <-.
  pose proof (covers_total _ _ _ _ C1 ltac:(lia) 0 ltac:(lia)) as CT. rewrite N.add_0_l in CT.
  split; [exact CT|]. split; [rewrite <- M; exact C2|].
  constructor; cbn [q_db q_runs q_num q_cache d_wins]; [apply I| |exists ts'; exact T|discriminate].
  rewrite M in C1. rewrite <- CT in C1. exact C1.
Qed.

(** The loader opens what a writer left after its teardown exactly if anything was committed, and offers all of it. *)
Theorem C79_open : forall S (bs : list (list (chk S))) k, count bs < two64 -> commits (fresh S) bs = Done k ->
  (forall q, open_db (k_db (teardown k)) = Done q -> q_num q = count bs)
  /\ ((exists q, open_db (k_db (teardown k)) = Done q) <-> concat bs <> []).
Proof.
  intros S bs k B E. pose proof (commits_inv _ _ _ E B) as I. split.
  - intros q O. destruct (reader_of _ _ _ (d_runs (k_db k) ++ k_runs k) [] q I B (eq_sym (app_nil_r _)) O) as [ts [ts' [T [Q [C _]]]]].
    apply covers_nil in C. subst ts'. rewrite app_nil_r in T. rewrite Q. unfold count. rewrite <- T, map_length. reflexivity.
  - unfold open_db. cbn [teardown k_db d_runs]. split.
    + intros [q O] Z. pose proof (i_cov _ _ I) as C. rewrite Z in C. destruct (d_runs (k_db k) ++ k_runs k); [discriminate|]. inversion C.
    + intros Z. pose proof (i_some _ _ I Z) as K. destruct (d_runs (k_db k) ++ k_runs k) eqn:Q; [|eexists; reflexivity].
      apply app_eq_nil in Q. destruct Q. congruence.
Qed.
Print Assumptions C79_open.
Example C79_open_ex : count four < two64 /\ concat four <> [] /\ (exists k, commits (fresh N) four = Done k).
Proof. destruct four_ok as [B [O _]]. split; [exact B|]. split; [discriminate|apply (proj1 (C78_accepted N four B)), O]. Qed.

(** Loads in any order, repeated or not, each give the state of which the checkpoint with that index was taken, whatever the
    state before; an index that is too large is refused whatever was loaded before. *)
Theorem C79_loads : forall S (bs : list (list (chk S))) sts k q is s, count bs < two64 -> Forall ticks_ok bs -> Forall2 (records None) bs sts ->
  commits (fresh S) bs = Done k -> open_db (k_db (teardown k)) = Done q -> Forall (fun i => i < count bs) is ->
  (exists out, loads q is s = Done out /\ Forall2 (fun i x => nth_error (concat sts) (N.to_nat i) = Some x) is out)
  /\ (forall i, count bs <= i -> loads q (is ++ [i]) s = Refused).
Proof.
  intros S bs sts k q is s B T R E O L. pose proof (commits_inv _ _ _ E B) as I. pose proof (commits_only _ _ _ _ E) as OK.
  pose proof (proj1 (C79_open S bs k B E) q O) as QN.
  destruct (reader_of _ _ _ (d_runs (k_db k) ++ k_runs k) [] q I B (eq_sym (app_nil_r _)) O) as [ts [ts' [TE [Q [C K]]]]].
  rewrite QN in Q. rewrite Q in L.
  destruct (loads_at _ _ _ _ B OK T R is q s K L) as [out [q' [s' [E1 [E2 [E3 E4]]]]]]. split; [exists out; auto|].
  intros i GE. rewrite E4. cbn [loads]. rewrite load_beyond; [reflexivity|].
  rewrite (covers_end _ _ _ _ (o_cov _ _ _ E3)). lia.
Qed.
Print Assumptions C79_loads.
(** What a series of loads of the four commits shows. *)
Definition seen (is : list N) : outcome (list N) :=
  match commits (fresh N) four with
  | Done k => obind (open_db (k_db (teardown k))) (fun q => loads q is 99)
  | _ => TooDeep
  end.
Example C79_loads_ex : (count four < two64 /\ Forall ticks_ok four /\ Forall2 (records None) four four_states
    /\ exists k q, commits (fresh N) four = Done k /\ open_db (k_db (teardown k)) = Done q)
  /\ seen [4; 1; 2; 2; 3; 0; 5] = Done [21; 11; 13; 13; 20; 10; 30] /\ seen [4; 6] = Refused.
Proof.
  destruct four_ok as [B [O [T R]]]. split; [|split; vm_compute; reflexivity]. split; [exact B|]. split; [exact T|]. split; [exact R|].
  destruct (proj2 (proj1 (C78_accepted N four B)) O) as [k E]. destruct (proj2 (proj2 (C79_open N four k B E))) as [q Q]; [discriminate|].
  exists k, q. auto.
Qed.

(** The replayer starts with the first state and shows the others one by one, then stops. *)
Theorem C79_replay : forall S (bs : list (list (chk S))) sts k s n, count bs < two64 -> Forall ticks_ok bs -> Forall2 (records None) bs sts ->
  commits (fresh S) bs = Done k -> concat bs <> [] ->
  exists p x rest, concat sts = x :: rest /\ play (k_db (teardown k)) s = Done (p, x) /\ psteps n p x = Done (firstn n rest).
Proof.
  intros S bs sts k s n B T R E NE. pose proof (commits_inv _ _ _ E B) as I. pose proof (commits_only _ _ _ _ E) as OK.
  destruct (C79_open S bs k B E) as [QN QO]. destruct (proj2 QO NE) as [q O]. specialize (QN q O).
  destruct (reader_of _ _ _ (d_runs (k_db k) ++ k_runs k) [] q I B (eq_sym (app_nil_r _)) O) as [ts [ts' [TE [Q [C K]]]]].
  assert (LS : length (concat sts) = length (concat bs)).
  { clear - R. induction R as [|b st bs sts RB RS IH]; [reflexivity|]. cbn. rewrite !app_length, IH, <- (records_len _ _ _ _ RB). reflexivity. }
  assert (LT : length ts = length (concat sts)) by (rewrite LS; unfold count in QN; lia).
  assert (P : (0 < length ts)%nat) by (rewrite LT, LS; destruct (concat bs); [congruence|cbn; lia]).
  destruct (load_at _ _ _ q _ s 0%nat K B OK T R P) as [x [q1 [X1 [X2 [X3 _]]]]].
  destruct (concat sts) as [|y rest] eqn:CS; [discriminate|]. injection X1 as ->.
  exists (mkPl q1 1), x, rest. split; [reflexivity|]. split.
  - unfold play. rewrite O. cbn [obind]. change 0 with (N.of_nat 0). rewrite X2. reflexivity.
  - change 1 with (N.of_nat 1). rewrite (psteps_at _ _ _ _ B OK T R n q1 x 1%nat X3) by lia. rewrite CS, LT, firstn_all. reflexivity.
Qed.
Print Assumptions C79_replay.
(** What the replayer shows of the four commits. *)
Definition replayed (n : nat) : outcome (N * list N) :=
  match commits (fresh N) four with
  | Done k => obind (play (k_db (teardown k)) 99) (fun '(p, x) => obind (psteps n p x) (fun l => Done (x, l)))
  | _ => TooDeep
  end.
Example C79_replay_ex : (count four < two64 /\ Forall ticks_ok four /\ Forall2 (records None) four four_states
    /\ (exists k, commits (fresh N) four = Done k) /\ concat four <> [])
  /\ replayed 2 = Done (10, [11; 13]) /\ replayed 9 = Done (10, [11; 13; 20; 21; 30]).
Proof.
  destruct four_ok as [B [O [T R]]]. split; [|split; vm_compute; reflexivity]. split; [exact B|]. split; [exact T|]. split; [exact R|].
  split; [apply (proj1 (C78_accepted N four B)), O|discriminate].
Qed.

(** A loader opened before the teardown offers the checkpoints before some number, after which all have the same tick; those it
    loads correctly, and it refuses the others. *)
Theorem C79_early : forall S (bs : list (list (chk S))) sts k q is s, count bs < two64 -> Forall ticks_ok bs -> Forall2 (records None) bs sts ->
  commits (fresh S) bs = Done k -> open_db (k_db k) = Done q -> Forall (fun i => i < q_num q) is ->
  (exists t, q_num q < count bs /\ Forall (fun c => c_tick c = t) (skipn (N.to_nat (q_num q)) (concat bs)))
  /\ (exists out, loads q is s = Done out /\ Forall2 (fun i x => nth_error (concat sts) (N.to_nat i) = Some x) is out)
  /\ (forall i, q_num q <= i -> loads q (is ++ [i]) s = Refused).
Proof.
  intros S bs sts k q is s B T R E O L. pose proof (commits_inv _ _ _ E B) as I. pose proof (commits_only _ _ _ _ E) as OK.
  assert (O' : open_db (mkDb (d_runs (k_db k)) (d_wins (k_db k))) = Done q) by (destruct (k_db k); exact O).
  destruct (reader_of _ _ _ (d_runs (k_db k)) (k_runs k) q I B eq_refl O') as [ts [ts' [TE [Q [C K]]]]]. rewrite Q in L |- *. split.
  - pose proof (i_one _ _ I) as ONE. assert (KN : k_runs k <> []).
    { apply (i_some _ _ I). intros Z. rewrite Z in TE. destruct ts; [|discriminate]. pose proof (o_cov _ _ _ K) as CV.
      unfold open_db in O'. cbn [d_runs] in O'. destruct (d_runs (k_db k)); [discriminate|]. injection O' as <-. inversion CV. }
    destruct (k_runs k) as [|r [|r' l]]; [congruence| |cbn in ONE; lia]. inversion C; subst. inversion H4; subst.
    exists t. rewrite app_nil_r in TE.
    assert (LC : length (concat bs) = (length ts + Datatypes.S k0)%nat) by (rewrite <- (map_length c_tick), TE, app_length, repeat_length; reflexivity).
    split; [unfold count; lia|]. rewrite Nat2N.id. apply Forall_forall. intros c IC.
    assert (IT : In (c_tick c) (map c_tick (skipn (length ts) (concat bs)))) by (apply in_map; exact IC).
    rewrite <- skipn_map, TE, skipn_app, skipn_all, Nat.sub_diag in IT. apply repeat_spec in IT. exact IT.
  - destruct (loads_at _ _ _ _ B OK T R is q s K L) as [out [q' [s' [E1 [E2 [E3 E4]]]]]]. split; [exists out; auto|].
    intros i GE. rewrite E4. cbn [loads]. rewrite load_beyond; [reflexivity|].
    rewrite (covers_end _ _ _ _ (o_cov _ _ _ E3)). lia.
Qed.
Print Assumptions C79_early.
(** How many checkpoints writer and loader count before the teardown. *)
Definition early_counts (bs : list (list (chk N))) : option (N * option N) :=
  match commits (fresh N) bs with
  | Done k => Some (num_saved k, match open_db (k_db k) with Done q => Some (q_num q) | _ => None end)
  | _ => None
  end.
Example C79_early_ex : early_counts (firstn 3 four) = Some (5, Some 4) /\ early_counts four = Some (6, Some 5).
Proof. split; vm_compute; reflexivity. Qed.

(** Before the teardown getNumCheckpoints counts checkpoints that the database does not let anyone load; if all have the same
    tick, the loader's constructor asserts although windows have been written. *)
Theorem C79_count_early_refuted : exists bs, count bs < two64 /\ Forall batch_ok bs /\ Forall ticks_ok bs
  /\ early_counts bs = Some (2, None).
Proof.
  exists [[snap 0 5 10; delta 1 5 1]]. split; [vm_compute; reflexivity|]. split; [repeat constructor; discriminate|].
  split; [repeat constructor; cbn; lia|vm_compute; reflexivity].
Qed.
Print Assumptions C79_count_early_refuted.
