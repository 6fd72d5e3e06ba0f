(** C76: the histograms of a state timer unit hold every cycle that a timer
    was in a state, once. *)
From Coq Require Import NArith List Bool Arith Lia Permutation.
From Verif Require Import StateTimerModel StateTimerSpec StateTimerProofs.
Import ListNotations.
Open Scope N_scope.

(** Two sets of three and two states; two timers at first. *)
Definition ex_par := mkPar [3; 2]%nat 2%nat.

(** Timer 1 is in state 2 from cycle 3 to 8, then in state 0; timer 0 is in
    state 2 from cycle 8; queried at cycle 10, and twelve at the end. *)
Definition ex_hist : list op :=
  [Tick 2; Query; Tick 2; Start 0 0 2; Alloc 0; Start 1 0 0; Tick 4; Start 1 1 1; Tick 1;
   Start 1 0 2; Alloc 1; Tick 3]%nat.

(** For the examples: is a history accepted, and the histogram after it. *)
Definition accepted (p : par) (h : list op) : bool :=
  match run p h with Some _ => true | None => false end.
Definition shown (p : par) (h : list op) (k x : nat) : option (list N) :=
  match run p h with Some u => Some (u_hist u k x) | None => None end.

(** What has been added to the histogram of a state, with what the timers in
    use have not reported yet, is the time spent in it. *)
Theorem C76_time : forall p h u k x, run p h = Some u -> state_of p k x ->
  sum (u_hist u k x) + sum (map (fun i => lap h i k x) (users h)) = total h k x.
Proof. intros p h u k x E K. apply (iv_sum _ _ _ (run_inv _ _ _ E)). auto. Qed.
Print Assumptions C76_time.

Example C76_time_ex : shown ex_par ex_hist 0 2 = Some [5; 2] /\
  sum (map (fun i => lap ex_hist i 0 2) (users ex_hist)) = 2 /\ total ex_hist 0 2 = 9 /\
  state_of ex_par 0 2.
Proof. split; [vm_compute; reflexivity|]. split; [vm_compute; reflexivity|].
  split; [vm_compute; reflexivity|]. exists 3%nat. split; [reflexivity|lia]. Qed.

(** So after a query, and when no timer is in use, it is all there. *)
Theorem C76_settled : forall p h u k x, run p h = Some u -> state_of p k x ->
  (users h = [] \/ exists r, h = Query :: r) -> sum (u_hist u k x) = total h k x.
Proof.
  intros p h u k x E K D. rewrite <- (C76_time p h u k x E K). destruct D as [D|[r ->]].
  - rewrite D. cbn. lia.
  - cbn [users]. rewrite (sum_ext (fun i => lap (Query :: r) i k x) (fun _ => 0)) by auto.
    assert (sum (map (fun _ : nat => 0) (users r)) = 0) as ->. { induction (users r); cbn; auto. }
    lia.
Qed.
Print Assumptions C76_settled.

Example C76_settled_ex : 
  option_map sum (shown ex_par (Query :: ex_hist) 0 2) = Some 9 /\
  option_map sum (shown ex_par (Release 0 :: Release 1 :: ex_hist) 0 2) = Some 9 /\
  total ex_hist 0 2 = 9 /\ users (Release 0 :: Release 1 :: ex_hist) = [].
Proof. repeat split; vm_compute; reflexivity. Qed.

(** A handle that goes adds one value to every histogram: the time since the
    last report. *)
Theorem C76_release : forall p h u i v k x, run p h = Some u -> run p (Release i :: h) = Some v ->
  state_of p k x -> u_hist v k x = lap h i k x :: u_hist u k x.
Proof.
  intros p h u i v k x E F K. cbn [run] in F. rewrite E in F.
  apply (step_release p h u i v (run_inv _ _ _ E) F). auto.
Qed.
Print Assumptions C76_release.

Example C76_release_ex : 
  shown ex_par ex_hist 0 0 = Some [2; 0] /\ lap ex_hist 1 0 0 = 2 /\
  shown ex_par (Release 1 :: ex_hist) 0 0 = Some [2; 2; 0].
Proof. repeat split; vm_compute; reflexivity. Qed.

(** A query adds one value for every timer in use, except for those queried
    before in this cycle. *)
Theorem C76_query : forall p h u v k x, run p h = Some u -> run p (Query :: h) = Some v ->
  state_of p k x ->
  Permutation (u_hist v k x)
    (map (fun i => lap h i k x) (filter (fun i => negb (asked h i =? clock h)) (users h)) ++ u_hist u k x).
Proof.
  intros p h u v k x E F K. cbn [run] in F. rewrite E in F. cbn [step] in F.
  destruct (step_query p h u (run_inv _ _ _ E)) as (w & W & _ & H).
  rewrite W in F. injection F as <-. rewrite (H k x K).
  apply Permutation_app_tail. symmetry. apply Permutation_rev.
Qed.
Print Assumptions C76_query.

Example C76_query_ex : shown ex_par ex_hist 0 2 = Some [5; 2] /\
  shown ex_par (Query :: ex_hist) 0 2 = Some [0; 2; 5; 2] /\
  shown ex_par (Query :: Query :: ex_hist) 0 2 = Some [0; 2; 5; 2] /\
  shown ex_par (Query :: ex_hist) 1 1 = Some [2; 0; 6; 0].
Proof. repeat split; vm_compute; reflexivity. Qed.

(** Nothing else adds a value. *)
Theorem C76_quiet : forall p h u o v, run p h = Some u -> run p (o :: h) = Some v ->
  (forall i, o <> Release i) -> o <> Query -> u_hist v = u_hist u.
Proof.
  intros p h u o v E F R Q. cbn [run] in F. rewrite E in F.
  destruct o; cbn [step] in F; try congruence.
  - injection F as <-. auto.
  - unfold allocate in F. destruct (u_avail u) as [|a r] eqn:V.
    + destruct (negb (N.of_nat (length (u_timers u)) <? max_timers)); [discriminate|].
      cbn [u_avail u_now u_timers u_active u_hist] in F.
      destruct (rev (seq (length (u_timers u)) (p_more p))); [discriminate|].
      destruct (Nat.eqb i n); [|discriminate]. injection F as <-. auto.
    + rewrite V in F. destruct (Nat.eqb i a); [|discriminate]. injection F as <-. auto.
  - unfold start_state in F. destruct (negb (in_use u i)); [discriminate|].
    destruct (nth_error (u_timers u) i) as [t|]; [|discriminate].
    destruct (nth_error (p_sizes p) k) as [size|]; [|discriminate].
    destruct (match a_state (t_set t k) with Some _ => _ | None => _ end) as [s1|]; [|discriminate].
    destruct (negb (Nat.ltb x size)); [discriminate|]. injection F as <-. auto.
  - unfold stop_state in F. destruct (negb (in_use u i)); [discriminate|].
    destruct (nth_error (u_timers u) i) as [t|]; [|discriminate].
    destruct (nth_error (p_sizes p) k) as [size|]; [|discriminate].
    destruct (a_state (t_set t k)) as [a|]; [|discriminate].
    destruct (negb (Nat.eqb a x)); [discriminate|]. injection F as <-. auto.
Qed.
Print Assumptions C76_quiet.

Example C76_quiet_ex : shown ex_par ex_hist 0 0 = Some [2; 0] /\
  shown ex_par (Stop 1 0 0 :: ex_hist) 0 0 = Some [2; 0].
Proof. repeat split; vm_compute; reflexivity. Qed.

(** A timer given out is not in use, is in no state, and has nothing to
    report. *)
Theorem C76_allocate : forall p h i u, run p (Alloc i :: h) = Some u ->
  ~ In i (users h) /\ (forall k, doing h i k = None) /\ (forall k x, lap h i k x = 0).
Proof.
  intros p h i u E. cbn [run] in E. destruct (run p h) as [v|] eqn:R; [|discriminate].
  cbn [step] in E. destruct (allocate p v) as [[j w]|] eqn:A; [|discriminate].
  destruct (Nat.eqb_spec i j); [|discriminate]. subst j.
  destruct (step_alloc p h v i w (run_inv _ _ _ R) A) as [_ N].
  destruct (iv_out _ _ _ (run_inv _ _ _ R) i N). auto.
Qed.
Print Assumptions C76_allocate.

Example C76_allocate_ex : 
  accepted ex_par (Alloc 3 :: Alloc 1 :: Release 1 :: ex_hist) = true /\
  users (Alloc 3 :: Alloc 1 :: Release 1 :: ex_hist) = [3; 1; 0]%nat.
Proof. repeat split; vm_compute; reflexivity. Qed.

(** A timer can be had while less than 10000 are in use, if the pool was made
    with at least one. *)
Theorem C76_available : forall p h u, run p h = Some u -> (0 < p_more p)%nat ->
  N.of_nat (length (users h)) < 10000 -> exists i v, run p (Alloc i :: h) = Some v.
Proof.
  intros p h u E M L. pose proof (run_inv _ _ _ E) as I. cbn [run]. rewrite E. cbn [step].
  unfold allocate. destruct (u_avail u) as [|a r] eqn:V.
  - assert (N.of_nat (length (u_timers u)) <? max_timers = true) as ->.
    { pose proof (Permutation_length (iv_pool _ _ _ I)) as P.
      rewrite V, app_nil_r, seq_length, (iv_active _ _ _ I) in P.
      apply N.ltb_lt. unfold max_timers. lia. }
    cbn [negb u_avail].
    destruct (rev (seq (length (u_timers u)) (p_more p))) as [|a r] eqn:S.
    + apply (f_equal (@length nat)) in S. rewrite rev_length, seq_length in S. cbn in S. lia.
    + exists a. rewrite Nat.eqb_refl. eexists. reflexivity.
  - exists a. rewrite V, Nat.eqb_refl. eexists. reflexivity.
Qed.
Print Assumptions C76_available.

Example C76_available_ex : accepted ex_par ex_hist = true /\
  accepted ex_par (Alloc 3 :: ex_hist) = true /\
  forall i, accepted (mkPar [3; 2]%nat 0%nat) [Alloc i] = false.
Proof. repeat split; vm_compute; reflexivity. Qed.

(** A state is started exactly when: the handle is there, the state exists, the
    timer is not in it, and a state of the set that it is in was started after
    cycle zero. *)
Theorem C76_start : forall p h u i k x, run p h = Some u ->
  (exists v, run p (Start i k x :: h) = Some v) <->
  In i (users h) /\ state_of p k x /\ doing h i k <> Some x /\
  (doing h i k = None \/ 0 < started h i k).
Proof.
  intros p h u i k x E. pose proof (run_inv _ _ _ E) as I. cbn [run]. rewrite E. cbn [step].
  unfold start_state, in_use. rewrite (iv_active _ _ _ I).
  destruct (existsb (Nat.eqb i) (users h)) eqn:U.
  2: { apply use_not in U. cbn [negb]. split; [intros [v X]; discriminate|tauto]. }
  apply use_in in U. cbn [negb]. destruct (inv_user p h u i I U) as [t T]. rewrite T.
  destruct (iv_timer _ _ _ I i t T) as (_ & _ & _ & D). destruct (D k) as (S1 & S2 & _).
  unfold state_of. destruct (nth_error (p_sizes p) k) as [size|].
  2: { split; [intros [v X]; discriminate|intros (_ & (s & X & _) & _); discriminate]. }
  rewrite S1 in *. destruct (doing h i k) as [a|] eqn:A.
  - destruct S2 as [S2 _]; [congruence|]. rewrite S2.
    destruct (Nat.eqb_spec a x) as [->|N].
    { split; [intros [v X]; discriminate|intros (_ & _ & X & _); congruence]. }
    destruct (N.ltb_spec 0 (started h i k)); cbn [negb].
    + destruct (Nat.ltb_spec x size); cbn [negb].
      * split; [intros _|intros _; eexists; reflexivity].
        split; [auto|]. split; [eauto|]. split; [congruence|auto].
      * split; [intros [v X]; discriminate|intros (_ & (s & X & Y) & _)].
        injection X as <-. lia.
    + split; [intros [v X]; discriminate|intros (_ & _ & _ & [X|X])]; [congruence|lia].
  - destruct (Nat.ltb_spec x size); cbn [negb].
    + split; [intros _|intros _; eexists; reflexivity].
      split; [auto|]. split; [eauto|]. split; [congruence|auto].
    + split; [intros [v X]; discriminate|intros (_ & (s & X & Y) & _)].
      injection X as <-. lia.
Qed.
Print Assumptions C76_start.

Example C76_start_ex : accepted ex_par (Start 0 0 1 :: ex_hist) = true /\
  accepted ex_par (Start 0 0 2 :: ex_hist) = false /\ accepted ex_par (Start 0 0 3 :: ex_hist) = false /\
  accepted ex_par (Start 2 0 1 :: ex_hist) = false.
Proof. repeat split; vm_compute; reflexivity. Qed.

(** A state is ended exactly when a handle there is in it; a handle goes
    exactly when it is there; a query is always accepted. *)
Theorem C76_stop : forall p h u i k x, run p h = Some u ->
  ((exists v, run p (Stop i k x :: h) = Some v) <-> doing h i k = Some x) /\
  ((exists v, run p (Release i :: h) = Some v) <-> In i (users h)) /\
  (exists v, run p (Query :: h) = Some v).
Proof.
  intros p h u i k x E. pose proof (run_inv _ _ _ E) as I. cbn [run]. rewrite E. cbn [step].
  split; [|split].
  - unfold stop_state, in_use. rewrite (iv_active _ _ _ I).
    destruct (existsb (Nat.eqb i) (users h)) eqn:U.
    2: { apply use_not in U. cbn [negb]. destruct (iv_out _ _ _ I i U) as [X _]. rewrite X.
         split; [intros [v Y]; discriminate|congruence]. }
    apply use_in in U. cbn [negb]. destruct (inv_user p h u i I U) as [t T]. rewrite T.
    destruct (iv_timer _ _ _ I i t T) as (_ & _ & _ & D). destruct (D k) as (S1 & _ & _).
    destruct (nth_error (p_sizes p) k) as [size|] eqn:K.
    2: { split; [intros [v X]; discriminate|]. intros X.
         destruct (iv_states _ _ _ I _ _ _ X) as (s & Y & _). congruence. }
    rewrite S1. destruct (doing h i k) as [a|].
    + destruct (Nat.eqb_spec a x); cbn [negb].
      * subst. split; auto. intros _. eexists. reflexivity.
      * split; [intros [v X]; discriminate|congruence].
    + split; [intros [v X]; discriminate|congruence].
  - unfold release, in_use. rewrite (iv_active _ _ _ I).
    destruct (existsb (Nat.eqb i) (users h)) eqn:U.
    + apply use_in in U. cbn [negb]. destruct (inv_user p h u i I U) as [t T]. rewrite T.
      split; auto. intros _. eexists. reflexivity.
    + apply use_not in U. cbn [negb]. split; [intros [v X]; discriminate|tauto].
  - destruct (step_query p h u I) as (v & V & _). eauto.
Qed.
Print Assumptions C76_stop.

Example C76_stop_ex : accepted ex_par (Stop 0 0 2 :: ex_hist) = true /\
  accepted ex_par (Stop 0 0 1 :: ex_hist) = false /\ accepted ex_par (Stop 0 1 0 :: ex_hist) = false /\
  accepted ex_par (Release 2 :: ex_hist) = false.
Proof. repeat split; vm_compute; reflexivity. Qed.

(** A state started in cycle zero cannot be left by starting another one, at
    no time, though ending it and then starting the other is accepted. *)
Theorem C76_cycle_zero_refuted : forall n,
  accepted ex_par [Start 1 0 1; Tick n; Start 1 0 0; Alloc 1] = false /\
  accepted ex_par [Start 1 0 1; Stop 1 0 0; Tick n; Start 1 0 0; Alloc 1] = true /\
  accepted ex_par [Start 1 0 1; Tick n; Start 1 0 0; Tick 1; Alloc 1] = true.
Proof. intros n. repeat split; vm_compute; reflexivity. Qed.
Print Assumptions C76_cycle_zero_refuted.

Example C76_cycle_zero_ex : accepted ex_par [Tick 7; Start 1 0 0; Alloc 1] = true /\
  accepted ex_par [Start 1 0 1; Tick 7; Start 1 0 0; Alloc 1] = false.
Proof. repeat split; vm_compute; reflexivity. Qed.
