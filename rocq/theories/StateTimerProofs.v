(** Lemmas for StateTimerProps: what a state timer unit holds is what the
    history says (StateTimerUnit.hpp below /repo/sparta/sparta/simulation). *)
From Coq Require Import NArith List Bool Arith Lia Permutation.
From Verif Require Import StateTimerModel StateTimerSpec.
Import ListNotations.
Open Scope N_scope.

Lemma put_len : forall A (l : list A) i v, length (put l i v) = length l.
Proof. induction l; destruct i; cbn; intros; auto. Qed.

Lemma put_same : forall A (l : list A) i v w, nth_error l i = Some w ->
  nth_error (put l i v) i = Some v.
Proof. induction l; destruct i; cbn; intros; try discriminate; eauto. Qed.

Lemma put_other : forall A (l : list A) i j v, i <> j -> nth_error (put l i v) j = nth_error l j.
Proof.
  induction l; destruct i, j; cbn; intros; auto; try congruence.
Qed.

Lemma use_in : forall l i, existsb (Nat.eqb i) l = true <-> In i l.
Proof.
  intros. rewrite existsb_exists. split.
  - intros (j & J & E). apply Nat.eqb_eq in E. subst. auto.
  - intros J. exists i. split; auto. apply Nat.eqb_refl.
Qed.

Lemma use_not : forall l i, existsb (Nat.eqb i) l = false <-> ~ In i l.
Proof.
  intros. rewrite <- use_in. destruct (existsb (Nat.eqb i) l); split; congruence.
Qed.

(** What one timer adds to a state, in the cycles since its start or the last
    query (su 201-214). *)
Definition extra (now q : N) (s : sset) (x : nat) : N :=
  match a_state s with
  | Some a => if Nat.eqb a x then (if q <? a_start s then now - a_start s else now - q) else 0
  | None => 0
  end.

(** One set of a timer against the history (su 152-168). *)
Definition set_ok (h : list op) (i k : nat) (now q : N) (s : sset) : Prop :=
  a_state s = doing h i k /\
  (a_state s <> None -> a_start s = started h i k /\ a_start s <= now) /\
  (forall x, a_delta s x + extra now q s x = lap h i k x).

(** One timer (su 248-259). *)
Definition timer_ok (h : list op) (i : nat) (t : timer) : Prop :=
  t_query t = asked h i /\ t_query t <= clock h /\
  (t_query t = clock h -> forall k x, lap h i k x = 0) /\
  (forall k, set_ok h i k (clock h) (t_query t) (t_set t k)).

(** The unit (su 353-398). *)
Record inv (p : par) (h : list op) (u : unit_) : Prop := {
  iv_now : u_now u = clock h;
  iv_active : u_active u = users h;
  iv_pool : Permutation (u_active u ++ u_avail u) (seq 0 (length (u_timers u)));
  iv_out : forall i, ~ In i (users h) -> (forall k, doing h i k = None) /\ (forall k x, lap h i k x = 0);
  iv_unborn : forall i, (length (u_timers u) <= i)%nat -> asked h i = 0;
  iv_timer : forall i t, nth_error (u_timers u) i = Some t -> timer_ok h i t;
  iv_states : forall i k x, doing h i k = Some x -> state_of p k x;
  iv_sum : forall k x, state_of p k x ->
    sum (u_hist u k x) + sum (map (fun i => lap h i k x) (users h)) = total h k x }.

Lemma inv_nodup : forall p h u, inv p h u -> NoDup (u_active u ++ u_avail u).
Proof.
  intros. eapply Permutation_NoDup. { symmetry. apply (iv_pool _ _ _ H). } apply seq_NoDup.
Qed.

Lemma inv_user : forall p h u i, inv p h u -> In i (users h) ->
  exists t, nth_error (u_timers u) i = Some t.
Proof.
  intros. destruct (nth_error (u_timers u) i) eqn:E; eauto. exfalso.
  apply nth_error_None in E.
  assert (In i (seq 0 (length (u_timers u)))).
  { eapply Permutation_in. { apply (iv_pool _ _ _ H). } apply in_or_app. left.
    rewrite (iv_active _ _ _ H). auto. }
  apply in_seq in H1. lia.
Qed.

Lemma timer0_ok : forall h i, asked h i = 0 -> (forall k, doing h i k = None) ->
  (forall k x, lap h i k x = 0) -> timer_ok h i timer0.
Proof.
  intros. split; [auto|]. split; [cbn; lia|]. split; [auto|].
  intros k. split; [cbn; auto|]. split; [cbn; congruence|]. intros x. cbn. auto.
Qed.

Lemma inv0 : forall p, inv p [] (unit0 p).
Proof.
  intros. constructor; cbn; auto.
  - rewrite repeat_length. symmetry. apply Permutation_rev.
  - intros i t E. apply nth_error_In, repeat_spec in E. subst. apply timer0_ok; auto.
  - discriminate.
Qed.

Lemma step_tick : forall p h u n, inv p h u ->
  inv p (Tick n :: h) (mkUnit (u_now u + n) (u_timers u) (u_active u) (u_avail u) (u_hist u)).
Proof.
  intros p h u n I. constructor; cbn [u_now u_timers u_active u_avail u_hist clock users doing asked].
  - rewrite (iv_now _ _ _ I). auto.
  - apply (iv_active _ _ _ I).
  - apply (iv_pool _ _ _ I).
  - intros i X. destruct (iv_out _ _ _ I i X) as [D L]. split; auto.
    intros k x. cbn [lap]. unfold in_state. rewrite D, L. lia.
  - apply (iv_unborn _ _ _ I).
  - intros i t E. destruct (iv_timer _ _ _ I i t E) as (A & B & C & D).
    split; [auto|]. split; [cbn [clock]; lia|]. split.
    + cbn [clock]. intros Q k x. cbn [lap]. assert (n = 0) by lia. subst n.
      rewrite C by lia. destruct (in_state h i k x); auto.
    + intros k. destruct (D k) as (E1 & E2 & E3). split; [auto|]. split.
      * intros X. destruct (E2 X). cbn [started clock]. split; auto. lia.
      * intros x. cbn [lap clock]. rewrite <- E3. unfold extra, in_state. rewrite <- E1.
        destruct (a_state (t_set t k)) as [a|] eqn:S; [|lia].
        destruct E2 as [_ E2]; [congruence|].
        destruct (Nat.eqb a x); [|lia].
        destruct (N.ltb_spec (t_query t) (a_start (t_set t k))); lia.
  - apply (iv_states _ _ _ I).
  - intros k x K. cbn [total]. rewrite <- (iv_sum _ _ _ I k x K). cbn [lap].
    rewrite <- N.add_assoc. f_equal.
    induction (users h) as [|i r IH]; cbn [map sum filter length]; [lia|].
    rewrite IH. destruct (in_state h i k x) eqn:E; cbn [length]; lia.
Qed.

Lemma step_alloc : forall p h u i u', inv p h u -> allocate p u = Some (i, u') ->
  inv p (Alloc i :: h) u' /\ ~ In i (users h).
Proof.
  intros p h u i u' I E. unfold allocate in E.
  set (n := length (u_timers u)) in *.
  assert (exists u1, (match u_avail u1 with
    | [] => None
    | i :: r => Some (i, mkUnit (u_now u1) (u_timers u1) (i :: u_active u1) r (u_hist u1))
    end) = Some (i, u') /\ inv p h u1) as (u1 & E1 & I1).
  { destruct (u_avail u) as [|a r] eqn:V.
    - destruct (negb (N.of_nat n <? max_timers)); [discriminate|].
      eexists. split; [exact E|].
      constructor; cbn [u_now u_timers u_active u_avail u_hist]; try apply I.
      + rewrite app_length, repeat_length, seq_app. fold n.
        apply Permutation_app.
        * pose proof (iv_pool _ _ _ I) as P. rewrite V, app_nil_r in P. auto.
        * symmetry. apply Permutation_rev.
      + intros j J. apply (iv_unborn _ _ _ I). rewrite app_length in J. lia.
      + intros j t J. destruct (Nat.lt_ge_cases j n).
        * rewrite nth_error_app1 in J by auto. apply (iv_timer _ _ _ I); auto.
        * rewrite nth_error_app2 in J by auto. apply nth_error_In, repeat_spec in J. subst t.
          assert (~ In j (users h)).
          { intros X. rewrite <- (iv_active _ _ _ I) in X.
            assert (In j (seq 0 n)). { eapply Permutation_in; [apply (iv_pool _ _ _ I)|].
              apply in_or_app; auto. } apply in_seq in H0. lia. }
          destruct (iv_out _ _ _ I j H0). apply timer0_ok; auto. apply (iv_unborn _ _ _ I). auto.
    - exists u. split; [exact E|exact I]. }
  clear E I. destruct (u_avail u1) as [|a r] eqn:V; [discriminate|]. injection E1 as <- <-.
  assert (~ In a (users h)) as NI.
  { pose proof (inv_nodup _ _ _ I1) as P. rewrite V, (iv_active _ _ _ I1) in P.
    apply NoDup_remove_2 in P. intros X. apply P. apply in_or_app; auto. }
  split; auto.
  destruct (iv_out _ _ _ I1 a NI) as [DA LA].
  constructor; cbn [u_now u_timers u_active u_avail u_hist clock users doing asked lap total]; try apply I1.
  - f_equal. apply I1.
  - rewrite <- (iv_pool _ _ _ I1), V. apply Permutation_middle.
  - intros j J. apply (iv_out _ _ _ I1). intros X. apply J. right; auto.
  - intros k x K. cbn [map sum]. rewrite LA, <- (iv_sum _ _ _ I1 k x K). lia.
Qed.

(** The history after an operation that leaves all laps alone. *)
Lemma frame_timer : forall h o i t, timer_ok h i t ->
  clock (o :: h) = clock h -> asked (o :: h) i = asked h i ->
  (forall k, doing (o :: h) i k = doing h i k) ->
  (forall k, started (o :: h) i k = started h i k) ->
  (forall k x, lap (o :: h) i k x = lap h i k x) -> timer_ok (o :: h) i t.
Proof.
  intros h o i t (A & B & C & D) E1 E2 E3 E4 E5.
  unfold timer_ok, set_ok. rewrite E1, E2. repeat split; auto.
  - intros Q k x. rewrite E5. auto.
  - rewrite E3. apply D.
  - rewrite E4. apply (D k); auto.
  - apply (D k); auto.
  - intros x. rewrite E5. apply D.
Qed.

Lemma end_delta : forall now q s a x, a_state s = Some a ->
  a_delta (end_state now q s a) x = a_delta s x + extra now q s x.
Proof.
  intros. unfold end_state, extra, fset. rewrite H. cbn. rewrite Nat.eqb_sym.
  destruct (Nat.eqb_spec a x); subst; lia.
Qed.

Lemma step_start : forall p h u i k x u', inv p h u -> start_state p u i k x = Some u' ->
  inv p (Start i k x :: h) u'.
Proof.
  intros p h u i k x u' I E. unfold start_state, in_use in E.
  destruct (existsb (Nat.eqb i) (u_active u)) eqn:U; [|discriminate]. cbn [negb] in E.
  destruct (nth_error (u_timers u) i) as [t|] eqn:T; [|discriminate].
  destruct (nth_error (p_sizes p) k) as [size|] eqn:K; [|discriminate].
  destruct (iv_timer _ _ _ I i t T) as (TA & TB & TC & TD).
  destruct (TD k) as (S1 & S2 & S3).
  assert (exists s1, (forall y, a_delta s1 y = lap h i k y) /\
    (if negb (Nat.ltb x size) then None
     else Some (with_set u i t k (mkSet (Some x) (u_now u) (a_delta s1)))) = Some u') as (s1 & L & E1).
  { destruct (a_state (t_set t k)) as [a|] eqn:A.
    - destruct (Nat.eqb a x); [discriminate|].
      destruct (negb (0 <? a_start (t_set t k))); [discriminate|].
      eexists. split; [|exact E]. intros y. rewrite end_delta by auto.
      rewrite (iv_now _ _ _ I). apply S3.
    - eexists. split; [|exact E]. intros y. rewrite <- S3. unfold extra. rewrite A. lia. }
  clear E. destruct (Nat.ltb_spec x size); [|discriminate]. cbn [negb] in E1. injection E1 as <-.
  apply use_in in U.
  constructor; unfold with_set; cbn [u_now u_timers u_active u_avail u_hist clock users asked total];
    rewrite ?put_len; try apply I.
  - intros j J. assert (i <> j) by (intros <-; apply J; rewrite <- (iv_active _ _ _ I); auto).
    destruct (iv_out _ _ _ I j J). split; intros; cbn [doing lap]; auto.
    destruct (Nat.eqb_spec i j); [congruence|]. cbn [andb]. auto.
  - intros j t' J. destruct (Nat.eq_dec i j) as [<-|N].
    + rewrite (put_same _ _ _ _ _ T) in J. injection J as <-.
      split; [exact TA|]. split; [exact TB|]. split; [exact TC|].
      intros k'. cbn [t_set t_query]. unfold fset, set_ok.
      cbn [clock doing started lap]. rewrite Nat.eqb_refl. cbn [andb].
      rewrite (Nat.eqb_sym k k'). destruct (Nat.eqb_spec k' k) as [->|NK].
      * cbn [a_state a_start a_delta]. rewrite (iv_now _ _ _ I). repeat split; auto; try lia.
        intros y. rewrite L. unfold extra. cbn [a_state a_start].
        destruct (Nat.eqb x y); [|lia]. destruct (N.ltb_spec (t_query t) (clock h)); lia.
      * apply TD.
    + rewrite put_other in J by auto. apply frame_timer; auto; try (apply (iv_timer _ _ _ I); auto);
        intros; cbn [doing started]; destruct (Nat.eqb_spec i j); cbn [andb]; auto; congruence.
  - intros j k' y. cbn [doing]. destruct (Nat.eqb i j && Nat.eqb k k') eqn:B; [|apply I].
    apply andb_prop in B. destruct B as [_ B]. apply Nat.eqb_eq in B. subst k'.
    intros X. injection X as <-. exists size. auto.
Qed.

Lemma step_stop : forall p h u i k x u', inv p h u -> stop_state p u i k x = Some u' ->
  inv p (Stop i k x :: h) u'.
Proof.
  intros p h u i k x u' I E. unfold stop_state, in_use in E.
  destruct (existsb (Nat.eqb i) (u_active u)) eqn:U; [|discriminate]. cbn [negb] in E.
  destruct (nth_error (u_timers u) i) as [t|] eqn:T; [|discriminate].
  destruct (nth_error (p_sizes p) k) as [size|] eqn:K; [|discriminate].
  destruct (iv_timer _ _ _ I i t T) as (TA & TB & TC & TD).
  destruct (TD k) as (S1 & S2 & S3).
  destruct (a_state (t_set t k)) as [a|] eqn:A; [|discriminate].
  destruct (Nat.eqb_spec a x); [|discriminate]. cbn [negb] in E. subst a. injection E as <-.
  apply use_in in U.
  constructor; unfold with_set; cbn [u_now u_timers u_active u_avail u_hist clock users asked total];
    rewrite ?put_len; try apply I.
  - intros j J. assert (i <> j) by (intros <-; apply J; rewrite <- (iv_active _ _ _ I); auto).
    destruct (iv_out _ _ _ I j J). split; intros; cbn [doing lap]; auto.
    destruct (Nat.eqb_spec i j); [congruence|]. cbn [andb]. auto.
  - intros j t' J. destruct (Nat.eq_dec i j) as [<-|N].
    + rewrite (put_same _ _ _ _ _ T) in J. injection J as <-.
      split; [exact TA|]. split; [exact TB|]. split; [exact TC|].
      intros k'. cbn [t_set t_query]. unfold fset at 1, set_ok.
      cbn [clock doing started lap]. rewrite Nat.eqb_refl. cbn [andb].
      rewrite (Nat.eqb_sym k k'). destruct (Nat.eqb_spec k' k) as [->|NK].
      * cbn [a_state a_start a_delta]. repeat split; try congruence.
        intros y. unfold extra at 1. cbn [a_state].
        change (fset (a_delta (t_set t k)) x _ y) with
          (a_delta (end_state (u_now u) (t_query t) (t_set t k) x) y).
        rewrite end_delta by auto. rewrite (iv_now _ _ _ I), S3. lia.
      * apply TD.
    + rewrite put_other in J by auto. apply frame_timer; auto; try (apply (iv_timer _ _ _ I); auto);
        intros; cbn [doing started]; destruct (Nat.eqb_spec i j); cbn [andb]; auto; congruence.
  - intros j k' y. cbn [doing]. destruct (Nat.eqb i j && Nat.eqb k k') eqn:B; [discriminate|apply I].
Qed.

Lemma settle_delta : forall now q c s x, a_delta (settle now q c s) x = a_delta s x + extra now q s x.
Proof.
  intros. unfold settle. destruct (a_state s) as [a|] eqn:A.
  - rewrite <- (end_delta now q s a x A). destruct c; auto.
  - unfold extra. rewrite A. lia.
Qed.

Lemma report_at : forall p f h k x, state_of p k x -> report p f h k x = a_delta (f k) x :: h k x.
Proof.
  intros p f h k x (size & K & X). unfold report. rewrite K.
  destruct (Nat.ltb_spec x size); auto. lia.
Qed.

Lemma sum_remove : forall (f : nat -> N) l i, NoDup l -> In i l ->
  sum (map f l) = f i + sum (map f (remove Nat.eq_dec i l)).
Proof.
  induction l; cbn; intros. - tauto.
  - inversion H; subst. destruct (Nat.eq_dec i a).
    + subst. rewrite notin_remove by auto. auto.
    + cbn. rewrite (IHl i); auto. 2: { destruct H0; congruence. } lia.
Qed.

Lemma sum_ext : forall (f g : nat -> N) l, (forall i, In i l -> f i = g i) -> sum (map f l) = sum (map g l).
Proof. induction l; cbn; intros; auto. rewrite H, IHl; auto. Qed.

Lemma remove_perm : forall l r i, NoDup l -> In i l ->
  Permutation (remove Nat.eq_dec i l ++ i :: r) (l ++ r).
Proof.
  induction l; cbn; intros r i N X. - tauto.
  - inversion N; subst. destruct (Nat.eq_dec i a).
    + subst. rewrite notin_remove by auto. symmetry. apply Permutation_middle.
    + cbn. constructor. apply IHl; auto. destruct X; congruence.
Qed.

Lemma step_release : forall p h u i u', inv p h u -> release p u i = Some u' ->
  inv p (Release i :: h) u' /\
  forall k x, state_of p k x -> u_hist u' k x = lap h i k x :: u_hist u k x.
Proof.
  intros p h u i u' I E. unfold release, in_use in E.
  destruct (existsb (Nat.eqb i) (u_active u)) eqn:U; [|discriminate]. cbn [negb] in E.
  destruct (nth_error (u_timers u) i) as [t|] eqn:T; [|discriminate]. injection E as <-.
  destruct (iv_timer _ _ _ I i t T) as (TA & TB & TC & TD).
  apply use_in in U.
  assert (NoDup (users h)) as ND.
  { pose proof (inv_nodup _ _ _ I) as P. rewrite (iv_active _ _ _ I) in P.
    clear - P. induction (users h); cbn in *; constructor; inversion P; subst; auto.
    intros X. apply H1. apply in_or_app; auto. }
  assert (forall k x, state_of p k x ->
    report p (fun k0 => settle (u_now u) (t_query t) true (t_set t k0)) (u_hist u) k x =
    lap h i k x :: u_hist u k x) as RH.
  { intros k x K. rewrite report_at by auto. rewrite settle_delta, (iv_now _ _ _ I). f_equal.
    apply TD. }
  split; [|exact RH].
  constructor; cbn [u_now u_timers u_active u_avail u_hist clock users asked total];
    rewrite ?put_len; try apply I.
  - f_equal. apply I.
  - rewrite remove_perm; auto; try apply I. rewrite (iv_active _ _ _ I). auto.
  - intros j J. destruct (Nat.eq_dec i j) as [<-|N].
    + split; intros; cbn [doing lap]; rewrite Nat.eqb_refl; auto.
    + destruct (iv_out _ _ _ I j). { intros X. apply J. apply in_in_remove; auto. }
      split; intros; cbn [doing lap]; destruct (Nat.eqb i j); auto.
  - intros j t' J. destruct (Nat.eq_dec i j) as [<-|N].
    + rewrite (put_same _ _ _ _ _ T) in J. injection J as <-.
      split; [exact TA|]. split; [exact TB|]. split.
      { intros _ k x. cbn [lap]. rewrite Nat.eqb_refl. auto. }
      intros k. unfold set_ok. cbn [clock doing started lap t_set]. rewrite Nat.eqb_refl.
      assert (a_state (settle (u_now u) (t_query t) true (t_set t k)) = None) as X.
      { unfold settle. destruct (a_state (t_set t k)) eqn:Y; auto. }
      unfold blank, extra. cbn [a_state a_start a_delta]. rewrite X.
      repeat split; auto; congruence.
    + rewrite put_other in J by auto. apply frame_timer; auto; try (apply (iv_timer _ _ _ I); auto);
        intros; cbn [doing lap]; destruct (Nat.eqb_spec i j); cbn [andb]; auto; congruence.
  - intros j k' y. cbn [doing]. destruct (Nat.eqb i j); [discriminate|apply I].
  - intros k x K. rewrite RH by auto. rewrite <- (iv_sum _ _ _ I k x K). cbn [sum].
    rewrite (sum_remove _ (users h) i); auto. 2: rewrite <- (iv_active _ _ _ I); auto.
    rewrite (sum_ext (fun j => lap (Release i :: h) j k x) (fun j => lap h j k x)). { lia. }
    intros j J. cbn [lap]. destruct (Nat.eqb_spec i j); auto. subst.
    apply in_remove in J. tauto.
Qed.

(** What a query makes of a timer (su 607-636). *)
Definition qtimer (now : N) (t : timer) : timer :=
  if t_query t =? now then t
  else mkTimer (fun k => blank (settle now (t_query t) false (t_set t k))) now.

Lemma query_all_spec : forall p l u, NoDup l ->
  (forall i, In i l -> exists t, nth_error (u_timers u) i = Some t) ->
  exists u', query_all p l u = Some u' /\
    u_now u' = u_now u /\ u_active u' = u_active u /\ u_avail u' = u_avail u /\
    length (u_timers u') = length (u_timers u) /\
    (forall i, In i l -> exists t, nth_error (u_timers u) i = Some t /\
                                   nth_error (u_timers u') i = Some (qtimer (u_now u) t)) /\
    (forall i, ~ In i l -> nth_error (u_timers u') i = nth_error (u_timers u) i) /\
    (forall k x, state_of p k x -> exists new, u_hist u' k x = rev new ++ u_hist u k x /\
       forall f g, (forall i t, nth_error (u_timers u) i = Some t -> In i l ->
                   t_query t = g i /\ a_delta (t_set t k) x + extra (u_now u) (t_query t) (t_set t k) x = f i) ->
       new = map f (filter (fun i => negb (g i =? u_now u)) l)).
Proof.
  intros p l. induction l as [|i r IH]; intros u N X.
  { exists u. cbn. repeat split; auto. - tauto. - intros k x K. exists []. auto. }
  inversion N; subst. destruct (X i) as [t T]; [left; auto|].
  cbn [query_all]. unfold query_timer at 1. rewrite T.
  destruct (t_query t =? u_now u) eqn:Q.
  - destruct (IH u) as (u' & E & A1 & A2 & A3 & A4 & A5 & A6 & A7); auto.
    { intros j J. apply X. right; auto. }
    exists u'. repeat (split; [solve [auto]|]). split; [|split].
    + intros j [<-|J].
      * exists t. split; auto. rewrite A6, T by auto. unfold qtimer. rewrite Q. auto.
      * apply A5; auto.
    + intros j J. apply A6. intros Y. apply J. right; auto.
    + intros k x K. destruct (A7 k x K) as (new & B1 & B2). exists new. split; auto.
      intros f g FG. cbn [filter]. destruct (FG i t T) as [G _]; [left; auto|].
      rewrite <- G, Q. cbn [negb]. apply B2. intros j tj TJ J. apply FG; auto. right; auto.
  - set (u1 := mkUnit _ _ _ _ _).
    destruct (IH u1) as (u' & E & A1 & A2 & A3 & A4 & A5 & A6 & A7); auto.
    { intros j J. cbn [u_timers u1]. rewrite put_other by (intros ->; auto). apply X. right; auto. }
    exists u'. split; [auto|]. split; [auto|]. split; [auto|]. split; [auto|]. split; [|split; [|split]].
    + rewrite A4. apply put_len.
    + intros j [<-|J].
      * exists t. split; auto. rewrite A6 by auto. cbn [u_timers u1].
        rewrite (put_same _ _ _ _ _ T). unfold qtimer. rewrite Q. auto.
      * destruct (A5 j J) as (tj & B1 & B2). exists tj. split; auto.
        cbn [u_timers u1] in B1. rewrite put_other in B1 by (intros ->; auto). auto.
    + intros j J. rewrite A6 by (intros Y; apply J; right; auto). cbn [u_timers u1].
      apply put_other. intros ->. apply J. left; auto.
    + intros k x K. destruct (A7 k x K) as (new & B1 & B2).
      cbn [u_hist u1] in B1. rewrite report_at in B1 by auto.
      exists (a_delta (t_set t k) x + extra (u_now u) (t_query t) (t_set t k) x :: new).
      split.
      * rewrite B1. cbn [rev]. rewrite <- app_assoc. cbn [app]. rewrite settle_delta. auto.
      * intros f g FG. destruct (FG i t T) as [G F]; [left; auto|].
        cbn [filter]. rewrite <- G, Q. cbn [negb map]. rewrite F. f_equal. apply B2.
        intros j tj TJ J. cbn [u_timers u1] in TJ. rewrite put_other in TJ by (intros ->; auto).
        apply FG; auto. right; auto.
Qed.

Lemma sum_app : forall a b, sum (a ++ b) = sum a + sum b.
Proof. induction a; cbn; intros; auto. rewrite IHa. lia. Qed.

Lemma sum_rev : forall a, sum (rev a) = sum a.
Proof. induction a; cbn; auto. rewrite sum_app, IHa. cbn. lia. Qed.

Lemma sum_filter : forall (f : nat -> N) b l, (forall i, In i l -> b i = false -> f i = 0) ->
  sum (map f (filter b l)) = sum (map f l).
Proof.
  induction l; cbn; intros; auto. destruct (b a) eqn:B; cbn; rewrite IHl; auto.
  rewrite (H a); auto.
Qed.

Lemma step_query : forall p h u, inv p h u ->
  exists u', query_all p (u_active u) u = Some u' /\ inv p (Query :: h) u' /\
  forall k x, state_of p k x ->
    u_hist u' k x =
    rev (map (fun i => lap h i k x) (filter (fun i => negb (asked h i =? clock h)) (users h))) ++ u_hist u k x.
Proof.
  intros p h u I.
  assert (NoDup (users h)) as ND.
  { pose proof (inv_nodup _ _ _ I) as P. rewrite (iv_active _ _ _ I) in P.
    clear - P. induction (users h); cbn in *; constructor; inversion P; subst; auto.
    intros X. apply H1. apply in_or_app; auto. }
  destruct (query_all_spec p (u_active u) u) as (u' & E & A1 & A2 & A3 & A4 & A5 & A6 & A7).
  { rewrite (iv_active _ _ _ I). auto. }
  { intros i U. rewrite (iv_active _ _ _ I) in U. apply (inv_user p h u i I U). }
  assert (forall k x, state_of p k x -> u_hist u' k x =
    rev (map (fun i => lap h i k x) (filter (fun i => negb (asked h i =? clock h)) (users h))) ++ u_hist u k x) as RH.
  { intros k x K. destruct (A7 k x K) as (new & B1 & B2). rewrite B1. f_equal. f_equal.
    rewrite (B2 (fun i => lap h i k x) (asked h)).
    - rewrite (iv_now _ _ _ I), (iv_active _ _ _ I). auto.
    - intros i t T _. destruct (iv_timer _ _ _ I i t T) as (TA & TB & TC & TD).
      split; auto. rewrite (iv_now _ _ _ I). apply TD. }
  exists u'. split; auto. split; [|exact RH].
  constructor; cbn [clock users total]; rewrite ?A1, ?A2, ?A3, ?A4; try apply I.
  - intros i J. split; auto. apply (iv_out _ _ _ I i J).
  - intros i J. cbn [asked]. destruct (existsb (Nat.eqb i) (users h)) eqn:U.
    + apply use_in in U. destruct (inv_user p h u i I U) as [t T].
      apply nth_error_None in J. congruence.
    + apply I; auto.
  - intros i t' T'. destruct (existsb (Nat.eqb i) (users h)) eqn:U.
    + apply use_in in U. destruct (A5 i) as (t & T & B). { rewrite (iv_active _ _ _ I). auto. }
      rewrite T' in B. injection B as ->.
      destruct (iv_timer _ _ _ I i t T) as (TA & TB & TC & TD).
      assert (t_query (qtimer (u_now u) t) = clock h) as QC.
      { unfold qtimer. rewrite (iv_now _ _ _ I). destruct (N.eqb_spec (t_query t) (clock h)); auto. }
      split. { cbn [asked]. apply use_in in U. rewrite U. auto. }
      split. { cbn [clock]. lia. } split. { auto. }
      intros k. rewrite QC. cbn [clock]. destruct (TD k) as (S1 & S2 & S3).
      assert (forall now, a_state (t_set (qtimer now t) k) = doing h i k /\
                          a_start (t_set (qtimer now t) k) = a_start (t_set t k)) as SS.
      { intros now. unfold qtimer. destruct (t_query t =? now); auto. cbn [t_set].
        unfold blank, settle, end_state. rewrite <- S1.
        destruct (a_state (t_set t k)) eqn:Y; cbn; auto. }
      destruct (SS (u_now u)) as [SA SB]. unfold set_ok. rewrite SA, SB. split; [auto|].
      split. { intros X. apply S2. rewrite S1. auto. }
      intros x. cbn [lap].
      assert (a_delta (t_set (qtimer (u_now u) t) k) x = 0) as Z.
      { unfold qtimer. rewrite (iv_now _ _ _ I). destruct (N.eqb_spec (t_query t) (clock h)) as [Y|Y].
        - specialize (S3 x). rewrite (TC Y) in S3. lia.
        - auto. }
      rewrite Z. unfold extra. rewrite SA, SB, <- S1.
      destruct (a_state (t_set t k)) as [a|] eqn:Y; auto.
      destruct S2 as [_ S2]; [congruence|]. destruct (Nat.eqb a x); [|auto].
      destruct (N.ltb_spec (clock h) (a_start (t_set t k))); lia.
    + pose proof U as U'. apply use_not in U. rewrite A6 in T' by (rewrite (iv_active _ _ _ I); auto).
      apply frame_timer; auto.
      * apply (iv_timer _ _ _ I); auto.
      * cbn [asked]. rewrite U'. auto.
      * intros k x. cbn [lap]. symmetry. apply (iv_out _ _ _ I i U).
  - intros k x K. rewrite RH by auto. rewrite <- (iv_sum _ _ _ I k x K).
    rewrite sum_app, sum_rev, sum_filter.
    + rewrite (sum_ext (fun i => lap (Query :: h) i k x) (fun _ => 0)) by auto.
      assert (sum (map (fun _ : nat => 0) (users h)) = 0) as ->. { clear. induction (users h); cbn; auto. }
      lia.
    + intros i U Q. rewrite negb_false_iff in Q. apply N.eqb_eq in Q.
      destruct (inv_user p h u i I U) as [t T]. destruct (iv_timer _ _ _ I i t T) as (TA & TB & TC & TD).
      apply TC. congruence.
Qed.

Lemma run_inv : forall p h u, run p h = Some u -> inv p h u.
Proof.
  intros p h. induction h as [|o r IH]; cbn [run]; intros u E.
  { injection E as <-. apply inv0. }
  destruct (run p r) as [v|]; [|discriminate]. specialize (IH v eq_refl).
  destruct o; cbn [step] in E.
  - injection E as <-. apply step_tick; auto.
  - destruct (allocate p v) as [[j w]|] eqn:A; [|discriminate].
    destruct (Nat.eqb_spec i j); [|discriminate]. injection E as <-. subst j.
    apply (step_alloc _ _ _ _ _ IH A).
  - eapply step_start; eauto.
  - eapply step_stop; eauto.
  - destruct (step_query _ _ _ IH) as (w & A & B & _). rewrite A in E. injection E as <-. auto.
  - apply (step_release _ _ _ _ _ IH E).
Qed.
