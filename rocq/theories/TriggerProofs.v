(** Lemmas on TriggerModel. *)
From Coq Require Import List NArith Arith Bool Lia.
From Verif Require Import LayoutModel StorageModel TriggerModel.
Import ListNotations.

Lemma lset_len {A} : forall (l : list A) i x, length (lset l i x) = length l.
Proof. induction l; intros [|i] x; cbn; auto. Qed.
Lemma lset_get {A} : forall (l : list A) i x j, nth_error (lset l i x) j = if Nat.eqb i j then option_map (fun _ => x) (nth_error l j) else nth_error l j.
Proof. induction l as [|y l IH]; intros [|i] x [|j]; cbn; auto; now destruct (Nat.eqb i j). Qed.
Lemma mem_iff : forall i l, mem i l = true <-> In i l.
Proof. intros. unfold mem. rewrite existsb_exists. split; [intros [x [H E]]; apply Nat.eqb_eq in E; now subst|intros; exists i; rewrite Nat.eqb_refl; auto]. Qed.
Lemma mem_false : forall i l, mem i l = false <-> ~ In i l.
Proof. intros. rewrite <- mem_iff. destruct (mem i l); intuition congruence. Qed.
Lemma erase_in : forall i l j, NoDup l -> (In j (erase i l) <-> In j l /\ j <> i).
Proof.
  induction l as [|x l IH]; intros j ND; cbn [erase]; [cbn; tauto|]. inversion ND; subst. destruct (Nat.eqb_spec i x) as [->|E].
  - cbn. split; [intros H; split; auto; intros ->; auto|intros [[->|H] E]; [congruence|auto]].
  - cbn. rewrite IH by auto. split; [intros [->|[A B]]; auto|intros [[->|A] B]; auto].
Qed.
Lemma erase_nodup : forall i l, NoDup l -> NoDup (erase i l).
Proof.
  induction l as [|x l IH]; intros ND; cbn [erase]; auto. inversion ND; subst. destruct (Nat.eqb_spec i x); auto. constructor; auto.
  rewrite erase_in by auto. tauto.
Qed.
(** Removing several: what stays, in the same order. *)
Lemma erase_filter : forall i l, NoDup l -> erase i l = filter (fun j => negb (Nat.eqb i j)) l.
Proof.
  induction l as [|x l IH]; intros ND; cbn [erase filter]; auto. inversion ND; subst. destruct (Nat.eqb_spec i x) as [->|E]; cbn [negb]; [|f_equal; auto].
  clear - H1. induction l as [|y l IH]; cbn [filter]; auto. destruct (Nat.eqb_spec x y) as [->|E]; [destruct H1; left; auto|]. cbn [negb]. f_equal. apply IH.
  intros H. apply H1. now right.
Qed.
Lemma erases_filter : forall r l, NoDup l -> fold_left (fun l i => erase i l) r l = filter (fun j => negb (mem j r)) l.
Proof.
  induction r as [|i r IH]; intros l ND; cbn [fold_left mem existsb negb].
  - induction l; cbn [filter]; auto. f_equal. apply IHl. inversion ND; auto.
  - rewrite IH by (apply erase_nodup; auto). rewrite erase_filter by auto. clear. induction l as [|x l IH]; cbn [filter]; auto.
    rewrite (Nat.eqb_sym x i). destruct (Nat.eqb_spec i x); cbn [negb orb filter]; [auto|]. unfold mem in *.
    destruct (existsb (Nat.eqb x) r); cbn [negb]; auto. f_equal. auto.
Qed.
Lemma adds_ok : forall a l, NoDup a -> (forall i, In i a -> ~ In i l) -> adds l a = Some (l ++ a).
Proof.
  induction a as [|i a IH]; intros l ND D; cbn [adds]; [now rewrite app_nil_r|]. inversion ND; subst.
  rewrite (proj2 (mem_false i l)) by (apply D; now left). rewrite IH, <- app_assoc; auto. intros j J L. apply in_app_or in L. destruct L as [L|[->|[]]]; auto.
  apply (D j); auto. now right.
Qed.

Lemma NoDup_app_iff_snoc : forall (l : list nat) i, NoDup l -> ~ In i l -> NoDup (l ++ [i]).
Proof.
  intros l i H N. apply NoDup_rev in H. rewrite <- (rev_involutive (l ++ [i])). apply NoDup_rev. rewrite rev_app_distr. cbn. constructor; auto.
  intros Q. apply N. now apply in_rev.
Qed.

Lemma NoDup_app_disj : forall (a b : list nat), NoDup a -> NoDup b -> (forall i, In i a -> In i b -> False) -> NoDup (a ++ b).
Proof.
  induction a as [|x a IH]; intros b HA HB D; cbn; auto. inversion HA; subst. constructor; [|apply IH; auto; intros i I J; apply (D i); auto; now right].
  rewrite in_app_iff. intros [Q|Q]; [auto|]. apply (D x); auto. now left.
Qed.
(** isActive() of trigger [i]. *)
Definition active (s : tst) (i : nat) : bool := match tget s i with Some t => t_active t | None => false end.
(** The state between events: the handler watches exactly the active triggers. *)
Definition inv (s : tst) : Prop :=
  (forall i t, tget s i = Some t -> t_active t = true -> t_alive t = true) /\
  (m_fin s = false -> m_h s = None) /\
  match m_h s with
  | None => forall i, active s i = false
  | Some h => h_in h = false /\ h_rem h = [] /\ h_add h = [] /\ NoDup (h_trigs h) /\ forall i, In i (h_trigs h) <-> active s i = true
  end.
(** The state in a tick: the triggers watched at its beginning, those removed and those added since. *)
Definition tinv (s : tst) (T R A : list nat) : Prop :=
  (forall i t, tget s i = Some t -> t_active t = true -> t_alive t = true) /\
  m_h s = Some (mkH T R A true) /\ m_fin s = true /\ NoDup T /\ NoDup A /\ (forall i, In i R -> In i T) /\
  (forall i, In i A -> ~ In i T \/ In i R) /\
  (forall i, active s i = true <-> (In i T /\ ~ In i R) \/ In i A).

Lemma tget_put : forall s i t j, tget (tput s i t) j = if Nat.eqb i j then option_map (fun _ => t) (tget s j) else tget s j.
Proof. intros. unfold tget, tput, with_trigs. cbn. apply lset_get. Qed.
Lemma tget_put_some : forall s i t x j, tget s i = Some x -> tget (tput s i t) j = if Nat.eqb i j then Some t else tget s j.
Proof. intros s i t x j H. rewrite tget_put. destruct (Nat.eqb_spec i j) as [<-|]; auto. rewrite H. auto. Qed.
Lemma active_put : forall s i t x j, tget s i = Some x -> active (tput s i t) j = if Nat.eqb i j then t_active t else active s j.
Proof. intros s i t x j H. unfold active. rewrite (tget_put_some s i t x j H). destruct (Nat.eqb i j); auto. Qed.
Lemma tget_app : forall s t j, tget (with_trigs s (m_trigs s ++ [t])) j = if Nat.eqb (length (m_trigs s)) j then Some t else tget s j.
Proof.
  intros s t j. unfold tget, with_trigs. cbn. destruct (Nat.eqb_spec (length (m_trigs s)) j) as [<-|E].
  - rewrite nth_error_app2 by lia. now rewrite Nat.sub_diag.
  - destruct (Nat.lt_ge_cases j (length (m_trigs s))); [rewrite nth_error_app1 by auto; auto|].
    rewrite nth_error_app2 by lia. rewrite (proj2 (nth_error_None (m_trigs s) j)) by lia. apply nth_error_None. cbn. lia.
Qed.
Lemma tget_none : forall s, tget s (length (m_trigs s)) = None.
Proof. intros. unfold tget. apply nth_error_None. lia. Qed.

(** As [inv], except that trigger [i] is not watched, whether it is active or not. *)
Definition invx (k : nat) (s : tst) : Prop :=
  (forall i t, tget s i = Some t -> t_active t = true -> t_alive t = true) /\
  (m_fin s = false -> m_h s = None) /\
  match m_h s with
  | None => forall i, i <> k -> active s i = false
  | Some h => h_in h = false /\ h_rem h = [] /\ h_add h = [] /\ NoDup (h_trigs h) /\ ~ In k (h_trigs h) /\
              forall i, i <> k -> (In i (h_trigs h) <-> active s i = true)
  end.
Lemma inv_x : forall k s, inv s -> active s k = false -> invx k s.
Proof.
  intros k s [H1 [H2 H3]] F. split; [auto|]. split; [auto|]. destruct (m_h s) as [h|]; [|intros; auto].
  destruct H3 as [A [B [C [D E]]]]. split; [auto|]. split; [auto|]. split; [auto|]. split; [auto|]. split; [|intros; auto]. rewrite E. congruence.
Qed.
Lemma x_inv : forall k s, invx k s -> active s k = false -> inv s.
Proof.
  intros k s [H1 [H2 H3]] F. split; [auto|]. split; [auto|]. destruct (m_h s) as [h|].
  - destruct H3 as [A [B [C [D [E G]]]]]. split; [auto|]. split; [auto|]. split; [auto|]. split; [auto|]. intros i.
    destruct (Nat.eq_dec i k) as [->|N]; [|auto]. split; [tauto|congruence].
  - intros i. destruct (Nat.eq_dec i k) as [->|N]; auto.
Qed.
Lemma remove_same : forall s i, m_trigs (remove_trigger s i) = m_trigs s /\ m_ctrs (remove_trigger s i) = m_ctrs s
  /\ m_fin (remove_trigger s i) = m_fin s /\ m_start (remove_trigger s i) = m_start s /\ m_tick (remove_trigger s i) = m_tick s
  /\ m_log (remove_trigger s i) = m_log s.
Proof.
  intros s i. unfold remove_trigger. destruct (m_h s) as [h|]; [|repeat split]. destruct (h_in h); cbn [h_trigs].
  - destruct (h_trigs h); repeat split.
  - destruct (erase i (h_trigs h)); repeat split.
Qed.
Lemma tget_remove : forall s i j, tget (remove_trigger s i) j = tget s j.
Proof. intros. unfold tget. destruct (remove_same s i) as [-> _]. auto. Qed.
Lemma active_remove : forall s i j, active (remove_trigger s i) j = active s j.
Proof. intros. unfold active. rewrite tget_remove. auto. Qed.
Lemma remove_x : forall s s0 i, (forall j t, tget s j = Some t -> t_active t = true -> t_alive t = true) ->
  inv s0 -> (forall j, j <> i -> active s j = active s0 j) -> m_h s = m_h s0 -> m_fin s = m_fin s0 ->
  m_stale (remove_trigger s i) = false -> invx i (remove_trigger s i).
Proof.
  intros s s0 i AL [H1 [H2 H3]] EA EH EF ST. split; [intros j t; rewrite tget_remove; apply AL|]. destruct (remove_same s i) as [_ [_ [-> _]]]. rewrite EF.
  unfold remove_trigger in *. rewrite EH in *. destruct (m_h s0) as [h|] eqn:Q; [|split; [rewrite EH; auto|rewrite EH; intros; rewrite EA; auto]].
  destruct H3 as [A [B [C [D E]]]]. rewrite A in *. cbn [h_trigs] in *. destruct (erase i (h_trigs h)) eqn:R; [discriminate ST|].
  split; [intros F; specialize (H2 F); discriminate|]. cbn [with_h m_h h_in h_rem h_add h_trigs]. rewrite <- R.
  split; [auto|]. split; [auto|]. split; [auto|]. split; [apply erase_nodup; auto|]. split; [rewrite erase_in by auto; tauto|].
  intros j J. rewrite erase_in by auto. rewrite E. unfold active in *. cbn [tget with_h m_trigs] in *. change (tget (with_h s _) j) with (tget s j). rewrite <- EA by auto. tauto.
Qed.
Lemma x_put : forall k s x t, tget s k = Some x -> invx k s -> (t_active t = true -> t_alive t = true) -> invx k (tput s k t).
Proof.
  intros k s x t G [H1 [H2 H3]] AL. split; [intros i y; rewrite (tget_put_some _ _ _ _ _ G); destruct (Nat.eqb k i); [intros Q; injection Q as <-; auto|apply H1]|].
  split; [auto|]. change (m_h (tput s k t)) with (m_h s). destruct (m_h s) as [h|].
  - destruct H3 as [A [B [C [D [E F]]]]]. split; [auto|]. split; [auto|]. split; [auto|]. split; [auto|]. split; [auto|].
    intros i N. rewrite (active_put _ _ _ _ _ G). destruct (Nat.eqb_spec k i); [congruence|]. auto.
  - intros i N. rewrite (active_put _ _ _ _ _ G). destruct (Nat.eqb_spec k i); [congruence|]. auto.
Qed.
Lemma x_app : forall s t, inv s -> (t_active t = true -> t_alive t = true) -> invx (length (m_trigs s)) (with_trigs s (m_trigs s ++ [t])).
Proof.
  intros s t [H1 [H2 H3]] AL. split; [intros i y; rewrite tget_app; destruct (Nat.eqb_spec (length (m_trigs s)) i); [intros Q; injection Q as <-; auto|apply H1]|].
  split; [auto|]. change (m_h (with_trigs s (m_trigs s ++ [t]))) with (m_h s).
  assert (EA : forall i, i <> length (m_trigs s) -> active (with_trigs s (m_trigs s ++ [t])) i = active s i).
  { intros i N. unfold active. rewrite tget_app. destruct (Nat.eqb_spec (length (m_trigs s)) i); [congruence|]. auto. }
  destruct (m_h s) as [h|].
  - destruct H3 as [A [B [C [D E]]]]. split; [auto|]. split; [auto|]. split; [auto|]. split; [auto|]. split.
    + rewrite E. unfold active. rewrite tget_none. discriminate.
    + intros i N. rewrite EA by auto. auto.
  - intros i N. rewrite EA by auto. auto.
Qed.
Lemma register_inv : forall s i s', invx i s -> m_fin s = true \/ active s i = false -> register_self s i = Done s' ->
  inv s' /\ m_stale s' = m_stale s.
Proof.
  intros s i s' X F R. pose proof X as [H1 [H2 H3]]. unfold register_self in R. destruct (tget s i) as [t|] eqn:G; [|discriminate].
  destruct (t_alive t) eqn:AL; cbn [negb] in R; [|discriminate]. destruct (m_fin s) eqn:FI.
  - unfold add_trigger in R. destruct (m_h s) as [h|] eqn:MH.
    + destruct H3 as [A [B [C [D [E K]]]]]. destruct (has_trigger h i) eqn:HT; [discriminate|]. rewrite A in R. rewrite (proj2 (mem_false i _) E) in R.
      cbn [obind] in R. injection R as <-. split; [|reflexivity]. set (s1 := with_h s _).
      assert (G1 : tget s1 i = Some t) by exact G. split; [|split].
      * intros j y. rewrite (tget_put_some _ _ _ _ _ G1). destruct (Nat.eqb i j); [intros Q; injection Q as <-; cbn; auto|]. apply H1.
      * cbn. congruence.
      * cbn [tput with_trigs m_h s1 with_h h_in h_rem h_add h_trigs]. split; [auto|]. split; [auto|]. split; [auto|]. split.
        { apply NoDup_app_iff_snoc; auto. }
        intros j. fold s1. change (mkTS _ _ _ _ _ _ _ _) with (tput s1 i (set_active t true)). rewrite (active_put _ _ _ _ _ G1). destruct (Nat.eqb_spec i j) as [<-|N].
        { cbn. rewrite in_app_iff. cbn. tauto. }
        rewrite in_app_iff. cbn [In]. specialize (K j ltac:(congruence)). change (active s1 j) with (active s j). intuition congruence.
    + cbn [obind] in R. injection R as <-. split; [|reflexivity]. set (s1 := with_h s _). assert (G1 : tget s1 i = Some t) by exact G. split; [|split].
      * intros j y. rewrite (tget_put_some _ _ _ _ _ G1). destruct (Nat.eqb i j); [intros Q; injection Q as <-; cbn; auto|]. apply H1.
      * cbn. congruence.
      * cbn [tput with_trigs m_h s1 with_h h_in h_rem h_add h_trigs]. split; [auto|]. split; [auto|]. split; [auto|]. split.
        { constructor; [intros []|constructor]. }
        intros j. fold s1. change (mkTS _ _ _ _ _ _ _ _) with (tput s1 i (set_active t true)). rewrite (active_put _ _ _ _ _ G1). destruct (Nat.eqb_spec i j) as [<-|N].
        { cbn. tauto. }
        cbn [In]. change (active s1 j) with (active s j). rewrite H3 by congruence. intuition congruence.
  - injection R as <-. split; [|reflexivity]. destruct F as [F|F]; [discriminate|]. apply (x_inv i); auto.
Qed.

Lemma obind_done : forall A B (o : outcome A) (f : A -> outcome B) b, obind o f = Done b -> exists a, o = Done a /\ f a = Done b.
Proof. intros A B [a| | | |] f b H; cbn in H; try discriminate. eauto. Qed.
Lemma with_t_inv : forall s me t f s', with_t s me t f = Done s' -> exists i x, resolve me t = Some i /\ tget s i = Some x /\ t_alive x = true /\ f i x = Done s'.
Proof.
  intros s me t f s' H. unfold with_t in H. destruct (resolve me t) as [i|] eqn:E; [|discriminate]. destruct (tget s i) as [x|] eqn:G; [|discriminate].
  destruct (t_alive x) eqn:AL; [|discriminate]. eauto 10.
Qed.
Lemma remove_stale : forall s i, m_stale (remove_trigger s i) = false -> m_stale s = false.
Proof.
  intros s i. unfold remove_trigger. destruct (m_h s) as [h|]; auto. destruct (h_in h); cbn [h_trigs].
  - destruct (h_trigs h); cbn; [discriminate|auto].
  - destruct (erase i (h_trigs h)); cbn; [discriminate|auto].
Qed.
Lemma register_stale : forall s i s', register_self s i = Done s' -> m_stale s' = m_stale s.
Proof.
  intros s i s' R. unfold register_self in R. destruct (tget s i) as [t|]; [|discriminate]. destruct (t_alive t); cbn [negb] in R; [|discriminate].
  destruct (m_fin s); [|injection R as <-; auto]. apply obind_done in R. destruct R as [a [R1 R2]]. injection R2 as <-. unfold add_trigger in R1.
  destruct (m_h s) as [h|]; [|injection R1 as <-; auto]. destruct (has_trigger h i); [discriminate|]. destruct (h_in h); [injection R1 as <-; auto|].
  destruct (mem i (h_trigs h)); [discriminate|injection R1 as <-; auto].
Qed.
Lemma set_active_false : forall s i x, tget s i = Some x -> active (tput s i (set_active x false)) i = false.
Proof. intros. rewrite (active_put _ _ _ _ _ H), Nat.eqb_refl. auto. Qed.
Lemma exec_inv : forall s o s', inv s -> exec None s o = Done s' -> m_stale s' = false -> inv s' /\ m_stale s = false.
Proof.
  intros s o s' I E ST. destruct o as [t|t|t p|c p cb|t|t u|t|c v]; cbn [exec] in E.
  - apply with_t_inv in E. destruct E as [i [x [_ [G [AL E]]]]]. destruct (t_active x) eqn:AC; [discriminate|].
    assert (AF : active s i = false) by (unfold active; now rewrite G). destruct (register_inv s i s') as [Q1 Q2]; auto. { apply inv_x; auto. } split; [auto|congruence].
  - apply with_t_inv in E. destruct E as [i [x [_ [G [AL E]]]]]. unfold deactivate_ in E. rewrite G, AL in E. cbn [negb] in E. injection E as <-.
    change (m_stale (remove_trigger s i) = false) in ST. split; [|eapply remove_stale; eauto]. assert (G' : tget (remove_trigger s i) i = Some x) by now rewrite tget_remove.
    apply (x_inv i); [|apply set_active_false; auto]. apply (x_put i _ x); [auto| |cbn; discriminate]. apply remove_x with s; auto. apply I.
  - apply with_t_inv in E. destruct E as [i [x [_ [G [AL E]]]]]. unfold deactivate_ in E. rewrite G, AL in E. cbn [negb obind] in E.
    assert (G' : tget (remove_trigger s i) i = Some x) by now rewrite tget_remove.
    rewrite (tget_put_some _ _ _ _ _ G'), Nat.eqb_refl in E. pose proof (register_stale _ _ _ E) as RS. rewrite RS in ST. change (m_stale (remove_trigger s i) = false) in ST.
    assert (X : invx i (remove_trigger s i)) by (apply remove_x with s; auto; apply I).
    assert (G2 : tget (tput (remove_trigger s i) i (set_active x false)) i = Some (set_active x false)) by (rewrite (tget_put_some _ _ _ _ _ G'), Nat.eqb_refl; auto).
    match type of E with register_self ?z i = _ => destruct (register_inv z i s') as [Q1 Q2]; [| |exact E|split; [auto|eapply remove_stale; eauto]] end.
    + eapply x_put; [exact G2| |cbn; discriminate]. eapply x_put; [exact G'|auto|cbn; discriminate].
    + right. rewrite (active_put _ _ _ _ _ G2), Nat.eqb_refl. auto.
  - set (i := length (m_trigs s)) in *. destruct (register_inv _ i s' (x_app s (mkT true false false i c p cb) I ltac:(discriminate))) as [Q1 Q2]; auto.
    { right. unfold active. rewrite tget_app. fold i. rewrite Nat.eqb_refl. auto. } split; [auto|]. cbn in Q2. congruence.
  - apply with_t_inv in E. destruct E as [i [x [_ [G [AL E]]]]]. set (n := length (m_trigs s)) in *.
    pose proof (x_app s (mkT true (t_active x) false (t_reg x) (t_ctr x) (t_point x) (t_cb x)) I ltac:(reflexivity)) as X. fold n in X. destruct (t_active x) eqn:AC.
    + assert (F : m_fin s = true). { destruct (m_fin s) eqn:F; auto. destruct I as [_ [I2 I3]]. rewrite (I2 F) in I3. specialize (I3 i). unfold active in I3. rewrite G in I3. congruence. }
      destruct (register_inv _ n s' X) as [Q1 Q2]; auto. split; [auto|]. cbn in Q2. congruence.
    + injection E as <-. split; [|exact ST]. apply (x_inv n); auto. unfold active. rewrite tget_app. fold n. rewrite Nat.eqb_refl. auto.
  - apply with_t_inv in E. destruct E as [i [x [_ [G [AL E]]]]]. apply with_t_inv in E. destruct E as [j [y0 [_ [GJ [ALJ E]]]]].
    set (s0 := tput s i (set_active x false)) in *. rewrite tget_remove in E. assert (GJ0 : exists y, tget s0 j = Some y) by (unfold s0; rewrite (tget_put_some _ _ _ _ _ G); destruct (Nat.eqb i j); eauto).
    destruct GJ0 as [y GJ0]. rewrite GJ0 in E. assert (G0 : tget s0 i = Some (set_active x false)) by (unfold s0; rewrite (tget_put_some _ _ _ _ _ G), Nat.eqb_refl; auto).
    assert (G1 : tget (remove_trigger s0 i) i = Some (set_active x false)) by now rewrite tget_remove.
    assert (ST0 : m_stale (remove_trigger s0 i) = false). { destruct (t_active y); [rewrite (register_stale _ _ _ E) in ST; exact ST|injection E as <-; exact ST]. }
    assert (X : invx i (remove_trigger s0 i)).
    { apply remove_x with s; auto. - intros k t0. unfold s0. rewrite (tget_put_some _ _ _ _ _ G). destruct (Nat.eqb i k); [intros Q; injection Q as <-; discriminate|apply I].
      - intros k N. unfold s0. rewrite (active_put _ _ _ _ _ G). destruct (Nat.eqb_spec i k); [congruence|]. auto. }
    assert (X2 : invx i (tput (remove_trigger s0 i) i (mkT true (t_active y) (t_fired y) (t_reg y) (t_ctr y) (t_point y) (t_cb y)))) by (eapply x_put; eauto).
    split; [|exact (remove_stale s0 i ST0)]. destruct (t_active y) eqn:AC.
    + assert (F : m_fin s = true). { destruct (m_fin s) eqn:F; auto. destruct I as [_ [I2 I3]]. rewrite (I2 F) in I3. specialize (I3 j). unfold active in I3. rewrite GJ in I3.
        unfold s0 in GJ0. rewrite (tget_put_some _ _ _ _ _ G) in GJ0. destruct (Nat.eqb_spec i j); [injection GJ0 as <-; discriminate|]. congruence. }
      destruct (register_inv _ i s' X2) as [Q1 Q2]; auto. left. cbn. destruct (remove_same s0 i) as [_ [_ [-> _]]]. exact F.
    + injection E as <-. apply (x_inv i); auto. rewrite (active_put _ _ _ _ _ G1), Nat.eqb_refl. auto.
  - apply with_t_inv in E. destruct E as [i [x [_ [G [AL E]]]]]. injection E as <-. change (m_stale (remove_trigger s i) = false) in ST. split; [|eapply remove_stale; eauto].
    assert (G' : tget (remove_trigger s i) i = Some x) by now rewrite tget_remove.
    apply (x_inv i); [|rewrite (active_put _ _ _ _ _ G'), Nat.eqb_refl; auto]. eapply x_put; [exact G'| |cbn; discriminate]. apply remove_x with s; auto. apply I.
  - injection E as <-. split; [exact I|exact ST].
Qed.
Lemma starts_inv : forall l s s', inv s -> m_fin s = true -> starts s l = Done s' -> inv s' /\ m_stale s' = m_stale s /\ m_fin s' = true /\ m_start s' = [].
Proof.
  induction l as [|i l IH]; intros s s' I F E; cbn [starts] in E; [injection E as <-; split; [exact I|auto]|]. apply obind_done in E. destruct E as [s1 [E1 E2]].
  assert (AF : active s i = false).
  { destruct I as [_ [_ I3]]. unfold register_self in E1. destruct (tget s i) as [t|] eqn:G; [|discriminate]. destruct (t_alive t); cbn [negb] in E1; [|discriminate].
    rewrite F in E1. unfold add_trigger in E1. destruct (m_h s) as [h|]; auto. destruct I3 as [A [B [C [D K]]]]. unfold has_trigger in E1. rewrite B, C in E1.
    destruct (mem i (h_trigs h)) eqn:M; [discriminate|]. destruct (active s i) eqn:AC; auto. apply K in AC. apply mem_iff in AC. congruence. }
  destruct (register_inv s i s1 (inv_x _ _ I AF) (or_introl F) E1) as [I1 ST1].
  assert (F1 : m_fin s1 = true).
  { unfold register_self in E1. destruct (tget s i) as [t|]; [|discriminate]. destruct (t_alive t); cbn [negb] in E1; [|discriminate]. rewrite F in E1.
    apply obind_done in E1. destruct E1 as [a [R1 R2]]. injection R2 as <-. unfold add_trigger in R1. cbn. destruct (m_h s) as [h|]; [|injection R1 as <-; auto].
    destruct (has_trigger h i); [discriminate|]. destruct (h_in h); [injection R1 as <-; auto|]. destruct (mem i (h_trigs h)); [discriminate|injection R1 as <-; auto]. }
  destruct (IH s1 s' I1 F1 E2) as [Q1 [Q2 Q3]]. split; [auto|]. split; [congruence|auto].
Qed.

(** How often a callback re-arms a trigger. *)
Definition is_arm (o : op) : bool := match o with OSet _ | OReset _ _ => true | _ => false end.
(** See [is_arm]. *)
Definition arms (cb : list op) : nat := length (filter is_arm cb).
(** Callbacks that only create triggers, and re-arm the trigger that called them at most once. *)
Fixpoint tame_op (o : op) : bool :=
  match o with
  | OSet Self | OReset Self _ => true
  | ONew _ _ cb => forallb tame_op cb && (length (filter is_arm cb) <=? 1)%nat
  | _ => false
  end.
(** See [tame_op]. *)
Definition tame (cb : list op) : bool := forallb tame_op cb && (arms cb <=? 1)%nat.
(** All callbacks are tame. *)
Definition tames (s : tst) : Prop := forall i t, tget s i = Some t -> tame (t_cb t) = true.

(** What the rest of a tick sees unchanged: counters, and the triggers other than [i] that existed. *)
Record rest (i : nat) (s s' : tst) : Prop := mkRest {
  r_ctrs : m_ctrs s' = m_ctrs s; r_start : m_start s' = m_start s; r_stale : m_stale s' = m_stale s; r_tick : m_tick s' = m_tick s;
  r_len : (length (m_trigs s) <= length (m_trigs s'))%nat;
  r_get : forall j, j <> i -> (j < length (m_trigs s))%nat -> tget s' j = tget s j;
  r_me : forall t, tget s i = Some t -> exists t', tget s' i = Some t' /\ t_ctr t' = t_ctr t /\ t_cb t' = t_cb t /\ t_alive t' = t_alive t;
  r_tame : tames s -> tames s' }.
Lemma rest_refl : forall i s, rest i s s.
Proof. intros i s. constructor; auto. intros t G. eauto 10. Qed.
Lemma rest_trans : forall i a b c, rest i a b -> rest i b c -> rest i a c.
Proof.
  intros i a b c [A1 A2 A3 A4 A5 A6 A7 A8] [B1 B2 B3 B4 B5 B6 B7 B8]. constructor; try congruence; try lia; auto.
  - intros j N L. rewrite B6, A6; auto. lia.
  - intros t G. destruct (A7 t G) as [t1 [G1 [C1 [C2 C3]]]]. destruct (B7 t1 G1) as [t2 [G2 [D1 [D2 D3]]]]. exists t2. repeat split; congruence.
Qed.
Lemma tget_lt : forall s i t, tget s i = Some t -> (i < length (m_trigs s))%nat.
Proof. intros s i t G. unfold tget in G. apply nth_error_Some. congruence. Qed.
Lemma lt_tget : forall s i, (i < length (m_trigs s))%nat -> exists t, tget s i = Some t.
Proof. intros s i L. unfold tget. apply nth_error_Some in L. destruct (nth_error (m_trigs s) i); [eauto|congruence]. Qed.
Lemma rest_put : forall i s t x, tget s i = Some x -> t_ctr t = t_ctr x -> t_cb t = t_cb x -> t_alive t = t_alive x -> rest i s (tput s i t).
Proof.
  intros i s t x G C B AL. constructor; try reflexivity.
  - cbn. rewrite lset_len. lia.
  - intros j N L. rewrite (tget_put_some _ _ _ _ _ G). destruct (Nat.eqb_spec i j); [congruence|auto].
  - intros y GY. rewrite G in GY. injection GY as <-. exists t. rewrite (tget_put_some _ _ _ _ _ G), Nat.eqb_refl. auto.
  - intros TM j y. rewrite (tget_put_some _ _ _ _ _ G). destruct (Nat.eqb_spec i j); [intros Q; injection Q as <-; rewrite B; eapply TM; eauto|apply TM].
Qed.

(** [in the tick] with the triggers [T] all existing. *)
Definition tinv' (s : tst) (T R A : list nat) : Prop := tinv s T R A /\ forall j, In j T -> (j < length (m_trigs s))%nat.

Lemma remove_tick : forall s T R A i x, tinv' s T R A -> In i T -> tget s i = Some x -> ~ In i A ->
  let s' := tput (remove_trigger s i) i (set_active x false) in
  tinv' s' T (R ++ [i]) A /\ rest i s s' /\ m_log s' = m_log s /\ active s' i = false.
Proof.
  intros s T R A i x [[H1 [H2 [H3 [H4 [H5 [H6 [H7 H8]]]]]]] H9] IT G NA s'. subst s'.
  assert (E : remove_trigger s i = with_h s (Some (mkH T (R ++ [i]) A true))).
  { unfold remove_trigger. rewrite H2. cbn [h_in h_trigs h_rem h_add]. destruct T; [destruct IT|reflexivity]. }
  rewrite E. set (s1 := with_h s _). assert (G1 : tget s1 i = Some x) by exact G.
  assert (RS : rest i s (tput s1 i (set_active x false))).
  { eapply rest_trans with s1; [|eapply rest_put; eauto; reflexivity]. unfold s1. constructor; try reflexivity; auto. intros t Gt. exists t. repeat split; auto. }
  split; [|split; [exact RS|split; [reflexivity|apply set_active_false with (x := x); exact G1]]].
  split; [|intros j J; cbn; rewrite lset_len; apply H9; auto].
  split; [|split; [reflexivity|split; [exact H3|split; [auto|split; [auto|split; [|split]]]]]].
  - intros j t. rewrite (tget_put_some _ _ _ _ _ G1). destruct (Nat.eqb i j); [intros Q; injection Q as <-; discriminate|apply H1].
  - intros j J. apply in_app_or in J. destruct J as [J|[<-|[]]]; auto.
  - intros j J. destruct (H7 j J); auto. right. apply in_or_app. auto.
  - intros j. rewrite (active_put _ _ _ _ _ G1). destruct (Nat.eqb_spec i j) as [<-|N].
    + cbn. rewrite in_app_iff. cbn. split; [discriminate|tauto].
    + change (active s1 j) with (active s j). rewrite H8, in_app_iff. cbn [In]. intuition congruence.
Qed.
(** Registration in a tick. *)
Lemma register_tick : forall s T R A i x, tinv' s T R A -> tget s i = Some x -> t_alive x = true -> t_active x = false -> ~ In i T \/ In i R ->
  exists s', register_self s i = Done s' /\ tinv' s' T R (A ++ [i]) /\ rest i s s' /\ m_log s' = m_log s /\ active s' i = true.
Proof.
  intros s T R A i x [[H1 [H2 [H3 [H4 [H5 [H6 [H7 H8]]]]]]] H9] G AL AC D. unfold register_self. rewrite G, AL, H3. cbn [negb]. unfold add_trigger. rewrite H2.
  assert (NA : ~ In i A). { intros Q. assert (active s i = true) by (apply H8; auto). unfold active in *. rewrite G in *. congruence. }
  assert (HT : has_trigger (mkH T R A true) i = false).
  { unfold has_trigger. cbn [h_trigs h_rem h_add]. rewrite (proj2 (mem_false i A) NA). destruct (mem i T) eqn:M; auto. apply mem_iff in M. destruct D as [D|D]; [tauto|].
    apply mem_iff in D. now rewrite D. }
  rewrite HT. cbn [h_in h_trigs h_rem h_add obind]. set (s1 := with_h s _). assert (G1 : tget s1 i = Some x) by exact G. eexists. split; [reflexivity|].
  split; [|split; [|split; [reflexivity|rewrite (active_put _ _ _ _ _ G1), Nat.eqb_refl; reflexivity]]].
  - split; [|intros j J; cbn; rewrite lset_len; apply H9; auto].
    split; [|split; [reflexivity|split; [exact H3|split; [auto|split; [apply NoDup_app_iff_snoc; auto|split; [auto|split]]]]]].
    + intros j t. rewrite (tget_put_some _ _ _ _ _ G1). destruct (Nat.eqb i j); [intros Q; injection Q as <-; cbn; auto|apply H1].
    + intros j J. apply in_app_or in J. destruct J as [J|[<-|[]]]; auto.
    + intros j. rewrite (active_put _ _ _ _ _ G1), in_app_iff. cbn [In]. destruct (Nat.eqb_spec i j) as [<-|N].
      * cbn. tauto.
      * change (active s1 j) with (active s j). rewrite H8. intuition congruence.
  - eapply rest_trans with s1; [|eapply rest_put; eauto; reflexivity]. unfold s1. constructor; try reflexivity; auto. intros t Gt. exists t. repeat split; auto.
Qed.
(** One operation of a tame callback of trigger [i], which has been removed. *)
Lemma exec_tick : forall s T R A i o x, tinv' s T R A -> In i T -> In i R -> tget s i = Some x -> t_alive x = true -> tame_op o = true ->
  (is_arm o = true -> ~ In i A) ->
  exists s' R' A', exec (Some i) s o = Done s' /\ tinv' s' T R' A' /\ rest i s s' /\ m_log s' = m_log s /\ (forall j, In j R' <-> In j R)
    /\ (In i A' <-> In i A \/ is_arm o = true) /\ (forall j, (j < length (m_trigs s))%nat -> j <> i -> (In j A' <-> In j A)).
Proof.
  intros s T R A i o x TI IT IR G AL TO NA. destruct o as [[|k]|[|k]|[|k] p|c p cb|t|t u|t|c v]; cbn [tame_op] in TO; try discriminate; cbn [exec].
  - unfold with_t. cbn [resolve]. rewrite G, AL. specialize (NA eq_refl).
    assert (AC : t_active x = false). { destruct (t_active x) eqn:AC; auto. destruct TI as [[_ [_ [_ [_ [_ [_ [_ H8]]]]]]] _]. specialize (H8 i). unfold active in H8. rewrite G in H8. tauto. }
    rewrite AC. destruct (register_tick s T R A i x TI G AL AC (or_intror IR)) as [s' [E [TI' [RS [LG _]]]]]. exists s', R, (A ++ [i]).
    split; [auto|]. split; [auto|]. split; [auto|]. split; [auto|]. split; [tauto|]. split; [rewrite in_app_iff; cbn; tauto|]. intros j _ N. rewrite in_app_iff. cbn. intuition congruence.
  - unfold with_t. cbn [resolve]. rewrite G, AL. specialize (NA eq_refl). unfold deactivate_. rewrite G, AL. cbn [negb obind].
    destruct (remove_tick s T R A i x TI IT G NA) as [TI1 [RS1 [LG1 AC1]]]. set (s1 := tput (remove_trigger s i) i (set_active x false)) in *.
    assert (G1 : tget s1 i = Some (set_active x false)). { unfold s1. assert (G' : tget (remove_trigger s i) i = Some x) by now rewrite tget_remove. rewrite (tget_put_some _ _ _ _ _ G'), Nat.eqb_refl. auto. }
    rewrite G1. set (y := mkT _ _ _ _ _ _ _). set (s2 := tput s1 i y).
    assert (G2 : tget s2 i = Some y) by (unfold s2; rewrite (tget_put_some _ _ _ _ _ G1), Nat.eqb_refl; auto).
    assert (TI2 : tinv' s2 T (R ++ [i]) A).
    { destruct TI1 as [[H1 [H2 [H3 [H4 [H5 [H6 [H7 H8]]]]]]] H9]. split; [|intros j J; unfold s2; cbn [tput with_trigs m_trigs]; rewrite lset_len; apply H9; auto].
      split; [|split; [exact H2|split; [exact H3|split; [auto|split; [auto|split; [auto|split; [auto|]]]]]]].
      - intros j t. unfold s2. rewrite (tget_put_some _ _ _ _ _ G1). destruct (Nat.eqb i j); [intros Q; injection Q as <-; discriminate|apply H1].
      - intros j. rewrite <- H8. unfold s2. rewrite (active_put _ _ _ _ _ G1). destruct (Nat.eqb_spec i j) as [<-|N]; [rewrite AC1|]; reflexivity. }
    destruct (register_tick s2 T (R ++ [i]) A i y TI2 G2 AL eq_refl) as [s' [E [TI' [RS [LG _]]]]]; [right; apply in_or_app; right; now left|].
    exists s', (R ++ [i]), (A ++ [i]). split; [auto|]. split; [auto|]. split; [|split; [rewrite LG; exact LG1|split; [|split; [rewrite in_app_iff; cbn; tauto|]]]].
    + apply rest_trans with s1; auto. apply rest_trans with s2; auto. unfold s2. eapply rest_put; [exact G1|reflexivity|reflexivity|reflexivity].
    + intros j. rewrite in_app_iff. cbn. intuition congruence.
    + intros j _ N. rewrite in_app_iff. cbn. intuition congruence.
  - set (n := length (m_trigs s)). set (t := mkT true false false n c p cb). set (s1 := with_trigs s (m_trigs s ++ [t])).
    assert (G1 : tget s1 n = Some t) by (unfold s1; rewrite tget_app; fold n; rewrite Nat.eqb_refl; auto).
    assert (GO : forall j, j <> n -> tget s1 j = tget s j). { intros j N. unfold s1. rewrite tget_app. fold n. destruct (Nat.eqb_spec n j); [congruence|auto]. }
    assert (AO : forall j, active s1 j = active s j). { intros j. destruct (Nat.eq_dec j n) as [->|N]; [unfold active; rewrite G1; unfold n; rewrite tget_none; auto|unfold active; rewrite GO; auto]. }
    assert (TI1 : tinv' s1 T R A).
    { destruct TI as [[H1 [H2 [H3 [H4 [H5 [H6 [H7 H8]]]]]]] H9]. split; [|intros j J; unfold s1; cbn; rewrite app_length; specialize (H9 j J); lia].
      split; [|split; [exact H2|split; [exact H3|split; [auto|split; [auto|split; [auto|split; [auto|]]]]]]].
      - intros j y Gy Ay. destruct (Nat.eq_dec j n) as [->|N]; [rewrite G1 in Gy; injection Gy as <-; discriminate|rewrite GO in Gy by auto; eapply H1; eauto].
      - intros j. rewrite AO. apply H8. }
    assert (NT : ~ In n T). { intros Q. destruct TI as [_ H9]. specialize (H9 n Q). unfold n in H9. lia. }
    destruct (register_tick s1 T R A n t TI1 G1 eq_refl eq_refl (or_introl NT)) as [s' [E [TI' [RS [LG _]]]]]. exists s', R, (A ++ [n]).
    split; [exact E|]. split; [auto|]. assert (IL : (i < n)%nat) by (apply (tget_lt _ _ _ G)).
    split; [|split; [exact LG|split; [tauto|split; [rewrite in_app_iff; cbn; split; [intros [Q|[Q|[]]]; [auto|lia]|intros [Q|Q]; [auto|discriminate]]|]]]].
    + destruct RS as [B1 B2 B3 B4 B5 B6 B7 B8]. constructor; auto.
      * unfold s1 in B5. cbn in B5. rewrite app_length in B5. cbn in B5. lia.
      * intros j N L. rewrite B6; [apply GO|..]; try (fold n in L; lia). unfold s1. cbn. rewrite app_length. lia.
      * intros y Gy. rewrite B6; [|lia|unfold s1; cbn; rewrite app_length; fold n; lia]. rewrite GO by lia. exists y. auto.
      * intros TM. apply B8. intros j y Gy. destruct (Nat.eq_dec j n) as [->|N]; [rewrite G1 in Gy; injection Gy as <-; exact TO|rewrite GO in Gy by auto; eapply TM; eauto].
    + intros j L N. rewrite in_app_iff. cbn. fold n in L. split; [intros [Q|[Q|[]]]; [auto|lia]|auto].
Qed.
Lemma arms_cons : forall o l, arms (o :: l) = ((if is_arm o then 1 else 0) + arms l)%nat.
Proof. intros. unfold arms. cbn [filter]. destruct (is_arm o); auto. Qed.
Lemma execs_tick : forall l s T R A i x, tinv' s T R A -> In i T -> In i R -> tget s i = Some x -> t_alive x = true -> forallb tame_op l = true ->
  (arms l <= 1)%nat -> (arms l = 1%nat -> ~ In i A) ->
  exists s' R' A', execs (Some i) s l = Done s' /\ tinv' s' T R' A' /\ rest i s s' /\ m_log s' = m_log s /\ (forall j, In j R' <-> In j R)
    /\ (In i A' <-> In i A \/ arms l = 1%nat) /\ (forall j, (j < length (m_trigs s))%nat -> j <> i -> (In j A' <-> In j A)).
Proof.
  induction l as [|o l IH]; intros s T R A i x TI IT IR G AL TL AR NA; cbn [execs].
  - exists s, R, A. split; [auto|]. split; [auto|]. split; [apply rest_refl|]. split; [auto|]. split; [tauto|]. split; [cbn; intuition discriminate|tauto].
  - cbn [forallb] in TL. apply andb_true_iff in TL. destruct TL as [TO TL]. rewrite arms_cons in *.
    destruct (exec_tick s T R A i o x TI IT IR G AL TO) as [s1 [R1 [A1 [E1 [TI1 [RS1 [LG1 [HR1 [HA1 HO1]]]]]]]]].
    { intros Q. rewrite Q in *. apply NA. lia. }
    rewrite E1. cbn [obind]. destruct (r_me _ _ _ RS1 x G) as [x1 [G1 [_ [_ AL1]]]].
    destruct (IH s1 T R1 A1 i x1 TI1 IT) as [s2 [R2 [A2 [E2 [TI2 [RS2 [LG2 [HR2 [HA2 HO2]]]]]]]]]; auto; [apply HR1; auto|congruence|destruct (is_arm o); lia| |].
    { intros Q. rewrite HA1. destruct (is_arm o) eqn:IA; [lia|]. intros [H|H]; [|discriminate]. apply NA; auto. }
    exists s2, R2, A2. split; [auto|]. split; [auto|]. split; [eapply rest_trans; eauto|]. split; [congruence|]. split; [intros; rewrite HR2, HR1; tauto|]. split.
    + rewrite HA2, HA1. destruct (is_arm o) eqn:IA; intuition (try discriminate; try lia).
    + intros j L N. rewrite HO2, HO1; auto; [tauto|]. pose proof (r_len _ _ _ RS1). lia.
Qed.
(** Whether trigger [i] would fire. *)
Definition hit (s : tst) (i : nat) : bool := match tget s i with Some t => reached s t | None => false end.
(** Whether the callback of trigger [i] re-arms it. *)
Definition rearms (s : tst) (i : nat) : bool := match tget s i with Some t => (0 <? arms (t_cb t))%nat | None => false end.
(** Whether trigger [i] has fired. *)
Definition has_fired (s : tst) (i : nat) : bool := match tget s i with Some t => t_fired t | None => false end.
Lemma check_tick : forall s T R A i, tinv' s T R A -> tames s -> In i T -> ~ In i R ->
  exists s' R' A', check s i = Done s' /\ tinv' s' T R' A' /\ rest i s s'
    /\ m_log s' = (if hit s i then (m_tick s, i) :: m_log s else m_log s)
    /\ (forall j, In j R' <-> In j R \/ (j = i /\ hit s i = true))
    /\ active s' i = (if hit s i then rearms s i else true) /\ has_fired s' i = has_fired s i || hit s i.
Proof.
  intros s T R A i TI TM IT NR. pose proof TI as [[H1 [H2 [H3 [H4 [H5 [H6 [H7 H8]]]]]]] H9].
  destruct (lt_tget s i (H9 i IT)) as [x G]. assert (AC : active s i = true) by (apply H8; auto). unfold check. rewrite G.
  assert (ACX : t_active x = true) by (unfold active in AC; now rewrite G in AC). rewrite (H1 i x G ACX), ACX. cbn [negb]. unfold hit, rearms, has_fired. rewrite G.
  destruct (reached s x) eqn:RC.
  2:{ exists s, R, A. split; [auto|]. split; [auto|]. split; [apply rest_refl|]. split; [auto|]. split; [intuition discriminate|]. split; [auto|]. rewrite G, orb_false_r. auto. }
  assert (NA : ~ In i A) by (intros Q; destruct (H7 i Q); tauto).
  assert (ES : remove_trigger (tput s i (set_active x false)) i = tput (remove_trigger s i) i (set_active x false)).
  { unfold remove_trigger. cbn [tput with_trigs m_h]. rewrite H2. cbn [h_in h_trigs h_rem h_add]. destruct T; [destruct IT|reflexivity]. }
  rewrite ES. destruct (remove_tick s T R A i x TI IT G NA) as [TI1 [RS1 [LG1 AC1]]]. set (s1 := tput (remove_trigger s i) i (set_active x false)) in *.
  set (s2 := mkTS _ _ _ _ _ _ _ _). assert (G1 : tget s1 i = Some (set_active x false)).
  { unfold s1. assert (G' : tget (remove_trigger s i) i = Some x) by now rewrite tget_remove. rewrite (tget_put_some _ _ _ _ _ G'), Nat.eqb_refl. auto. }
  assert (TI2 : tinv' s2 T (R ++ [i]) A) by exact TI1. assert (RS2 : rest i s s2) by (destruct RS1; constructor; auto).
  pose proof (TM i x G) as TX. unfold tame in TX. apply andb_true_iff in TX. destruct TX as [TX1 TX2]. apply Nat.leb_le in TX2.
  destruct (execs_tick (t_cb x) s2 T (R ++ [i]) A i (set_active x false) TI2 IT) as [s3 [R3 [A3 [E3 [TI3 [RS3 [LG3 [HR3 [HA3 HO3]]]]]]]]]; auto.
  { apply in_or_app. right. now left. } { exact (H1 i x G ACX). }
  rewrite E3. cbn [obind]. destruct (r_me _ _ _ RS3 (set_active x false) G1) as [y [G3 [C1 [C2 C3]]]]. rewrite G3. cbn in C3. rewrite (H1 i x G ACX) in C3. rewrite C3.
  set (z := mkT _ _ _ _ _ _ _). exists (tput s3 i z), R3, A3. split; [auto|]. split; [|split; [|split; [|split; [|split]]]].
  - destruct TI3 as [[K1 [K2 [K3 [K4 [K5 [K6 [K7 K8]]]]]]] K9]. split; [|intros j J; cbn [tput with_trigs m_trigs]; rewrite lset_len; apply K9; auto].
    split; [|split; [exact K2|split; [exact K3|split; [auto|split; [auto|split; [auto|split; [auto|]]]]]]].
    + intros j t. rewrite (tget_put_some _ _ _ _ _ G3). destruct (Nat.eqb i j); [intros Q; injection Q as <-; reflexivity|apply K1].
    + intros j. rewrite <- K8, (active_put _ _ _ _ _ G3). destruct (Nat.eqb_spec i j) as [<-|N]; [|tauto]. unfold active. rewrite G3. cbn. tauto.
  - apply rest_trans with s2; auto. apply rest_trans with s3; auto. eapply rest_put; [exact G3|reflexivity|reflexivity|]. cbn. congruence.
  - change (m_log (tput s3 i z)) with (m_log s3). rewrite LG3. change (m_log s2) with ((m_tick s1, i) :: m_log s1). now rewrite LG1, (r_tick _ _ _ RS1).
  - intros j. rewrite HR3, in_app_iff. cbn. intuition.
  - rewrite (active_put _ _ _ _ _ G3), Nat.eqb_refl. cbn [z t_active].
    assert (Q : active s3 i = t_active y) by (unfold active; now rewrite G3). rewrite <- Q. destruct TI3 as [[K1 [K2 [K3 [K4 [K5 [K6 [K7 K8]]]]]]] K9]. specialize (K8 i). rewrite HA3, HR3, in_app_iff in K8. cbn [In] in K8.
    destruct (Nat.ltb_spec 0 (arms (t_cb x))).
    + apply K8. right. right. lia.
    + destruct (active s3 i); auto. destruct K8 as [K8 _]. destruct (K8 eq_refl) as [[_ Z]|[Z|Z]]; [destruct Z; auto|tauto|lia].
  - rewrite (tget_put_some _ _ _ _ _ G3), Nat.eqb_refl. cbn. now rewrite orb_true_r.
Qed.
Lemma hit_same : forall i s s' j, rest i s s' -> j <> i -> (j < length (m_trigs s))%nat -> hit s' j = hit s j /\ rearms s' j = rearms s j /\ active s' j = active s j /\ has_fired s' j = has_fired s j.
Proof.
  intros i s s' j RS N L. unfold hit, rearms, active, has_fired. rewrite (r_get _ _ _ RS j N L). destruct (tget s j); auto. unfold reached. rewrite (r_ctrs _ _ _ RS). auto.
Qed.
Lemma checks_tick : forall l s T R A, tinv' s T R A -> tames s -> NoDup l -> (forall i, In i l -> In i T /\ ~ In i R) ->
  exists s' R' A', checks s l = Done s' /\ tinv' s' T R' A' /\ tames s' /\ m_ctrs s' = m_ctrs s /\ m_start s' = m_start s /\ m_stale s' = m_stale s
    /\ m_tick s' = m_tick s /\ (length (m_trigs s) <= length (m_trigs s'))%nat
    /\ m_log s' = rev (map (pair (m_tick s)) (filter (hit s) l)) ++ m_log s
    /\ (forall j t, tget s j = Some t -> ~ In j l \/ hit s j = false -> tget s' j = Some t)
    /\ (forall j t, tget s j = Some t -> exists t', tget s' j = Some t' /\ t_ctr t' = t_ctr t /\ t_cb t' = t_cb t /\ t_alive t' = t_alive t)
    /\ (forall j, In j l -> hit s j = true -> active s' j = rearms s j /\ has_fired s' j = true).
Proof.
  induction l as [|i l IH]; intros s T R A TI TM ND IN; cbn [checks].
  - exists s, R, A. split; [auto|]. split; [auto|]. split; [auto|]. do 5 (split; [auto|]). split; [reflexivity|]. split; [auto|]. split; [intros; eauto 10|]. intros j [].
  - inversion ND as [|? ? NI ND']; subst. destruct (IN i (or_introl eq_refl)) as [IT NR].
    destruct (check_tick s T R A i TI TM IT NR) as [s1 [R1 [A1 [E1 [TI1 [RS1 [LG1 [HR1 [AC1 HF1]]]]]]]]]. rewrite E1. cbn [obind].
    assert (LT : forall j, In j (i :: l) -> (j < length (m_trigs s))%nat) by (intros j J; destruct TI as [_ H9]; apply H9; apply IN; auto).
    assert (HS : forall j, In j l -> hit s1 j = hit s j /\ rearms s1 j = rearms s j).
    { intros j J. assert (N : j <> i) by (intros ->; auto). destruct (hit_same i s s1 j RS1 N (LT j (or_intror J))) as [Q1 [Q2 _]]. auto. }
    destruct (IH s1 T R1 A1 TI1 (r_tame _ _ _ RS1 TM) ND') as [s2 [R2 [A2 [E2 [TI2 [TM2 [B1 [B2 [B3 [B4 [B5 [LG2 [KP [KE FR]]]]]]]]]]]]]].
    { intros j J. destruct (IN j (or_intror J)). split; auto. rewrite HR1. intros [Q|[Q _]]; [auto|subst; auto]. }
    exists s2, R2, A2. split; [auto|]. split; [auto|]. split; [auto|]. split; [rewrite B1; apply RS1|]. split; [rewrite B2; apply RS1|]. split; [rewrite B3; apply RS1|]. split; [rewrite B4; apply RS1|].
    split; [pose proof (r_len _ _ _ RS1); lia|]. split; [|split; [|split]].
    + rewrite LG2, LG1, (r_tick _ _ _ RS1). cbn [filter]. rewrite (filter_ext_in (hit s1) (hit s)) by (intros j J; apply HS; auto).
      destruct (hit s i); [|reflexivity]. cbn [map rev]. rewrite <- app_assoc. reflexivity.
    + intros j t G D. destruct (Nat.eq_dec j i) as [->|N].
      * assert (HI : hit s i = false) by (destruct D as [D|D]; [destruct D; now left|auto]). apply KP; [|now left].
        unfold check in E1. rewrite G in E1. destruct (t_alive t); cbn [negb] in E1; [|discriminate]. destruct (t_active t); cbn [negb] in E1; [|discriminate].
        unfold hit in HI. rewrite G in HI. rewrite HI in E1. injection E1 as <-. exact G.
      * pose proof (tget_lt _ _ _ G) as L. apply KP; [rewrite (r_get _ _ _ RS1) by auto; auto|]. destruct (hit_same i s s1 j RS1 N L) as [-> _].
        destruct D as [D|D]; [left; intros Q; apply D; now right|auto].
    + intros j t G. assert (Q : exists t', tget s1 j = Some t' /\ t_ctr t' = t_ctr t /\ t_cb t' = t_cb t /\ t_alive t' = t_alive t).
      { destruct (Nat.eq_dec j i) as [->|N]; [apply (r_me _ _ _ RS1); auto|]. exists t. rewrite (r_get _ _ _ RS1); auto. apply (tget_lt _ _ _ G). }
      destruct Q as [t1 [G1 [C1 [C2 C3]]]]. destruct (KE j t1 G1) as [t2 [G2 [D1 [D2 D3]]]]. exists t2. repeat split; congruence.
    + intros j [<-|J] HJ.
      * rewrite HJ in AC1, HF1. destruct (r_me _ _ _ RS1) with (t := match tget s i with Some t => t | None => mkT true true true 0 0 0 [] end) as [t1 [G1 _]].
        { destruct (lt_tget s i (LT i (or_introl eq_refl))) as [x ->]. auto. }
        assert (K : tget s2 i = Some t1) by (apply KP; auto). rewrite orb_true_r in HF1. unfold active, has_fired in *. rewrite K. rewrite G1 in AC1, HF1. auto.
      * destruct (HS j J) as [Q1 Q2]. rewrite <- Q2. apply FR; auto. congruence.
Qed.
(** A cycle from a good state with tame callbacks: exactly the active triggers whose counter has reached the point fire. *)
Lemma tick_good : forall s, inv s -> tames s -> m_fin s = true -> m_stale s = false ->
  exists s' l, tick s = Done s' /\ inv s' /\ tames s' /\ m_stale s' = false /\ m_fin s' = true /\ m_ctrs s' = m_ctrs s /\ m_start s' = m_start s
    /\ m_tick s' = (m_tick s + 1)%N /\ NoDup l /\ (forall i, In i l <-> active s i = true /\ hit s i = true)
    /\ m_log s' = rev (map (pair (m_tick s + 1)%N) l) ++ m_log s
    /\ (forall i t, tget s i = Some t -> ~ In i l -> tget s' i = Some t)
    /\ (forall i t, tget s i = Some t -> exists t', tget s' i = Some t' /\ t_ctr t' = t_ctr t /\ t_cb t' = t_cb t /\ t_alive t' = t_alive t)
    /\ (forall i, In i l -> active s' i = rearms s i /\ has_fired s' i = true)
    /\ (l = filter (hit s) (match m_h s with Some h => h_trigs h | None => [] end)).
Proof.
  intros s I TM F ST. unfold tick. cbn [m_stale m_h]. rewrite ST. pose proof I as [I1 [I2 I3]]. destruct (m_h s) as [h|] eqn:MH.
  2:{ eexists. exists []. split; [reflexivity|]. split; [split; [exact I1|split; [cbn; rewrite F; discriminate|cbn; exact I3]]|]. do 6 (split; [cbn; auto|]). split; [constructor|].
      split; [intros i; rewrite I3; cbn; intuition discriminate|]. split; [reflexivity|]. split; [auto|]. split; [intros; eauto 10|]. split; [intros i []|reflexivity]. }
  destruct I3 as [A [B [C [D E]]]]. set (s0 := with_h _ _).
  assert (LT : forall j, In j (h_trigs h) -> (j < length (m_trigs s))%nat).
  { intros j J. apply E in J. unfold active in J. destruct (tget s j) eqn:G; [|discriminate]. apply (tget_lt _ _ _ G). }
  assert (TI : tinv' s0 (h_trigs h) [] []).
  { split; [|exact LT]. split; [exact I1|]. split; [unfold s0; cbn; rewrite B, C; reflexivity|]. split; [exact F|]. split; [auto|]. split; [constructor|].
    split; [intros i []|]. split; [intros i []|]. intros i. change (active s0 i) with (active s i). rewrite <- E. cbn. tauto. }
  destruct (checks_tick (h_trigs h) s0 (h_trigs h) [] [] TI TM D) as [s1 [R [A1 [E1 [TI1 [TM1 [B1 [B2 [B3 [B4 [B5 [LG [KP [KE FR]]]]]]]]]]]]]].
  { intros i J. split; auto. }
  rewrite E1. cbn [obind]. unfold flush. destruct TI1 as [[K1 [K2 [K3 [K4 [K5 [K6 [K7 K8]]]]]]] K9]. rewrite K2. cbn [h_rem h_trigs h_add].
  rewrite erases_filter by auto. rewrite adds_ok; auto.
  2:{ intros i J Q. apply filter_In in Q. destruct Q as [Q1 Q2]. destruct (K7 i J) as [Z|Z]; [tauto|]. apply mem_iff in Z. rewrite Z in Q2. discriminate. }
  set (l2 := filter _ _ ++ A1). eexists. exists (filter (hit s) (h_trigs h)). split; [reflexivity|]. split; [|split; [exact TM1|split; [cbn; rewrite B3; reflexivity|]]].
  { split; [exact K1|]. split; [cbn; rewrite K3; discriminate|]. cbn [with_h m_h h_in h_rem h_add h_trigs]. do 3 (split; [auto|]). split.
    - unfold l2. apply NoDup_app_disj; auto.
      + apply NoDup_filter; auto.
      + intros i Q J. apply filter_In in Q. destruct Q as [Q1 Q2]. destruct (K7 i J) as [Z|Z]; [tauto|]. apply mem_iff in Z. rewrite Z in Q2. discriminate.
    - intros i. change (active (with_h s1 _) i) with (active s1 i). rewrite K8. unfold l2. rewrite in_app_iff, filter_In. destruct (mem i R) eqn:M; cbn [negb].
      + apply mem_iff in M. intuition discriminate.
      + apply mem_false in M. intuition. }
  split; [exact K3|]. split; [cbn; rewrite B1; reflexivity|]. split; [cbn; rewrite B2; reflexivity|]. split; [cbn; rewrite B4; reflexivity|].
  split; [apply NoDup_filter; auto|]. split; [intros i; rewrite filter_In, E; tauto|]. split; [cbn [with_h m_log]; rewrite LG; reflexivity|].
  split; [intros i t G NI; apply KP; auto; change (hit s0 i) with (hit s i)|split; [intros i t G; apply KE; auto|split; [intros i J; apply filter_In in J; destruct J as [J1 J2]; apply FR; auto|reflexivity]]].
  rewrite filter_In in NI. destruct (hit s i); [left; tauto|auto].
Qed.

(** * Histories *)
(** The triggers an operation outside the callbacks changes. *)
Definition touches (i : nat) (o : op) : bool :=
  match o with
  | OSet (Id j) | ODeact (Id j) | OReset (Id j) _ | OAssign (Id j) _ | OKill (Id j) => Nat.eqb i j
  | _ => false
  end.
(** See [touches]. *)
Definition untouched (i : nat) (l : list ev) : bool := forallb (fun e => match e with EOp o => negb (touches i o) | _ => true end) l.
(** Every trigger is created with a tame callback. *)
Definition tame_ev (e : ev) : bool := match e with EOp (ONew _ _ cb) => tame cb | _ => true end.
(** What registering changes. *)
Lemma register_same : forall s i s', register_self s i = Done s' -> m_ctrs s' = m_ctrs s /\ m_fin s' = m_fin s /\ m_tick s' = m_tick s /\ m_log s' = m_log s
  /\ (m_fin s = true -> m_start s' = m_start s) /\ (forall j, j <> i -> tget s' j = tget s j) /\ length (m_trigs s') = length (m_trigs s)
  /\ (forall t, tget s i = Some t -> exists t', tget s' i = Some t' /\ t_cb t' = t_cb t).
Proof.
  intros s i s' R. unfold register_self in R. destruct (tget s i) as [t|] eqn:G; [|discriminate]. destruct (t_alive t); cbn [negb] in R; [|discriminate].
  destruct (m_fin s) eqn:F.
  2:{ injection R as <-. cbn. do 4 (split; [auto|]). split; [discriminate|]. split; [auto|]. split; [auto|]. intros t0 Q. injection Q as <-. exists t. auto. }
  apply obind_done in R. destruct R as [a [R1 R2]]. injection R2 as <-.
  assert (Q : m_trigs a = m_trigs s /\ m_ctrs a = m_ctrs s /\ m_fin a = m_fin s /\ m_start a = m_start s /\ m_tick a = m_tick s /\ m_log a = m_log s).
  { unfold add_trigger in R1. destruct (m_h s) as [h|]; [|injection R1 as <-; cbn; auto 10]. destruct (has_trigger h i); [discriminate|].
    destruct (h_in h); [injection R1 as <-; cbn; auto 10|]. destruct (mem i (h_trigs h)); [discriminate|injection R1 as <-; cbn; auto 10]. }
  destruct Q as [Q1 [Q2 [Q3 [Q4 [Q5 Q6]]]]]. assert (GA : tget a i = Some t) by (unfold tget; now rewrite Q1).
  cbn [tput with_trigs m_ctrs m_fin m_tick m_log m_start m_trigs]. rewrite lset_len, Q1. split; [auto|]. split; [congruence|]. split; [auto|]. split; [auto|]. split; [auto|].
  split; [|split; [auto|]].
  - intros j N. change (tget (tput a i (set_active t true)) j = tget s j). rewrite (tget_put_some _ _ _ _ _ GA). destruct (Nat.eqb_spec i j); [congruence|]. unfold tget. now rewrite Q1.
  - intros t0 Q. injection Q as <-. exists (set_active t true). split; [|auto]. change (tget (tput a i (set_active t true)) i = Some (set_active t true)).
    rewrite (tget_put_some _ _ _ _ _ GA), Nat.eqb_refl. auto.
Qed.
(** What an operation outside the callbacks leaves alone. *)
Lemma exec_same : forall s o s', exec None s o = Done s' -> m_fin s' = m_fin s /\ m_tick s' = m_tick s /\ m_log s' = m_log s
  /\ (m_fin s = true -> m_start s' = m_start s) /\ (m_stale s' = false -> m_stale s = false)
  /\ (forall i t, tget s i = Some t -> touches i o = false -> tget s' i = Some t).
Proof.
  intros s o s' E. assert (RM : forall i, m_trigs (remove_trigger s i) = m_trigs s /\ m_fin (remove_trigger s i) = m_fin s /\ m_start (remove_trigger s i) = m_start s
    /\ m_tick (remove_trigger s i) = m_tick s /\ m_log (remove_trigger s i) = m_log s) by (intros i; destruct (remove_same s i) as [? [? [? [? [? ?]]]]]; auto 10).
  destruct o as [t|t|t p|c p cb|t|t u|t|c v]; cbn [exec] in E.
  - apply with_t_inv in E. destruct E as [i [x [RS [G [AL E]]]]]. destruct t as [|k]; [discriminate|]. injection RS as ->. destruct (t_active x); [discriminate|].
    pose proof (register_stale _ _ _ E). destruct (register_same _ _ _ E) as [? [? [? [? [? [K _]]]]]]. repeat (split; [auto; congruence|]). intros j t Q N. rewrite K; auto. apply Nat.eqb_neq. exact N.
  - apply with_t_inv in E. destruct E as [i [x [RS [G [AL E]]]]]. destruct t as [|k]; [discriminate|]. injection RS as ->. unfold deactivate_ in E. rewrite G, AL in E. cbn [negb] in E. injection E as <-.
    destruct (RM i) as [? [? [? [? ?]]]]. cbn. do 3 (split; [auto|]). split; [auto|]. split; [apply remove_stale|]. intros j t Q N. cbn in N.
    change (tget (tput (remove_trigger s i) i (set_active x false)) j = Some t). assert (G' : tget (remove_trigger s i) i = Some x) by now rewrite tget_remove.
    rewrite (tget_put_some _ _ _ _ _ G'). rewrite Nat.eqb_sym, N. now rewrite tget_remove.
  - apply with_t_inv in E. destruct E as [i [x [RS [G [AL E]]]]]. destruct t as [|k]; [discriminate|]. injection RS as ->. unfold deactivate_ in E. rewrite G, AL in E. cbn [negb obind] in E.
    assert (G' : tget (remove_trigger s i) i = Some x) by now rewrite tget_remove.
    assert (G2 : tget (tput (remove_trigger s i) i (set_active x false)) i = Some (set_active x false)) by (rewrite (tget_put_some _ _ _ _ _ G'), Nat.eqb_refl; auto). rewrite G2 in E.
    destruct (RM i) as [? [? [? [? ?]]]]. pose proof (register_stale _ _ _ E) as ST. destruct (register_same _ _ _ E) as [? [A1 [A2 [A3 [A4 [K _]]]]]]. cbn in A1, A2, A3, A4, ST.
    split; [congruence|]. split; [congruence|]. split; [congruence|]. split; [intros F; rewrite A4 by congruence; auto|]. split; [intros Q; rewrite Q in ST; symmetry in ST; eapply remove_stale; eauto|].
    intros j t Q N. cbn in N. rewrite K by (apply Nat.eqb_neq; auto). rewrite (tget_put_some _ _ _ _ _ G2). rewrite Nat.eqb_sym, N. rewrite (tget_put_some _ _ _ _ _ G'), Nat.eqb_sym, N. now rewrite tget_remove.
  - pose proof (register_stale _ _ _ E) as ST. destruct (register_same _ _ _ E) as [? [? [? [? [? [K _]]]]]]. cbn in *. repeat (split; [auto; congruence|]).
    intros j t Q _. pose proof (tget_lt _ _ _ Q). rewrite K by lia. change (tget (with_trigs s (m_trigs s ++ [mkT true false false (length (m_trigs s)) c p cb])) j = Some t).
    rewrite tget_app. destruct (Nat.eqb_spec (length (m_trigs s)) j); [lia|auto].
  - apply with_t_inv in E. destruct E as [i [x [RS [G [AL E]]]]]. destruct (t_active x).
    + pose proof (register_stale _ _ _ E) as ST. destruct (register_same _ _ _ E) as [? [? [? [? [? [K _]]]]]]. cbn in *. repeat (split; [auto; congruence|]).
      intros j y Q _. pose proof (tget_lt _ _ _ Q). rewrite K by lia. change (tget (with_trigs s (m_trigs s ++ [mkT true true false (t_reg x) (t_ctr x) (t_point x) (t_cb x)])) j = Some y).
      rewrite tget_app. destruct (Nat.eqb_spec (length (m_trigs s)) j); [lia|auto].
    + injection E as <-. repeat (split; [auto; congruence|]). intros j y Q _. pose proof (tget_lt _ _ _ Q). rewrite tget_app. destruct (Nat.eqb_spec (length (m_trigs s)) j); [lia|auto].
  - apply with_t_inv in E. destruct E as [i [x [RS [G [AL E]]]]]. apply with_t_inv in E. destruct E as [j [y0 [_ [GJ [ALJ E]]]]]. destruct t as [|k]; [discriminate|]. injection RS as ->.
    set (s0 := tput s i (set_active x false)) in *. rewrite tget_remove in E. destruct (tget s0 j) as [y|]; [|discriminate].
    assert (G0 : tget s0 i = Some (set_active x false)) by (unfold s0; rewrite (tget_put_some _ _ _ _ _ G), Nat.eqb_refl; auto).
    assert (G1 : tget (remove_trigger s0 i) i = Some (set_active x false)) by now rewrite tget_remove.
    assert (R0 : m_fin (remove_trigger s0 i) = m_fin s /\ m_start (remove_trigger s0 i) = m_start s /\ m_tick (remove_trigger s0 i) = m_tick s /\ m_log (remove_trigger s0 i) = m_log s)
      by (destruct (remove_same s0 i) as [? [? [? [? [? ?]]]]]; auto). destruct R0 as [B1 [B2 [B3 B4]]].
    assert (SL : m_stale (remove_trigger s0 i) = false -> m_stale s = false) by (intros Q; apply (remove_stale s0 i Q)).
    set (z := mkT true _ _ _ _ _ _) in *.
    assert (KZ : forall k t, tget s k = Some t -> Nat.eqb k i = false -> tget (tput (remove_trigger s0 i) i z) k = Some t).
    { intros k t Q N. rewrite (tget_put_some _ _ _ _ _ G1), Nat.eqb_sym, N, tget_remove. unfold s0. rewrite (tget_put_some _ _ _ _ _ G), Nat.eqb_sym, N. auto. }
    destruct (t_active y).
    + pose proof (register_stale _ _ _ E) as ST. destruct (register_same _ _ _ E) as [? [A1 [A2 [A3 [A4 [K _]]]]]]. cbn in A1, A2, A3, A4, ST.
      split; [congruence|]. split; [congruence|]. split; [congruence|]. split; [intros F; rewrite A4 by congruence; auto|]. split; [intros Q; apply SL; congruence|].
      intros k t Q N. cbn in N. rewrite K by (apply Nat.eqb_neq; auto). apply KZ; auto.
    + injection E as <-. split; [exact B1|]. split; [exact B3|]. split; [exact B4|]. split; [intros; exact B2|]. split; [exact SL|]. intros k t Q N. apply KZ; auto.
  - apply with_t_inv in E. destruct E as [i [x [RS [G [AL E]]]]]. destruct t as [|k]; [discriminate|]. injection RS as ->. injection E as <-.
    destruct (RM i) as [? [? [? [? ?]]]]. split; [auto|]. split; [auto|]. split; [auto|]. split; [auto|]. split; [apply remove_stale|]. intros j t Q N. cbn in N.
    assert (G' : tget (remove_trigger s i) i = Some x) by now rewrite tget_remove.
    rewrite (tget_put_some _ _ _ _ _ G'). rewrite Nat.eqb_sym, N. now rewrite tget_remove.
  - injection E as <-. cbn. repeat (split; [auto|]). auto.
Qed.
Lemma tames_put : forall s i t, tames s -> tame (t_cb t) = true -> tames (tput s i t).
Proof. intros s i t TM Q j y. rewrite tget_put. destruct (Nat.eqb i j); [|apply TM]. destruct (tget s j); cbn; [|discriminate]. intros E. injection E as <-. auto. Qed.
Lemma tames_app : forall s t, tames s -> tame (t_cb t) = true -> tames (with_trigs s (m_trigs s ++ [t])).
Proof. intros s t TM Q j y. rewrite tget_app. destruct (Nat.eqb _ j); [|apply TM]. intros E. injection E as <-. auto. Qed.
Lemma tames_remove : forall s i, tames s -> tames (remove_trigger s i).
Proof. intros s i TM j y. rewrite tget_remove. apply TM. Qed.
Lemma tames_register : forall s i s', tames s -> register_self s i = Done s' -> tames s'.
Proof.
  intros s i s' TM E. pose proof E as E'. destruct (register_same _ _ _ E) as [_ [_ [_ [_ [_ [K [_ M]]]]]]]. intros j y. destruct (Nat.eq_dec j i) as [->|N]; [|rewrite K by auto; apply TM].
  unfold register_self in E'. destruct (tget s i) as [t|] eqn:G; [|discriminate]. destruct (M t eq_refl) as [t' [G' C]]. rewrite G'. intros Q. injection Q as <-. rewrite C. apply (TM i t G).
Qed.
Lemma exec_tames : forall s o s', tames s -> tame_ev (EOp o) = true -> exec None s o = Done s' -> tames s'.
Proof.
  intros s o s' TM TO E. destruct o as [t|t|t p|c p cb|t|t u|t|c v]; cbn [exec] in E.
  - apply with_t_inv in E. destruct E as [i [x [_ [G [AL E]]]]]. destruct (t_active x); [discriminate|]. eapply tames_register; eauto.
  - apply with_t_inv in E. destruct E as [i [x [_ [G [AL E]]]]]. unfold deactivate_ in E. rewrite G, AL in E. cbn [negb] in E. injection E as <-.
    apply tames_put; [apply tames_remove; auto|apply (TM i x G)].
  - apply with_t_inv in E. destruct E as [i [x [_ [G [AL E]]]]]. unfold deactivate_ in E. rewrite G, AL in E. cbn [negb obind] in E. destruct (tget (tput (remove_trigger s i) i (set_active x false)) i) as [y|] eqn:GY; [|discriminate].
    assert (TP : tames (tput (remove_trigger s i) i (set_active x false))) by (apply tames_put; [apply tames_remove; auto|apply (TM i x G)]).
    eapply tames_register; [|exact E]. apply tames_put; [auto|]. apply (TP i y GY).
  - eapply tames_register; [|exact E]. apply tames_app; auto.
  - apply with_t_inv in E. destruct E as [i [x [_ [G [AL E]]]]].
    assert (TA : tames (with_trigs s (m_trigs s ++ [mkT true (t_active x) false (t_reg x) (t_ctr x) (t_point x) (t_cb x)]))) by (apply tames_app; [auto|apply (TM i x G)]).
    destruct (t_active x); [eapply tames_register; eauto|]. injection E as <-. exact TA.
  - apply with_t_inv in E. destruct E as [i [x [_ [G [AL E]]]]]. apply with_t_inv in E. destruct E as [j [y0 [_ [GJ [ALJ E]]]]].
    assert (TR : tames (remove_trigger (tput s i (set_active x false)) i)) by (apply tames_remove, tames_put; [auto|apply (TM i x G)]).
    destruct (tget (remove_trigger (tput s i (set_active x false)) i) j) as [y|] eqn:GY; [|discriminate].
    assert (TP : tames (tput (remove_trigger (tput s i (set_active x false)) i) i (mkT true (t_active y) (t_fired y) (t_reg y) (t_ctr y) (t_point y) (t_cb y)))) by (apply tames_put; [auto|apply (TR j y GY)]).
    destruct (t_active y); [eapply tames_register; eauto|]. injection E as <-. exact TP.
  - apply with_t_inv in E. destruct E as [i [x [_ [G [AL E]]]]]. injection E as <-. apply tames_put; [apply tames_remove; auto|apply (TM i x G)].
  - injection E as <-. exact TM.
Qed.
Lemma starts_tames : forall l s s', tames s -> starts s l = Done s' -> tames s'.
Proof.
  induction l as [|i l IH]; intros s s' TM E; cbn [starts] in E; [injection E as <-; exact TM|]. apply obind_done in E. destruct E as [s1 [E1 E2]].
  eapply IH; [|exact E2]. eapply tames_register; eauto.
Qed.
(** What holds after every history whose callbacks are tame. *)
Definition good (s : tst) : Prop := tames s /\ (m_stale s = true \/ inv s).
Lemma starts_stale : forall l s s', starts s l = Done s' -> m_stale s' = m_stale s.
Proof.
  induction l as [|i l IH]; intros s s' E; cbn [starts] in E; [injection E as <-; auto|]. apply obind_done in E. destruct E as [s1 [E1 E2]].
  rewrite (IH _ _ E2). eapply register_stale; eauto.
Qed.
Lemma step_good : forall s e s', good s -> tame_ev e = true -> step s e = Done s' -> good s'.
Proof.
  intros s e s' [TM I] TE E. destruct e as [o| | |]; cbn [step] in E.
  - split; [eapply exec_tames; eauto|]. destruct (m_stale s') eqn:ST; auto. right. destruct (exec_same _ _ _ E) as [_ [_ [_ [_ [M _]]]]]. destruct I as [I|I]; [rewrite M in I; auto; discriminate|].
    destruct (exec_inv s o s' I E ST); auto.
  - injection E as <-. split; [exact TM|]. destruct I as [I|[I1 [I2 I3]]]; [left; exact I|]. right. split; [exact I1|]. split; [cbn; discriminate|exact I3].
  - destruct (m_fin s) eqn:F; [|discriminate]. split; [eapply starts_tames; eauto|]. destruct (m_stale s) eqn:ST; [left; rewrite (starts_stale _ _ _ E); auto|]. destruct I as [I|I]; [discriminate|].
    right. destruct (starts_inv _ s s' I F E); auto.
  - destruct (m_start s); [|discriminate]. destruct (m_fin s) eqn:F; [|discriminate]. assert (ST : m_stale s = false) by (unfold tick in E; cbn [m_stale] in E; destruct (m_stale s); [discriminate|auto]).
    destruct I as [I|I]; [congruence|]. destruct (tick_good s I TM F ST) as [s1 [l [E1 [I1 [TM1 _]]]]]. rewrite E in E1. injection E1 as <-. split; auto.
Qed.
Lemma runs_good : forall l s s', good s -> forallb tame_ev l = true -> runs s l = Done s' -> good s'.
Proof.
  induction l as [|e l IH]; intros s s' G TL E; cbn [runs] in E; [injection E as <-; auto|]. cbn [forallb] in TL. apply andb_true_iff in TL. destruct TL as [T1 T2].
  apply obind_done in E. destruct E as [s1 [E1 E2]]. eapply IH; [|exact T2|exact E2]. eapply step_good; eauto.
Qed.
Lemma good0 : good tst0.
Proof.
  split; [intros [|i] t; discriminate|]. right. split; [intros [|i] t; discriminate|]. split; [auto|]. cbn. intros [|i]; auto.
Qed.
Lemma runs_app : forall a b s s', runs s (a ++ b) = Done s' <-> exists s1, runs s a = Done s1 /\ runs s1 b = Done s'.
Proof.
  induction a as [|e a IH]; intros b s s'; cbn [runs app].
  - split; [intros H; exists s; auto|intros [s1 [Q1 Q2]]; injection Q1 as <-; auto].
  - destruct (step s e); cbn [obind]; try (split; [discriminate|intros [s1 [Q _]]; discriminate]). apply IH.
Qed.
(** The cycles in which trigger [i] has called its callback, the latest first. *)
Definition cycles_of (s : tst) (i : nat) : list N := map fst (filter (fun p => Nat.eqb (snd p) i) (m_log s)).
Lemma cycles_tick : forall n l i, NoDup l -> map fst (filter (fun p => Nat.eqb (snd p) i) (rev (map (pair n) l))) = if mem i l then [n] else @nil N.
Proof.
  intros n l i ND. assert (Q : forall l, ~ In i l -> filter (fun p => Nat.eqb (snd p) i) (rev (map (pair n) l)) = @nil (N * nat)).
  { clear. induction l as [|x l IH]; intros NI; cbn; auto. rewrite filter_app, IH by (intros H; apply NI; now right). cbn. destruct (Nat.eqb_spec x i); auto. destruct NI. now left. }
  induction l as [|x l IH]; cbn; auto. inversion ND; subst. rewrite filter_app, map_app. cbn [filter snd map]. unfold mem in *. cbn [existsb]. destruct (Nat.eqb_spec i x) as [->|N].
  - rewrite Q by auto. rewrite Nat.eqb_refl. reflexivity.
  - rewrite IH by auto. destruct (Nat.eqb_spec x i); [congruence|]. rewrite app_nil_r. reflexivity.
Qed.
(** A step seen from one trigger that is not touched. *)
Lemma step_one : forall s e s' i t, good s -> m_fin s = true -> m_start s = [] -> tame_ev e = true -> untouched i [e] = true -> tget s i = Some t -> step s e = Done s' ->
  m_fin s' = true /\ m_start s' = [] /\
  match e with
  | ETick => if t_active t && hit s i
             then cycles_of s' i = (m_tick s + 1) :: cycles_of s i
               /\ (exists t', tget s' i = Some t' /\ t_alive t' = t_alive t /\ t_active t' = (0 <? arms (t_cb t))%nat /\ t_fired t' = true)
             else cycles_of s' i = cycles_of s i /\ tget s' i = Some t
  | _ => cycles_of s' i = cycles_of s i /\ tget s' i = Some t
  end.
Proof.
  intros s e s' i t [TM I] F ST TE UT G E. destruct e as [o| | |]; cbn [step] in E.
  - destruct (exec_same _ _ _ E) as [A1 [A2 [A3 [A4 [A5 A6]]]]]. split; [congruence|]. split; [rewrite A4; auto|]. split; [unfold cycles_of; now rewrite A3|]. apply A6; auto.
    cbn in UT. rewrite andb_true_r in UT. now apply negb_true_iff.
  - injection E as <-. auto.
  - rewrite F, ST in E. cbn in E. injection E as <-. auto.
  - rewrite ST, F in E. assert (SL : m_stale s = false) by (unfold tick in E; cbn [m_stale] in E; destruct (m_stale s); [discriminate|auto]).
    destruct I as [I|I]; [congruence|]. destruct (tick_good s I TM F SL) as [s1 [l [E1 [I1 [TM1 [S1 [F1 [C1 [D1 [T1 [ND [HL [LG [KP [KE [FR _]]]]]]]]]]]]]]]].
    rewrite E in E1. injection E1 as <-. split; [auto|]. split; [congruence|].
    assert (CY : cycles_of s' i = if mem i l then (m_tick s + 1) :: cycles_of s i else cycles_of s i).
    { unfold cycles_of. rewrite LG, filter_app, map_app, cycles_tick by auto. destruct (mem i l); auto. }
    rewrite CY. pose proof (HL i) as HI. unfold active in HI. rewrite G in HI. destruct (t_active t && hit s i) eqn:B.
    + apply andb_true_iff in B. assert (IL : In i l) by tauto. pose proof IL as IL'. apply mem_iff in IL'. rewrite IL'. split; [auto|]. destruct (KE i t G) as [t' [G' [Q1 [Q2 Q3]]]]. exists t'.
      destruct (FR i IL) as [Z1 Z2]. unfold active, has_fired, rearms in *. rewrite G' in Z1, Z2. rewrite G in Z1. auto.
    + assert (NI : ~ In i l) by (rewrite HI; apply andb_false_iff in B; destruct B; intuition congruence). pose proof NI as NI'. apply mem_false in NI'. rewrite NI'. split; [auto|]. apply KP; auto.
Qed.
