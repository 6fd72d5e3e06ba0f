(** Lemmas about the scheduler model: the queue flattens to a list of pending
    occurrences in firing order, and the invariant of every execution. *)
From Coq Require Import List NArith Arith Bool Lia Sorted.
From Verif Require Import SchedModel.
Import ListNotations.
Open Scope N_scope.

(** ** Flattening *)
Definition entry : Type := N * nat * slot.
Definition e_t (x : entry) := fst (fst x).
Definition e_g (x : entry) := snd (fst x).
Definition e_s (x : entry) := snd x.

Definition klt (a b : N * nat) : Prop := fst a < fst b \/ (fst a = fst b /\ (snd a < snd b)%nat).
Definition kltb (a b : N * nat) : bool :=
  (fst a <? fst b) || ((fst a =? fst b) && Nat.ltb (snd a) (snd b)).

Lemma kltb_spec : forall a b, kltb a b = true <-> klt a b.
Proof.
  intros [a1 a2] [b1 b2]. unfold kltb, klt. simpl.
  rewrite orb_true_iff, andb_true_iff, N.ltb_lt, N.eqb_eq, Nat.ltb_lt. tauto.
Qed.
Lemma kltb_false : forall a b, kltb a b = false <-> ~ klt a b.
Proof. intros. rewrite <- kltb_spec. destruct (kltb a b); split; congruence. Qed.

Fixpoint fg (t : N) (k : nat) (gs : list (list slot)) : list entry :=
  match gs with
  | [] => []
  | g :: r => map (fun sl => (t, k, sl)) g ++ fg t (S k) r
  end.

Definition flat (qs : list quantum) : list entry :=
  flat_map (fun q => fg (q_tick q) 0 (q_groups q)) qs.

Fixpoint ins (x : entry) (l : list entry) : list entry :=
  match l with
  | [] => [x]
  | y :: r => if kltb (fst x) (fst y) then x :: l else y :: ins x r
  end.

Lemma ins_app_skip : forall x l1 l2,
  (forall y, In y l1 -> ~ klt (fst x) (fst y)) -> ins x (l1 ++ l2) = l1 ++ ins x l2.
Proof.
  induction l1; simpl; intros; auto.
  rewrite (proj2 (kltb_false _ _)) by auto. rewrite IHl1; auto.
Qed.
Lemma ins_hd : forall x l, (forall y, In y l -> klt (fst x) (fst y)) -> ins x l = x :: l.
Proof. destruct l; simpl; intros; auto. rewrite (proj2 (kltb_spec _ _)); auto. Qed.
Lemma ins_app_hd : forall x l1 l2,
  (forall y, In y l2 -> klt (fst x) (fst y)) -> ins x (l1 ++ l2) = ins x l1 ++ l2.
Proof.
  induction l1; simpl; intros; auto.
  - apply ins_hd; auto.
  - destruct (kltb (fst x) (fst a)); auto. rewrite IHl1; auto.
Qed.
Lemma ins_In : forall x l y, In y (ins x l) <-> y = x \/ In y l.
Proof.
  induction l; simpl; intros.
  - intuition.
  - destruct (kltb (fst x) (fst a)); simpl; rewrite ?IHl; intuition.
Qed.

Lemma fg_In : forall t gs k x,
  In x (fg t k gs) <-> e_t x = t /\ exists j, (j < length gs)%nat /\ e_g x = (k + j)%nat /\ In (e_s x) (nth j gs []).
Proof.
  induction gs; simpl; intros.
  - split; [easy|]. intros (_ & j & H & _). lia.
  - rewrite in_app_iff, in_map_iff, IHgs. split.
    + intros [(sl & <- & H)|(H1 & j & H2 & H3 & H4)].
      * unfold e_t, e_g, e_s; simpl. split; auto. exists 0%nat. split; [lia|]. split; [lia|auto].
      * split; auto. exists (S j). split; [lia|]. split; [lia|auto].
    + intros (H1 & [|j] & H2 & H3 & H4).
      * left. exists (e_s x). split; auto. destruct x as [[? ?] ?]; unfold e_t, e_g, e_s in *; simpl in *. subst.
        rewrite Nat.add_0_r. auto.
      * right. split; auto. exists j. split; [lia|]. split; [lia|auto].
Qed.

Lemma flat_In : forall qs x,
  In x (flat qs) <-> exists q, In q qs /\ q_tick q = e_t x /\ (e_g x < length (q_groups q))%nat
                               /\ In (e_s x) (nth (e_g x) (q_groups q) []).
Proof.
  intros. unfold flat. rewrite in_flat_map. split.
  - intros (q & H1 & H2). apply fg_In in H2. destruct H2 as (H2 & j & H3 & H4 & H5).
    simpl in H4. exists q. rewrite H4. auto.
  - intros (q & H1 & H2 & H3 & H4). exists q. split; auto. apply fg_In. split; auto. eauto.
Qed.

Lemma upd_length : forall {A} (l : list A) i x, length (upd l i x) = length l.
Proof. induction l; destruct i; simpl; intros; auto. Qed.
Lemma nth_upd : forall {A} (l : list A) i j x d,
  nth j (upd l i x) d = if (Nat.eqb j i && Nat.ltb i (length l))%bool then x else nth j l d.
Proof.
  induction l; intros.
  - simpl. destruct j; rewrite ?andb_false_r; auto.
  - destruct i, j; simpl; auto. rewrite IHl. reflexivity.
Qed.

Lemma fg_add : forall t sl gs g k, (g < length gs)%nat ->
  fg t k (upd gs g (nth g gs [] ++ [sl])) = ins (t, (k + g)%nat, sl) (fg t k gs).
Proof.
  induction gs; simpl; intros; [lia|]. destruct g; simpl.
  - rewrite map_app, <- app_assoc. rewrite ins_app_skip.
    + simpl. f_equal. rewrite ins_hd; [rewrite Nat.add_0_r; reflexivity|].
      intros y Hy. apply fg_In in Hy. destruct Hy as (H1 & j & _ & H2 & _).
      unfold klt, e_t, e_g in *. simpl. right. split; [auto|]. rewrite H2. lia.
    + intros y Hy. apply in_map_iff in Hy. destruct Hy as (s & <- & _). unfold klt; simpl. lia.
  - rewrite IHgs by lia. rewrite ins_app_skip.
    + do 2 f_equal. f_equal. f_equal. lia.
    + intros y Hy. apply in_map_iff in Hy. destruct Hy as (s & <- & _). unfold klt; simpl. lia.
Qed.

Lemma fg_repeat : forall t n k, fg t k (repeat [] n) = [].
Proof. induction n; simpl; auto. Qed.

Definition gvalid (c : cfg) (q : quantum) : Prop :=
  length (q_groups q) = group_count c /\
  (forall g, match q_first q with Some f => (g < f)%nat | None => True end ->
             nth g (q_groups q) [] = []).

Definition qlt (a b : quantum) : Prop := q_tick a < q_tick b.

Lemma q_create_fields : forall c p t q p', q_create c p t = (q, p') ->
  q_tick q = t /\ q_groups q = repeat [] (group_count c).
Proof. unfold q_create; intros. destruct p; injection H as <- <-; auto. Qed.

Lemma nth_repeat_nil : forall n g, nth g (repeat (@nil slot) n) [] = [].
Proof. induction n; destruct g; simpl; auto. Qed.

Lemma gvalid_add : forall c q g sl, gvalid c q -> (g < group_count c)%nat -> gvalid c (q_add q g sl).
Proof.
  intros c q g sl [H1 H2] Hg. split; simpl.
  - rewrite upd_length; auto.
  - intros j Hj. rewrite nth_upd.
    destruct (Nat.eqb_spec j g).
    + subst. exfalso. destruct (q_first q); simpl in *; lia.
    + simpl. apply H2. destruct (q_first q); simpl in *; auto. lia.
Qed.

Lemma gvalid_create : forall c p t q p', q_create c p t = (q, p') -> gvalid c q.
Proof.
  intros. apply q_create_fields in H. destruct H as [_ H]. split; rewrite H.
  - apply repeat_length.
  - intros. apply nth_repeat_nil.
Qed.

Lemma q_insert_ticks : forall c t g sl qs p q,
  In q (fst (q_insert c qs p t g sl)) -> q_tick q = t \/ exists q', In q' qs /\ q_tick q' = q_tick q.
Proof.
  induction qs; simpl; intros.
  - destruct (q_create c p t) eqn:E. apply q_create_fields in E. destruct E.
    simpl in H. destruct H as [<-|[]]; auto.
  - destruct (q_tick a =? t) eqn:E1; [|destruct (t <? q_tick a) eqn:E2].
    + simpl in H. destruct H as [<-|H]; eauto.
    + destruct (q_create c p t) eqn:E. apply q_create_fields in E. destruct E.
      simpl in H. destruct H as [<-|[<-|H]]; eauto.
    + destruct (q_insert c qs p t g sl) eqn:E. simpl in H. destruct H as [<-|H]; eauto.
      specialize (IHqs p q). rewrite E in IHqs. destruct (IHqs H) as [|(q' & ? & ?)]; eauto.
Qed.

Lemma q_insert_valid : forall c t g sl qs p, (g < group_count c)%nat ->
  Forall (gvalid c) qs -> Forall (gvalid c) (fst (q_insert c qs p t g sl)).
Proof.
  induction qs; simpl; intros.
  - destruct (q_create c p t) eqn:E. constructor; auto. apply gvalid_add; eauto using gvalid_create.
  - inversion H0; subst. destruct (q_tick a =? t) eqn:E1; [|destruct (t <? q_tick a) eqn:E2].
    + constructor; auto using gvalid_add.
    + destruct (q_create c p t) eqn:E. constructor; auto. apply gvalid_add; eauto using gvalid_create.
    + destruct (q_insert c qs p t g sl) eqn:E. constructor; auto.
      specialize (IHqs p H H4). rewrite E in IHqs. auto.
Qed.

Lemma q_insert_sorted : forall c t g sl qs p, StronglySorted qlt qs ->
  StronglySorted qlt (fst (q_insert c qs p t g sl)).
Proof.
  induction qs; intros p H.
  - simpl. destruct (q_create c p t) eqn:E. constructor; constructor.
  - simpl. inversion H; subst. rewrite Forall_forall in H3.
    destruct (q_tick a =? t) eqn:E1; [|destruct (t <? q_tick a) eqn:E2].
    + constructor; auto. apply Forall_forall. intros. unfold qlt; simpl. apply H3; auto.
    + destruct (q_create c p t) eqn:E. apply q_create_fields in E. destruct E as [E _].
      apply N.ltb_lt in E2. constructor; auto.
      apply Forall_forall. unfold qlt in *; simpl. intros x [<-|Hx]; [lia|]. apply H3 in Hx. lia.
    + pose proof (q_insert_ticks c t g sl qs p) as HT. specialize (IHqs p H2).
      destruct (q_insert c qs p t g sl) eqn:E. simpl in *. constructor; auto.
      apply N.eqb_neq in E1. apply N.ltb_ge in E2. apply Forall_forall. unfold qlt in *.
      intros x Hx. destruct (HT x Hx) as [|(q' & Hq & He)]; [lia|]. apply H3 in Hq. lia.
Qed.

Lemma q_insert_flat : forall c t g sl qs p, (g < group_count c)%nat ->
  Forall (gvalid c) qs -> StronglySorted qlt qs ->
  flat (fst (q_insert c qs p t g sl)) = ins (t, g, sl) (flat qs).
Proof.
  induction qs; intros p Hg Hv Hs.
  - simpl. destruct (q_create c p t) eqn:E. pose proof (q_create_fields _ _ _ _ _ E) as [E1 E2].
    simpl. rewrite E1, E2, fg_add by (rewrite repeat_length; auto). rewrite fg_repeat. reflexivity.
  - simpl. inversion Hv; subst. inversion Hs; subst. rewrite Forall_forall in H4.
    assert (Hrest : forall y, In y (flat qs) -> q_tick a < e_t y).
    { intros y Hy. apply flat_In in Hy. destruct Hy as (q & ? & <- & _). apply H4; auto. }
    destruct (q_tick a =? t) eqn:E1; [|destruct (t <? q_tick a) eqn:E2].
    + apply N.eqb_eq in E1. simpl. rewrite fg_add by (destruct H1 as [-> _]; auto).
      rewrite ins_app_hd.
      * rewrite E1. reflexivity.
      * intros y Hy. apply Hrest in Hy. unfold klt; simpl. unfold e_t in Hy. lia.
    + apply N.ltb_lt in E2. destruct (q_create c p t) eqn:E.
      pose proof (q_create_fields _ _ _ _ _ E) as [F1 F2]. simpl.
      rewrite F1, F2, fg_add by (rewrite repeat_length; auto). rewrite fg_repeat. simpl.
      change (fg (q_tick a) 0 (q_groups a) ++ flat qs) with (flat (a :: qs)).
      rewrite ins_hd; auto. intros y Hy. apply flat_In in Hy. destruct Hy as (q' & Hq & Ht & _).
      unfold klt; simpl. unfold e_t in Ht. left. rewrite <- Ht.
      destruct Hq as [<-|Hq]; auto. apply H4 in Hq. unfold qlt in Hq. lia.
    + apply N.eqb_neq in E1. apply N.ltb_ge in E2. specialize (IHqs p Hg H2 H3).
      destruct (q_insert c qs p t g sl) eqn:E. simpl in *. rewrite ins_app_skip.
      * rewrite IHqs. reflexivity.
      * intros y Hy. apply fg_In in Hy. destruct Hy as (Hy & _). unfold klt; simpl.
        unfold e_t in Hy. rewrite Hy. lia.
Qed.

(** ** Cancelling *)
Definition csl (e : ev) (sl : slot) : slot :=
  match sl_ev sl with
  | Some x => if ev_eqb x e then mkSlot None (sl_id sl) else sl
  | None => sl end.
Definition centry (c : cfg) (e : ev) (P : N -> bool) (x : entry) : entry :=
  if (Nat.eqb (e_g x) (ev_group c e) && P (e_t x))%bool then (fst x, csl e (e_s x)) else x.

Lemma fg_cancel : forall c e t (P : N -> bool) gs g k, P t = true -> ev_group c e = (k + g)%nat ->
  fg t k (upd gs g (cancel_slots e (nth g gs []))) = map (centry c e P) (fg t k gs).
Proof.
  induction gs; simpl; intros g k HP Hg; auto. rewrite map_app, map_map. destruct g; simpl.
  - apply (f_equal2 (@app entry)).
    + unfold cancel_slots. rewrite map_map. apply map_ext. intros sl. unfold centry, e_g, e_t, e_s; simpl.
      rewrite Hg, Nat.add_0_r, Nat.eqb_refl, HP. reflexivity.
    + rewrite <- map_id at 1. apply map_ext_in. intros x Hx. apply fg_In in Hx.
      destruct Hx as (_ & j & _ & Hj & _). unfold centry. rewrite Hj, Hg.
      replace (Nat.eqb (S k + j) (k + 0)) with false; auto. symmetry. apply Nat.eqb_neq. lia.
  - apply (f_equal2 (@app entry)).
    + apply map_ext. intros sl. unfold centry, e_g; simpl. rewrite Hg.
      replace (Nat.eqb k (k + S g)) with false; auto. symmetry. apply Nat.eqb_neq. lia.
    + apply IHgs; auto. lia.
Qed.

Lemma centry_ext : forall c e P Q x, P (e_t x) = Q (e_t x) -> centry c e P x = centry c e Q x.
Proof. intros. unfold centry. rewrite H. reflexivity. Qed.
Lemma centry_no : forall c e (P : N -> bool) x, P (e_t x) = false -> centry c e P x = x.
Proof. intros. unfold centry. rewrite H, andb_false_r. reflexivity. Qed.

Lemma flat_cancel_gen : forall c e (P : N -> bool) qs,
  flat (map (fun q => if P (q_tick q) then cancel_q c e q else q) qs) = map (centry c e P) (flat qs).
Proof.
  induction qs; simpl; auto. rewrite map_app, <- IHqs. unfold flat. f_equal.
  destruct (P (q_tick a)) eqn:E.
  - simpl. rewrite (fg_cancel c e (q_tick a) P); auto.
  - rewrite <- map_id at 1. apply map_ext_in. intros x Hx. apply fg_In in Hx. destruct Hx as (Hx & _).
    symmetry. apply centry_no. rewrite Hx. auto.
Qed.

Lemma flat_cancel : forall c e qs,
  flat (map (cancel_q c e) qs) = map (centry c e (fun _ => true)) (flat qs).
Proof. intros. rewrite <- flat_cancel_gen. reflexivity. Qed.

Lemma centry_key : forall c e P x, fst (centry c e P x) = fst x.
Proof. intros. unfold centry. destruct (_ && _)%bool; auto. Qed.
Lemma centry_id : forall c e P x, sl_id (e_s (centry c e P x)) = sl_id (e_s x).
Proof.
  intros. unfold centry. destruct (_ && _)%bool; auto. unfold csl, e_s; simpl.
  destruct (sl_ev (snd x)); auto. destruct (ev_eqb e0 e); auto.
Qed.

Lemma ev_eqb_eq : forall a b, ev_eqb a b = true <-> a = b.
Proof.
  destruct a, b; simpl; split; intros; try discriminate; auto.
  - apply Nat.eqb_eq in H. subst. auto.
  - injection H as ->. apply Nat.eqb_refl.
Qed.

Lemma centry_some : forall c e P x x',
  sl_ev (e_s (centry c e P x)) = Some x' -> centry c e P x = x /\ sl_ev (e_s x) = Some x' /\
   (e_g x = ev_group c x' -> P (e_t x) = true -> x' <> e).
Proof.
  intros c e P x x'. unfold centry. destruct (_ && _)%bool eqn:E.
  - unfold csl, e_s; simpl. destruct (sl_ev (snd x)) eqn:E1.
    + destruct (ev_eqb e0 e) eqn:E2; simpl; [discriminate|]. intros H. rewrite E1 in H.
      injection H as ->. destruct x; simpl in *. split; auto. split; auto.
      intros _ _ ->. rewrite (proj2 (ev_eqb_eq e e)) in E2; congruence.
    + rewrite E1. discriminate.
  - intros H. split; auto. split; auto. intros HG HP ->. rewrite HG, HP, Nat.eqb_refl in E. discriminate.
Qed.

Lemma gvalid_cancel : forall c e q, gvalid c q -> gvalid c (cancel_q c e q).
Proof.
  intros c e q [H1 H2]. split; simpl.
  - rewrite upd_length; auto.
  - intros g Hg. rewrite nth_upd. destruct (_ && _)%bool eqn:E; auto.
    apply andb_prop in E. destruct E as [E _]. apply Nat.eqb_eq in E. subst g.
    rewrite H2; auto.
Qed.

Lemma cancel_q_empty : forall c e q g, nth g (q_groups q) [] = [] -> nth g (q_groups (cancel_q c e q)) [] = [].
Proof.
  intros. simpl. rewrite nth_upd. destruct (_ && _)%bool eqn:E; auto.
  apply andb_prop in E. destruct E as [E _]. apply Nat.eqb_eq in E. subst. rewrite H. auto.
Qed.
Lemma cancel_q_len : forall c e q g, length (nth g (q_groups (cancel_q c e q)) []) = length (nth g (q_groups q) []).
Proof.
  intros. simpl. rewrite nth_upd. destruct (_ && _)%bool eqn:E; auto.
  apply andb_prop in E. destruct E as [E _]. apply Nat.eqb_eq in E. subst. apply map_length.
Qed.

(** ** Pending occurrences *)
Definition done (s : sched) : nat :=
  match s_ctl s with Scan => s_idx s | Handler => S (s_idx s) | _ => 0%nat end.
Definition pend (s : sched) : list entry := skipn (done s) (flat (s_queue s)).

Definition elt (a b : entry) : Prop :=
  klt (fst a) (fst b) \/ (fst a = fst b /\ (sl_id (e_s a) < sl_id (e_s b))%nat).

Lemma klt_irrefl : forall a, ~ klt a a.
Proof. unfold klt. intros [a b]; simpl. lia. Qed.
Lemma klt_trans : forall a b d, klt a b -> klt b d -> klt a d.
Proof. unfold klt. intros [] [] []; simpl. lia. Qed.
Lemma not_klt : forall a b, ~ klt a b -> klt b a \/ a = b.
Proof.
  unfold klt. intros [a1 a2] [b1 b2] H; simpl in *.
  destruct (N.lt_trichotomy a1 b1) as [|[|]]; try (left; lia).
  subst. destruct (Nat.lt_trichotomy a2 b2) as [|[|]]; try (left; lia). subst; auto.
Qed.
Lemma elt_trans : forall a b d, elt a b -> elt b d -> elt a d.
Proof.
  unfold elt. intros a b d [H|[H1 H2]] [K|[K1 K2]].
  - left. eapply klt_trans; eauto.
  - left. rewrite <- K1. auto.
  - left. rewrite H1. auto.
  - right. split; congruence || lia.
Qed.
Lemma elt_id_neq : forall a b, elt a b -> a <> b.
Proof. intros a b [H|[H H1]] ->. - eapply klt_irrefl; eauto. - lia. Qed.

Lemma ins_sorted : forall x l, StronglySorted elt l ->
  Forall (fun y => (sl_id (e_s y) < sl_id (e_s x))%nat) l -> StronglySorted elt (ins x l).
Proof.
  induction l; simpl; intros H H0.
  - repeat constructor.
  - inversion H; inversion H0; subst. destruct (kltb (fst x) (fst a)) eqn:E.
    + apply kltb_spec in E. constructor; auto. constructor; [left; auto|].
      eapply Forall_impl; [|exact H4]. intros b Hb. eapply elt_trans; [left; eauto|auto].
    + apply kltb_false in E. constructor; auto. apply Forall_forall. intros y Hy.
      apply ins_In in Hy. destruct Hy as [->|Hy].
      * apply not_klt in E. destruct E; [left; auto|right; split; auto].
      * rewrite Forall_forall in H4. auto.
Qed.

Lemma map_sorted : forall c e P l, StronglySorted elt l -> StronglySorted elt (map (centry c e P) l).
Proof.
  induction 1; simpl; constructor; auto. apply Forall_map. eapply Forall_impl; [|eauto].
  intros b Hb. unfold elt in *. rewrite !centry_key, !centry_id. auto.
Qed.

Lemma skipn_ins : forall n x l, (n <= length l)%nat ->
  (forall y, In y (firstn n l) -> ~ klt (fst x) (fst y)) -> skipn n (ins x l) = ins x (skipn n l).
Proof.
  intros. rewrite <- (firstn_skipn n l) at 1. rewrite ins_app_skip by auto.
  rewrite skipn_app, skipn_all2 by (rewrite firstn_length; lia).
  rewrite firstn_length, Nat.min_l, Nat.sub_diag by auto. reflexivity.
Qed.

Lemma skipn_sorted : forall n (l : list entry), StronglySorted elt l -> StronglySorted elt (skipn n l).
Proof. induction n; simpl; intros; auto. destruct l; auto. inversion H; auto. Qed.
Lemma skipn_In : forall {A} n (l : list A) x, In x (skipn n l) -> In x l.
Proof. intros. rewrite <- (firstn_skipn n l). apply in_app_iff. auto. Qed.
Lemma firstn_In : forall {A} n (l : list A) x, In x (firstn n l) -> In x l.
Proof. intros. rewrite <- (firstn_skipn n l). apply in_app_iff. auto. Qed.

(** Leading empty groups vanish in the flattening. *)
Lemma fg_prefix : forall t gs g k, (forall j, (j < g)%nat -> nth j gs [] = []) -> (g < length gs)%nat ->
  exists r, fg t k gs = map (fun sl => (t, (k + g)%nat, sl)) (nth g gs []) ++ r /\
            forall y, In y r -> e_t y = t /\ (k + g < e_g y)%nat.
Proof.
  induction gs; simpl; intros g k H H0; [lia|]. destruct g.
  - exists (fg t (S k) gs). rewrite Nat.add_0_r. split; auto. intros y Hy.
    apply fg_In in Hy. destruct Hy as (? & j & ? & ? & ?). split; auto. lia.
  - pose proof (H 0%nat ltac:(lia)). simpl in H1. subst a. simpl.
    destruct (IHgs g (S k)) as (r & E & Hr).
    + intros. apply (H (S j)). lia.
    + lia.
    + exists r. replace (k + S g)%nat with (S k + g)%nat by lia. auto.
Qed.

Lemma fg_empty : forall t gs k, (forall j, nth j gs [] = []) -> fg t k gs = [].
Proof.
  induction gs; simpl; intros; auto. pose proof (H 0%nat). simpl in H0. subst. simpl.
  apply IHgs. intros. apply (H (S j)).
Qed.

(** ** Log *)
Fixpoint recent (l : list obs) : list obs :=
  match l with
  | [] => []
  | ORestart _ :: _ => []
  | o :: r => o :: recent r
  end.

Definition kills (e : ev) (t : N) (o : obs) : Prop := o = OCancel e \/ o = OCancelAt e t \/ o = OClear.

Definition alive_log (l : list obs) (id : nat) (e : ev) (t : N) (g : nat) : Prop :=
  exists l2 l1, l = l2 ++ OSched id e t g :: l1 /\
    (forall o, In o l2 -> ~ kills e t o) /\
    (forall e' t' g', ~ In (OFire id e' t' g') l2).

Definition fired_key_ok (s : sched) (t : N) (g : nat) : Prop :=
  match s_ctl s with
  | Idle => t < s_tick s
  | LoopHead => t <= s_tick s /\ Forall (fun q => t < q_tick q) (s_queue s)
  | Scan | Handler => t < s_tick s \/ (t = s_tick s /\ (g <= s_grp s)%nat)
  | Crashed => True
  end.

Definition ctl_ok (c : cfg) (s : sched) : Prop :=
  match s_ctl s with
  | Idle => s_grp s = 0%nat
  | LoopHead => (s_running s = false -> Forall (fun q => s_tick s < q_tick q) (s_queue s)) /\
                (s_running s = true -> s_queue s <> [])
  | Scan => exists q rest, s_queue s = q :: rest /\ q_tick q = s_tick s /\
              (forall g, (g < s_grp s)%nat -> nth g (q_groups q) [] = []) /\
              (s_idx s <= length (nth (s_grp s) (q_groups q) []))%nat
  | Handler => exists q rest, s_queue s = q :: rest /\ q_tick q = s_tick s /\
              (forall g, (g < s_grp s)%nat -> nth g (q_groups q) [] = []) /\
              (s_idx s < length (nth (s_grp s) (q_groups q) []))%nat
  | Crashed => True
  end.

Record Inv (c : cfg) (s : sched) : Prop := {
  I_q : Forall (gvalid c) (s_queue s);
  I_sorted : StronglySorted qlt (s_queue s);
  I_ge : Forall (fun q => s_tick s <= q_tick q) (s_queue s);
  I_ctl : ctl_ok c s;
  I_elt : StronglySorted elt (flat (s_queue s));
  I_ids : Forall (fun x => (sl_id (e_s x) < s_next s)%nat) (flat (s_queue s));
  I_grp : forall x e, In x (flat (s_queue s)) -> sl_ev (e_s x) = Some e -> e_g x = ev_group c e;
  I_fkey : forall id e t g, In (OFire id e t g) (recent (s_log s)) -> fired_key_ok s t g;
  I_fpend : forall id e t g x, In (OFire id e t g) (recent (s_log s)) -> In x (pend s) ->
              elt (t, g, mkSlot (Some e) id) x;
  I_logid : forall id e t g, In (OSched id e t g) (s_log s) -> (id < s_next s)%nat;
  I_alive : forall x e, In x (pend s) -> sl_ev (e_s x) = Some e ->
              alive_log (s_log s) (sl_id (e_s x)) e (e_t x) (e_g x);
  I_complete : forall id e t g l2 l1, s_log s = l2 ++ OSched id e t g :: l1 ->
      In (OFire id e t g) l2 \/ (exists o, In o l2 /\ kills e t o) \/
      (s_ctl s = Crashed) \/ In (t, g, mkSlot (Some e) id) (pend s);
  I_fired : forall l2 l1 id e t g, s_log s = l2 ++ OFire id e t g :: l1 -> alive_log l1 id e t g;
  I_order : forall l3 l2 l1 i1 e1 t1 g1 i2 e2 t2 g2,
      s_log s = l3 ++ OFire i2 e2 t2 g2 :: l2 ++ OFire i1 e1 t1 g1 :: l1 ->
      (forall t, ~ In (ORestart t) l2) ->
      elt (t1, g1, mkSlot (Some e1) i1) (t2, g2, mkSlot (Some e2) i2);
  I_schedids : forall l2 l1 id e t g, s_log s = l2 ++ OSched id e t g :: l1 ->
      forall id' e' t' g', In (OSched id' e' t' g') l1 -> (id' < id)%nat
}.

Lemma init_inv : forall c, Inv c init.
Proof.
  intros. constructor; simpl; try (intros; easy); try (constructor; fail);
    try (intros; match goal with H : [] = ?l ++ _ |- _ => destruct l; discriminate end).
Qed.

(** Adding an observation that is neither a fire, a schedule nor a kill. *)
Definition dull (o : obs) : Prop :=
  match o with OAbsorb _ _ | ORefuse _ _ => True | _ => False end.

Lemma cons_split : forall {A} (o : A) l l2 x l1, o :: l = l2 ++ x :: l1 ->
  (l2 = [] /\ o = x /\ l = l1) \/ exists l2', l2 = o :: l2' /\ l = l2' ++ x :: l1.
Proof.
  intros. destruct l2; simpl in H; injection H as -> ->; eauto.
Qed.

Lemma alive_cons : forall o l id e t g,
  ~ kills e t o -> (forall e' t' g', o <> OFire id e' t' g') ->
  alive_log l id e t g -> alive_log (o :: l) id e t g.
Proof.
  intros o l id e t g Hk Hf (l2 & l1 & -> & H1 & H2).
  exists (o :: l2), l1. split; [reflexivity|]. split.
  - intros o' [<-|H]; auto.
  - intros e' t' g' [H|H]; [eapply Hf; eauto|eapply H2; eauto].
Qed.

Lemma note_dull_inv : forall c s o, dull o -> Inv c s -> Inv c (note s o).
Proof.
  intros c s o Hd I. destruct I.
  assert (Hr : recent (o :: s_log s) = o :: recent (s_log s)) by (destruct o; easy).
  constructor; simpl in *; auto.
  - intros. rewrite Hr in H. destruct H as [->|H]; [easy|]. eapply I_fkey0; eauto.
  - intros. rewrite Hr in H. destruct H as [->|H]; [easy|]. eapply I_fpend0; eauto.
  - intros. destruct H as [->|H]; [easy|]. eapply I_logid0; eauto.
  - intros. apply alive_cons; [|intros ? ? ? ->; easy|auto].
    intros [->|[->| ->]]; easy.
  - intros. apply cons_split in H. destruct H as [(_ & -> & _)|(l2' & -> & H)]; [easy|].
    destruct (I_complete0 _ _ _ _ _ _ H) as [|[(o' & ? & ?)|[|]]]; simpl; eauto 6.
  - intros. apply cons_split in H. destruct H as [(_ & -> & _)|(l2' & -> & H)]; [easy|]. eauto.
  - intros. apply cons_split in H. destruct H as [(_ & -> & _)|(l2' & -> & H)]; [easy|]. eauto.
  - intros l2 l1 id e t g H. apply cons_split in H. destruct H as [(_ & -> & _)|(l2' & -> & H)]; [easy|]. eauto.
Qed.

(** [done] entries at the front of the flattening carry the current key. *)
Lemma done_prefix : forall c s, Inv c s ->
  (done s <= length (flat (s_queue s)))%nat /\
  forall y, In y (firstn (done s) (flat (s_queue s))) -> fst y = (s_tick s, s_grp s).
Proof.
  intros c s I. destruct I. unfold done, ctl_ok in *.
  assert (HH : forall q rest n, s_queue s = q :: rest -> q_tick q = s_tick s ->
            (forall g, (g < s_grp s)%nat -> nth g (q_groups q) [] = []) ->
            (n <= length (nth (s_grp s) (q_groups q) []))%nat ->
            (n <= length (flat (s_queue s)))%nat /\
            forall y, In y (firstn n (flat (s_queue s))) -> fst y = (s_tick s, s_grp s)).
  { intros q rest n E Et Hg Hn.
    destruct (Nat.ltb_spec (s_grp s) (length (q_groups q))) as [L|L].
    - destruct (fg_prefix (q_tick q) (q_groups q) (s_grp s) 0 Hg L) as (r & Er & _).
      rewrite E. simpl. rewrite Er. split.
      + rewrite !app_length, map_length. lia.
      + rewrite <- app_assoc, firstn_app, map_length. simpl.
        replace (n - _)%nat with 0%nat by lia. simpl. rewrite app_nil_r. intros y Hy.
        apply firstn_In in Hy. apply in_map_iff in Hy. destruct Hy as (sl & <- & _). simpl. congruence.
    - rewrite (nth_overflow _ _ L) in Hn. simpl in Hn. replace n with 0%nat by lia. split; [lia|easy]. }
  destruct (s_ctl s); try (split; [lia|easy]).
  - destruct I_ctl0 as (q & rest & E & Et & Hg & Hn). eauto.
  - destruct I_ctl0 as (q & rest & E & Et & Hg & Hn). eapply HH; eauto.
Qed.

Lemma recent_cons : forall o l, (forall t, o <> ORestart t) -> recent (o :: l) = o :: recent l.
Proof. intros. destruct o; auto. exfalso. eapply H; eauto. Qed.

(** Acceptance of a new occurrence. *)
Lemma accept_inv : forall c s e rel qs p,
  Inv c s -> s_ctl s <> LoopHead -> s_ctl s <> Crashed ->
  (ev_group c e < group_count c)%nat ->
  ~ (rel = 0 /\ (ev_group c e < s_grp s)%nat) ->
  q_insert c (s_queue s) (s_pool s) (s_tick s + rel) (ev_group c e) (mkSlot (Some e) (s_next s)) = (qs, p) ->
  let s' := bump (note (set_queue s qs p) (OSched (s_next s) e (s_tick s + rel) (ev_group c e))) in
  Inv c s' /\ pend s' = ins (s_tick s + rel, ev_group c e, mkSlot (Some e) (s_next s)) (pend s).
Proof.
  intros c s e rel qs p I Hc1 Hc2 Hg Href Hins s'.
  pose proof (done_prefix c s I) as [Hdl Hdk]. pose proof I as I0. destruct I0.
  set (t := s_tick s + rel) in *. set (g := ev_group c e) in *.
  set (x := (t, g, mkSlot (Some e) (s_next s)) : entry).
  assert (Eqs : qs = fst (q_insert c (s_queue s) (s_pool s) t g (mkSlot (Some e) (s_next s)))) by (rewrite Hins; auto).
  assert (Hflat : flat qs = ins x (flat (s_queue s))).
  { subst qs. apply q_insert_flat; auto. }
  assert (Hkey : ~ klt (t, g) (s_tick s, s_grp s) ).
  { unfold klt; simpl. unfold t. intros [|[H1 H2]]; [lia|]. apply Href. split; [lia|auto]. }
  assert (Hpend : pend s' = ins x (pend s)).
  { unfold pend. replace (done s') with (done s) by reflexivity. simpl. rewrite Hflat.
    apply skipn_ins; auto. intros y Hy. rewrite (Hdk y Hy). exact Hkey. }
  split; [|exact Hpend].
  assert (Hfk : forall id e0 t0 g0, In (OFire id e0 t0 g0) (recent (s_log s)) -> elt (t0, g0, mkSlot (Some e0) id) x).
  { intros id e0 t0 g0 H. pose proof (I_fkey0 _ _ _ _ H) as K. unfold fired_key_ok in K.
    assert (Hid : (id < s_next s)%nat).
    { assert (In (OFire id e0 t0 g0) (s_log s)).
      { clear -H. induction (s_log s); simpl in *; auto. destruct a; simpl in H; intuition. }
      apply in_split in H0. destruct H0 as (a & b & E). destruct (I_fired0 _ _ _ _ _ _ E) as (l2 & l1 & El & _).
      eapply I_logid0. rewrite E, El. apply in_app_iff. right. right. apply in_app_iff. right. left. eauto. }
    unfold elt, klt, x; simpl. unfold klt in Hkey; simpl in Hkey.
    destruct (s_ctl s); try congruence.
    - left. left. unfold t. lia.
    - destruct (N.eq_dec t0 t); [|left; left; unfold t in *; destruct K; lia].
      destruct (Nat.eq_dec g0 g); [right; split; [congruence|auto]|]. left. right. split; auto.
      destruct K; [unfold t in *; lia|]. destruct H0. lia.
    - destruct (N.eq_dec t0 t); [|left; left; unfold t in *; destruct K; lia].
      destruct (Nat.eq_dec g0 g); [right; split; [congruence|auto]|]. left. right. split; auto.
      destruct K; [unfold t in *; lia|]. destruct H0. lia. }
  assert (Hctl : ctl_ok c s').
  { unfold ctl_ok in *. simpl. destruct (s_ctl s) eqn:EC; auto; try congruence.
    - destruct I_ctl0 as (q & rest & E & Et & Hgs & Hn).
      subst qs. rewrite E. simpl.
      destruct (q_tick q =? t) eqn:E1; [|destruct (t <? q_tick q) eqn:E2].
      + apply N.eqb_eq in E1. eexists. eexists. split; [reflexivity|]. simpl. split; auto.
        split.
        * intros j Hj. rewrite nth_upd. destruct (Nat.eqb_spec j g); [|apply Hgs; auto].
          subst j. exfalso. apply Href. split; [unfold t in E1; lia|auto].
        * rewrite nth_upd. destruct (_ && _)%bool eqn:EE; auto.
          apply andb_prop in EE. destruct EE as [EE _]. apply Nat.eqb_eq in EE. rewrite EE in *.
          rewrite app_length. lia.
      + apply N.ltb_lt in E2. unfold t in E2. lia.
      + destruct (q_insert c rest (s_pool s) t g {| sl_ev := Some e; sl_id := s_next s |}).
        simpl. eauto 8.
    - destruct I_ctl0 as (q & rest & E & Et & Hgs & Hn).
      subst qs. rewrite E. simpl.
      destruct (q_tick q =? t) eqn:E1; [|destruct (t <? q_tick q) eqn:E2].
      + apply N.eqb_eq in E1. eexists. eexists. split; [reflexivity|]. simpl. split; auto.
        split.
        * intros j Hj. rewrite nth_upd. destruct (Nat.eqb_spec j g); [|apply Hgs; auto].
          subst j. exfalso. apply Href. split; [unfold t in E1; lia|auto].
        * rewrite nth_upd. destruct (_ && _)%bool eqn:EE; auto.
          apply andb_prop in EE. destruct EE as [EE _]. apply Nat.eqb_eq in EE. rewrite EE in *.
          rewrite app_length. lia.
      + apply N.ltb_lt in E2. unfold t in E2. lia.
      + destruct (q_insert c rest (s_pool s) t g {| sl_ev := Some e; sl_id := s_next s |}).
        simpl. eauto 8. }
  constructor; simpl.
  - subst qs. apply q_insert_valid; auto.
  - subst qs. apply q_insert_sorted; auto.
  - apply Forall_forall. intros q Hq. subst qs. apply q_insert_ticks in Hq.
    rewrite Forall_forall in I_ge0. destruct Hq as [->|(q' & Hq' & <-)]; [unfold t; lia|auto].
  - exact Hctl.
  - rewrite Hflat. apply ins_sorted; auto.
  - rewrite Hflat. apply Forall_forall. intros y Hy. apply ins_In in Hy. destruct Hy as [->|Hy].
    + simpl. lia.
    + rewrite Forall_forall in I_ids0. apply I_ids0 in Hy. lia.
  - rewrite Hflat. intros y e0 Hy He. apply ins_In in Hy. destruct Hy as [->|Hy]; eauto.
    simpl in He. injection He as <-. reflexivity.
  - intros id e0 t0 g0 [H|H]; [discriminate|]. apply I_fkey0 in H. unfold fired_key_ok in *. simpl.
    destruct (s_ctl s); auto. congruence.
  - intros id e0 t0 g0 y [H|H] Hy; [discriminate|]. fold s' in Hy. rewrite Hpend in Hy.
    apply ins_In in Hy. destruct Hy as [->|Hy]; eauto.
  - intros id e0 t0 g0 [H|H].
    + injection H as <- <- <- <-. lia.
    + apply I_logid0 in H. lia.
  - intros y e0 Hy He. fold s' in Hy. rewrite Hpend in Hy.
    apply ins_In in Hy. destruct Hy as [->|Hy].
    + simpl in He. injection He as <-. exists [], (s_log s). split; [reflexivity|]. split; easy.
    + apply alive_cons; [|discriminate|auto].
      intros [H|[H|H]]; discriminate.
  - intros id e0 t0 g0 l2 l1 H. apply cons_split in H. destruct H as [(-> & H & _)|(l2' & -> & H)].
    + injection H as <- <- <- <-. right. right. right. fold s'. rewrite Hpend. apply ins_In. left; reflexivity.
    + destruct (I_complete0 _ _ _ _ _ _ H) as [|[(o' & ? & ?)|[|Hin]]]; simpl; eauto 6.
      right. right. right. fold s'. rewrite Hpend. apply ins_In. auto.
  - intros l2 l1 id e0 t0 g0 H. apply cons_split in H. destruct H as [(_ & H & _)|(l2' & -> & H)]; [discriminate|]. eauto.
  - intros l3 l2 l1 i1 e1 t1 g1 i2 e2 t2 g2 H HNR.
    apply cons_split in H. destruct H as [(_ & H & _)|(l2' & -> & H)]; [discriminate|]. eauto.
  - intros l2 l1 id e0 t0 g0 H. apply cons_split in H. destruct H as [(-> & H & H1)|(l2' & -> & H)].
    + injection H as <- <- <- <-. subst l1. intros. eauto.
    + eauto.
Qed.

Lemma set_finish_inv : forall c s f l, Inv c s -> Inv c (set_finish s f l).
Proof. intros c s f l I. destruct I. constructor; simpl in *; auto. Qed.
Lemma set_first_inv : forall c s f, Inv c s -> Inv c (set_first s f).
Proof. intros c s f I. destruct I. constructor; simpl in *; auto. Qed.
Lemma set_async_inv : forall c s f, Inv c s -> Inv c (set_async s f).
Proof. intros c s f I. destruct I. constructor; simpl in *; auto. Qed.
Lemma set_last_inv : forall c s f, Inv c s -> Inv c (set_last s f).
Proof. intros c s f I. destruct I. constructor; simpl in *; auto. Qed.
Lemma set_running_inv : forall c s f, Inv c s -> s_ctl s <> LoopHead -> Inv c (set_running s f).
Proof.
  intros c s f I H. destruct I. constructor; simpl in *; auto.
  unfold ctl_ok in *. simpl. destruct (s_ctl s); auto. congruence.
Qed.

(** Effect of scheduleEvent on the state, case by case. *)
Lemma schedule_event_cases : forall c s e rel cont uniq s' ok,
  schedule_event c s e rel (ev_gid c e) cont uniq = (s', ok) ->
  let g := ev_group c e in let t := s_tick s + rel in
  (ok = false /\ s' = note s (ORefuse e t) /\ ((rel = 0 /\ (g < s_grp s)%nat) \/ (group_count c <= g)%nat)) \/
  (ok = true /\ ~ (rel = 0 /\ (g < s_grp s)%nat) /\ (g < group_count c)%nat /\
   exists s1, (s' = s1 \/ exists f l, s' = set_finish s1 f l) /\
     ((uniq = true /\ s1 = note s (OAbsorb e t) /\
       exists q, q_find (s_queue s) t = Some q /\ has_ev (nth g (q_groups q) []) e = true) \/
      ((uniq = true -> forall q, q_find (s_queue s) t = Some q -> has_ev (nth g (q_groups q) []) e = false) /\
       exists qs p, q_insert c (s_queue s) (s_pool s) t g (mkSlot (Some e) (s_next s)) = (qs, p) /\
         s1 = bump (note (set_queue s qs p) (OSched (s_next s) e t g))))).
Proof.
  intros c s e rel cont uniq s' ok H g t. unfold schedule_event in H. fold (ev_group c e) in H. fold g t in H.
  destruct ((rel =? 0) && Nat.ltb g (s_grp s))%bool eqn:E1.
  { injection H as <- <-. left. apply andb_prop in E1. rewrite N.eqb_eq, Nat.ltb_lt in E1. auto. }
  destruct (Nat.ltb g (group_count c)) eqn:E2; simpl in H.
  2:{ injection H as <- <-. left. apply Nat.ltb_ge in E2. auto. }
  right. apply Nat.ltb_lt in E2.
  assert (E1' : ~ (rel = 0 /\ (g < s_grp s)%nat)).
  { intros [-> L]. apply Nat.ltb_lt in L. rewrite L in E1. discriminate. }
  destruct (uniq && match q_find (s_queue s) t with Some q => has_ev (nth g (q_groups q) []) e | None => false end)%bool eqn:E3.
  - injection H as <- <-. split; auto. split; auto. split; auto.
    exists (note s (OAbsorb e t)). split; [destruct cont; eauto|].
    left. apply andb_prop in E3. destruct E3 as [-> E3]. split; auto. split; auto.
    destruct (q_find (s_queue s) t); [eauto|discriminate].
  - destruct (q_insert c (s_queue s) (s_pool s) t g (mkSlot (Some e) (s_next s))) as [qs p] eqn:E4.
    injection H as <- <-. split; auto. split; auto. split; auto.
    eexists. split; [destruct cont; [right; eexists; eexists; reflexivity|left; reflexivity]|].
    right. split; [|eauto].
    intros -> q Hq. rewrite Hq in E3. exact E3.
Qed.

Lemma schedule_event_inv : forall c s e rel cont uniq s' ok,
  Inv c s -> s_ctl s <> LoopHead -> s_ctl s <> Crashed ->
  schedule_event c s e rel (ev_gid c e) cont uniq = (s', ok) -> Inv c s'.
Proof.
  intros c s e rel cont uniq s' ok I H1 H2 H. apply schedule_event_cases in H.
  destruct H as [(_ & -> & _)|(_ & Hr & Hg & s1 & Hs & [(_ & -> & _)|(_ & qs & p & Hi & ->)])].
  - apply note_dull_inv; simpl; auto.
  - assert (Inv c (note s (OAbsorb e (s_tick s + rel)))) by (apply note_dull_inv; simpl; auto).
    destruct Hs as [->|(f & l & ->)]; auto using set_finish_inv.
  - pose proof (accept_inv c s e rel qs p I H1 H2 Hg Hr Hi) as [K _].
    destruct Hs as [->|(f & l & ->)]; auto using set_finish_inv.
Qed.

Lemma schedule_event_frame : forall c s e rel cont uniq s' ok,
  schedule_event c s e rel (ev_gid c e) cont uniq = (s', ok) ->
  s_ctl s' = s_ctl s /\ s_tick s' = s_tick s /\ s_grp s' = s_grp s /\ s_idx s' = s_idx s /\
  s_running s' = s_running s /\ s_elapsed s' = s_elapsed s /\ s_async s' = s_async s /\ s_last s' = s_last s /\
  s_first s' = s_first s.
Proof.
  intros. apply schedule_event_cases in H.
  destruct H as [(_ & -> & _)|(_ & Hr & Hg & s1 & Hs & [(_ & -> & _)|(_ & qs & p & Hi & ->)])];
    [|destruct Hs as [->|(f & l & ->)]|destruct Hs as [->|(f & l & ->)]]; simpl; auto 10.
Qed.

(** Cancelling keeps the invariant. *)
Lemma cancel_gen_inv : forall c s e (P : N -> bool) o,
  Inv c s -> (o = OCancel e /\ (forall t, P t = true) \/ exists t, o = OCancelAt e t /\ forall u, P u = true <-> u = t) ->
  let s' := note (set_queue s (map (fun q => if P (q_tick q) then cancel_q c e q else q) (s_queue s)) (s_pool s)) o in
  Inv c s' /\ pend s' = map (centry c e P) (pend s).
Proof.
  intros c s e P o I Ho s'.
  assert (Hkill : forall e' t', kills e' t' o <-> (e' = e /\ P t' = true)).
  { intros. unfold kills. destruct Ho as [[-> HP]|(t & -> & HP)].
    - split.
      + intros [H|[H|H]]; try discriminate. injection H as ->. auto.
      + intros [-> _]. auto.
    - split.
      + intros [H|[H|H]]; try discriminate. injection H as -> ->. split; auto. apply HP; auto.
      + intros [-> H]. apply HP in H. subst. auto. }
  assert (Hnf : forall a b d f, o <> OFire a b d f) by (intros; destruct Ho as [[-> _]|(? & -> & _)]; discriminate).
  assert (Hns : forall a b d f, o <> OSched a b d f) by (intros; destruct Ho as [[-> _]|(? & -> & _)]; discriminate).
  assert (Hnr : recent (o :: s_log s) = o :: recent (s_log s))
    by (apply recent_cons; intros; destruct Ho as [[-> _]|(? & -> & _)]; discriminate).
  simpl in Hnr. clear Ho. destruct I.
  set (F := fun q => if P (q_tick q) then cancel_q c e q else q) in *.
  assert (Hflat : flat (map F (s_queue s)) = map (centry c e P) (flat (s_queue s))) by apply flat_cancel_gen.
  assert (Hpend : pend s' = map (centry c e P) (pend s)).
  { unfold pend. replace (done s') with (done s) by reflexivity. simpl. rewrite Hflat. rewrite skipn_map. reflexivity. }
  assert (HFt : forall q, q_tick (F q) = q_tick q) by (intros; unfold F; destruct (P (q_tick q)); auto).
  assert (HFe : forall q g, nth g (q_groups q) [] = [] -> nth g (q_groups (F q)) [] = []).
  { intros. unfold F. destruct (P (q_tick q)); auto. apply cancel_q_empty; auto. }
  assert (HFl : forall q g, length (nth g (q_groups (F q)) []) = length (nth g (q_groups q) [])).
  { intros. unfold F. destruct (P (q_tick q)); auto. apply cancel_q_len. }
  split; [|exact Hpend]. constructor; simpl.
  - apply Forall_map. eapply Forall_impl; [|exact I_q0]. intros. unfold F. destruct (P _); auto using gvalid_cancel.
  - clear -I_sorted0 HFt. induction I_sorted0; simpl; constructor; auto.
    apply Forall_map. eapply Forall_impl; [|exact H]. unfold qlt. intros. rewrite !HFt. auto.
  - apply Forall_map. eapply Forall_impl; [|exact I_ge0]. intros. simpl. rewrite HFt. auto.
  - unfold ctl_ok in *. simpl. destruct (s_ctl s); auto.
    + destruct I_ctl0 as [A B]. split.
      * intros. apply Forall_map. eapply Forall_impl; [|apply A; auto]. simpl. intros. rewrite HFt. auto.
      * intros H. apply B in H. destruct (s_queue s); simpl; congruence.
    + destruct I_ctl0 as (q & rest & E & Et & Hgs & Hn). rewrite E. simpl. exists (F q), (map F rest).
      rewrite HFt. split; auto. split; auto. rewrite HFl. split; auto.
    + destruct I_ctl0 as (q & rest & E & Et & Hgs & Hn). rewrite E. simpl. exists (F q), (map F rest).
      rewrite HFt. split; auto. split; auto. rewrite HFl. split; auto.
  - rewrite Hflat. apply map_sorted; auto.
  - rewrite Hflat. apply Forall_map. eapply Forall_impl; [|exact I_ids0]. simpl. intros. rewrite centry_id. auto.
  - rewrite Hflat. intros x e0 Hx He. apply in_map_iff in Hx. destruct Hx as (y & <- & Hy).
    apply centry_some in He. destruct He as (Hy1 & Hy2 & _). rewrite Hy1. eauto.
  - intros id e0 t g H. rewrite Hnr in H. destruct H as [H|H]; [exfalso; eapply Hnf; eauto|].
    apply I_fkey0 in H. unfold fired_key_ok in *. simpl. destruct (s_ctl s); auto.
    destruct H. split; auto. apply Forall_map. eapply Forall_impl; [|exact H0]. simpl. intros. rewrite HFt. auto.
  - intros id e0 t g x H Hx. rewrite Hnr in H. destruct H as [H|H]; [exfalso; eapply Hnf; eauto|].
    fold s' in Hx. rewrite Hpend in Hx. apply in_map_iff in Hx. destruct Hx as (y & <- & Hy).
    pose proof (I_fpend0 _ _ _ _ _ H Hy) as K. unfold elt in *. rewrite centry_key, centry_id. auto.
  - intros id e0 t g [H|H]; [exfalso; eapply Hns; eauto|eauto].
  - intros x e0 Hx He. fold s' in Hx. rewrite Hpend in Hx. apply in_map_iff in Hx. destruct Hx as (y & <- & Hy).
    apply centry_some in He. destruct He as (Hy1 & Hy2 & Hy3). rewrite Hy1. apply alive_cons; auto.
    rewrite Hkill. intros [-> HP]. eapply Hy3; eauto. eapply I_grp0; eauto. unfold pend in Hy. eapply skipn_In; eauto.
  - intros id e0 t g l2 l1 H. apply cons_split in H. destruct H as [(_ & H & _)|(l2' & -> & H)]; [exfalso; eapply Hns; eauto|].
    destruct (I_complete0 _ _ _ _ _ _ H) as [|[(o' & ? & ?)|[|Hin]]]; simpl; eauto 6.
    set (x := (t, g, mkSlot (Some e0) id) : entry).
    destruct (centry c e P x) as [k sl] eqn:EC. destruct (sl_ev sl) eqn:ES.
    + right. right. right. fold s'. rewrite Hpend. apply in_map_iff. exists x. split; auto.
      pose proof (centry_some c e P x e1) as K. rewrite EC in K. simpl in K. destruct (K ES) as (K1 & _).
      rewrite EC. exact K1.
    + right. left. exists o. split; auto. apply Hkill.
      unfold centry in EC. destruct (_ && _)%bool eqn:EB.
      * apply andb_prop in EB. destruct EB as [_ EB]. split; auto.
        injection EC as _ EC. unfold csl in EC. simpl in EC. destruct (ev_eqb e0 e) eqn:EE.
        -- apply ev_eqb_eq in EE. auto.
        -- subst sl. discriminate.
      * unfold x in EC. injection EC as _ EC. subst sl. discriminate.
  - intros l2 l1 id e0 t g H. apply cons_split in H. destruct H as [(_ & H & _)|(l2' & -> & H)]; [exfalso; eapply Hnf; eauto|]. eauto.
  - intros l3 l2 l1 i1 e1 t1 g1 i2 e2 t2 g2 H HNR.
    apply cons_split in H. destruct H as [(_ & H & _)|(l2' & -> & H)]; [exfalso; eapply Hnf; eauto|]. eauto.
  - intros l2 l1 id e0 t g H. apply cons_split in H. destruct H as [(_ & H & _)|(l2' & -> & H)]; [exfalso; eapply Hns; eauto|]. eauto.
Qed.

Lemma cancel_event_inv : forall c s e, Inv c s ->
  Inv c (cancel_event c s e) /\ pend (cancel_event c s e) = map (centry c e (fun _ => true)) (pend s).
Proof. intros. apply (cancel_gen_inv c s e (fun _ => true)); auto. Qed.

Lemma cancel_event_at_inv : forall c s e rel, Inv c s ->
  Inv c (cancel_event_at c s e rel) /\
  pend (cancel_event_at c s e rel) = map (centry c e (fun u => u =? s_tick s + rel)) (pend s).
Proof.
  intros. apply (cancel_gen_inv c s e (fun u => u =? s_tick s + rel)); auto.
  right. exists (s_tick s + rel). split; auto. intros. apply N.eqb_eq.
Qed.

Lemma pend_set_async : forall s a, pend (set_async s a) = pend s.
Proof. reflexivity. Qed.

Lemma exec_cmd_inv : forall c s k, Inv c s -> s_ctl s <> LoopHead -> s_ctl s <> Crashed -> Inv c (exec_cmd c s k).
Proof.
  intros c s k I H1 H2. destruct k; simpl.
  - unfold schedule_user. destruct (_ && _)%bool.
    + apply note_dull_inv; simpl; auto.
    + destruct (schedule_event c s (User n) rel (c_gid c n) cont (c_uniq c n)) eqn:E. simpl.
      eapply (schedule_event_inv c s (User n)); eauto.
  - apply cancel_event_inv; auto.
  - apply cancel_event_at_inv; auto.
  - apply set_running_inv; auto.
  - apply set_async_inv; auto.
  - apply cancel_event_inv. apply set_async_inv; auto.
Qed.

Lemma exec_cmd_ctl : forall c s k, s_ctl (exec_cmd c s k) = s_ctl s.
Proof.
  intros. destruct k; simpl; auto. unfold schedule_user. destruct (_ && _)%bool; auto.
  destruct (schedule_event c s (User n) rel (c_gid c n) cont (c_uniq c n)) eqn:E. simpl.
  apply (schedule_event_frame c s (User n)) in E. tauto.
Qed.

Lemma clear_inv : forall c s, Inv c s -> s_ctl s = Idle -> Inv c (clear_events s).
Proof.
  intros c s I HC. destruct I. unfold ctl_ok, fired_key_ok in *. constructor; simpl; try (constructor; fail); try (unfold ctl_ok; simpl; rewrite HC in *; auto; fail).
  - easy.
  - intros id e t g [H|H]; [discriminate|]. apply I_fkey0 in H. unfold fired_key_ok. simpl. rewrite HC in *. auto.
  - intros. unfold pend in H0. unfold done in H0. simpl in H0. rewrite HC in H0. easy.
  - intros id e t g [H|H]; [discriminate|]. eauto.
  - intros. unfold pend in H. unfold done in H. simpl in H. rewrite HC in H. easy.
  - intros id e t g l2 l1 H. apply cons_split in H. destruct H as [(_ & H & _)|(l2' & -> & H)]; [discriminate|].
    right. left. exists OClear. split; [left; auto|]. unfold kills. auto.
  - intros l2 l1 id e t g H. apply cons_split in H. destruct H as [(_ & H & _)|(l2' & -> & H)]; [discriminate|]. eauto.
  - intros l3 l2 l1 i1 e1 t1 g1 i2 e2 t2 g2 H HNR.
    apply cons_split in H. destruct H as [(_ & H & _)|(l2' & -> & H)]; [discriminate|]. eauto.
  - intros l2 l1 id e t g H. apply cons_split in H. destruct H as [(_ & H & _)|(l2' & -> & H)]; [discriminate|]. eauto.
Qed.

Lemma restart_inv : forall c s t, Inv c s -> s_ctl s = Idle -> Inv c (restart_at s t).
Proof.
  intros c s t I HC. pose proof (clear_inv c s I HC) as I1. destruct I1. constructor; simpl in *; auto; try easy.
  - unfold ctl_ok in *; simpl in *. rewrite HC in *; auto.
  - intros id e u g [H|H]; [discriminate|]. apply I_logid0 with (1 := H).
  - intros x e H. exfalso. unfold pend, done in H. simpl in H. rewrite HC in H. easy.
  - intros id e u g l2 l1 H. apply cons_split in H. destruct H as [(_ & H & _)|(l2' & -> & H)]; [discriminate|].
    right. left. exists OClear. apply cons_split in H. destruct H as [(_ & H & _)|(l3 & -> & H)]; [discriminate|].
    split; [right; left; auto|]. unfold kills. auto.
  - intros l2 l1 id e u g H. apply cons_split in H. destruct H as [(_ & H & _)|(l2' & -> & H)]; [discriminate|]. eauto.
  - intros l3 l2 l1 i1 e1 t1 g1 i2 e2 t2 g2 H HNR.
    apply cons_split in H. destruct H as [(_ & H & _)|(l2' & -> & H)]; [discriminate|]. eauto.
  - intros l2 l1 id e u g H. apply cons_split in H. destruct H as [(_ & H & _)|(l2' & -> & H)]; [discriminate|]. eauto.
Qed.

(** Moving to another control point with the same pending list. *)
Lemma reposition_inv : forall c s s',
  Inv c s -> s_queue s' = s_queue s -> s_next s' = s_next s -> s_log s' = s_log s ->
  pend s' = pend s -> ctl_ok c s' -> Forall (fun q => s_tick s' <= q_tick q) (s_queue s') ->
  (s_ctl s = Crashed -> s_ctl s' = Crashed) ->
  (forall t g, fired_key_ok s t g -> fired_key_ok s' t g) -> Inv c s'.
Proof.
  intros c s s' I Hq Hn Hl Hp Hc Ht Hcr Hf. destruct I. constructor; rewrite ?Hq, ?Hn, ?Hl, ?Hp; auto.
  - rewrite <- Hq. auto.
  - intros. apply Hf. eauto.
  - intros id e t g l2 l1 H. destruct (I_complete0 _ _ _ _ _ _ H) as [|[|[|]]]; auto.
Qed.

Lemma run_end_inv : forall c s, Inv c s ->
  s_ctl s = LoopHead -> Forall (fun q => s_tick s < q_tick q) (s_queue s) -> Inv c (run_end s).
Proof.
  intros c s I HC HT. apply (reposition_inv c s); auto.
  - unfold pend, done. simpl. rewrite HC. reflexivity.
  - reflexivity.
  - simpl. eapply Forall_impl; [|exact HT]. simpl. intros. lia.
  - intros H; rewrite HC in H; discriminate.
  - unfold fired_key_ok. rewrite HC. simpl. intros t g [H _]. lia.
Qed.

Lemma ev_gid_stop : forall c, ev_gid c Stop = 0%nat. Proof. reflexivity. Qed.

Lemma enter_inv : forall c s f l, Inv c s -> s_ctl s = Idle ->
  (s_running s = true <-> s_queue s <> []) -> 
  Inv c (set_pos (set_finish s f l) (s_grp (set_finish s f l)) (s_idx (set_finish s f l)) LoopHead).
Proof.
  intros c s f l I HC HR. apply (reposition_inv c s); auto.
  - unfold pend, done. simpl. rewrite HC. reflexivity.
  - unfold ctl_ok. simpl. split.
    + intros H. destruct (s_queue s); [constructor|]. assert (s_running s = true) by (apply HR; discriminate). congruence.
    + intros H. apply HR; auto.
  - simpl. apply (I_ge c s I).
  - intros H; rewrite HC in H; discriminate.
  - unfold fired_key_ok. rewrite HC. simpl. intros t g H. split; [lia|].
    eapply Forall_impl; [|apply (I_ge c s I)]. simpl. intros. lia.
Qed.

Lemma q_insert_nonnil : forall c qs p t g sl, fst (q_insert c qs p t g sl) <> [].
Proof.
  destruct qs; simpl; intros.
  - destruct (q_create c p t). discriminate.
  - destruct (q_tick q =? t); [discriminate|]. destruct (t <? q_tick q).
    + destruct (q_create c p t). discriminate.
    + destruct (q_insert c qs p t g sl). discriminate.
Qed.

Lemma run_begin_inv : forall c s num ex, Inv c s -> s_ctl s = Idle -> Inv c (run_begin c s num ex).
Proof.
  intros c s num ex I HC. unfold run_begin.
  set (s0 := set_running (set_first s false) (match s_queue (set_first s false) with [] => false | _ :: _ => true end)).
  assert (I0 : Inv c s0).
  { unfold s0. apply set_running_inv; [apply set_first_inv; auto|]. simpl. congruence. }
  assert (HR : s_running s0 = true <-> s_queue s0 <> []).
  { simpl. destruct (s_queue s); split; intros; congruence. }
  destruct num as [n|].
  2:{ apply enter_inv; auto. }
  destruct n as [|n']; auto. remember (N.pos n') as n eqn:En. fold s0.
  destruct (match s_queue s0 with [] => true | q :: _ => s_tick s0 + n <? q_tick q end) eqn:EF.
  - destruct ex.
    + apply (reposition_inv c s); auto.
      * unfold ctl_ok; simpl. rewrite HC. pose proof (I_ctl c s I) as K. unfold ctl_ok in K. rewrite HC in K. auto.
      * simpl in *. destruct (s_queue s) eqn:EQ; [constructor|].
        apply N.ltb_lt in EF. pose proof (I_sorted c s I) as SS. rewrite EQ in SS. inversion SS; subst.
        constructor; [lia|]. eapply Forall_impl; [|eassumption]. unfold qlt. simpl. intros. lia.
      * unfold fired_key_ok. simpl. rewrite HC. intros. lia.
    + apply set_running_inv; auto. simpl. congruence.
  - destruct (schedule_event c s0 Stop (n - 1) 0 ex false) as [s1 ok] eqn:ES. simpl.
    pose proof (schedule_event_inv c s0 Stop (n-1) ex false s1 ok I0) as K.
    assert (Hs1 : Inv c s1). { apply K; auto; simpl; congruence. }
    pose proof (schedule_event_frame c s0 Stop (n-1) ex false s1 ok ES) as (F1 & F2 & F3 & F4 & F5 & _).
    apply enter_inv; auto.
    + rewrite F1. simpl. auto.
    + rewrite F5. simpl in EF |- *. destruct (s_queue s) as [|q0 qs0] eqn:EQ; [discriminate|].
      split; auto. intros _.
      apply (schedule_event_cases c s0 Stop) in ES.
      destruct ES as [(_ & -> & _)|(_ & _ & _ & sx & Hs & [(Hu & _)|(_ & qs & p & Hi & ->)])].
      * simpl. rewrite EQ. discriminate.
      * discriminate.
      * pose proof (q_insert_nonnil c (s_queue s0) (s_pool s0) (s_tick s0 + (n-1)) (ev_group c Stop) (mkSlot (Some Stop) (s_next s0))) as KK.
        rewrite Hi in KK. simpl in KK. destruct Hs as [->|(f & l & ->)]; simpl; auto.
Qed.

Lemma drain_inv : forall c l s s', Inv c s -> s_ctl s = Scan -> drain c s l = Some s' ->
  Inv c s' /\ s_ctl s' = Scan.
Proof.
  induction l as [|[[n rel] cont] r IH]; simpl; intros s s' I HC H.
  - injection H as <-. split; [apply set_async_inv; auto|auto].
  - destruct (schedule_event c s (User n) rel (c_gid c n) cont false) as [s1 ok] eqn:ES.
    destruct ok; [|discriminate].
    pose proof (schedule_event_inv c s (User n) rel cont false s1 true I) as K.
    pose proof (schedule_event_frame c s (User n) rel cont false s1 true ES) as (F1 & _).
    apply (IH s1); auto.
    + apply K; auto; congruence.
    + congruence.
Qed.

Lemma tick_begin_inv : forall c s, Inv c s -> s_ctl s = LoopHead -> Inv c (tick_begin c s).
Proof.
  intros c s I HC. unfold tick_begin. destruct (s_running s) eqn:ER.
  2:{ apply run_end_inv; auto. pose proof (I_ctl c s I) as K. unfold ctl_ok in K. rewrite HC in K. apply K; auto. }
  destruct (s_queue s) as [|q rest] eqn:EQ.
  { exfalso. pose proof (I_ctl c s I) as K. unfold ctl_ok in K. rewrite HC in K. destruct K as [_ K]. apply K; auto. }
  set (gf := match q_first q with Some f => f | None => group_count c end).
  set (s1 := set_pos (set_time s (q_tick q) (s_elapsed s + absdiff (q_tick q) (s_elapsed s))) gf 0 Scan).
  assert (GQ : gvalid c q) by (pose proof (I_q c s I) as K; rewrite EQ in K; inversion K; auto).
  assert (I1 : Inv c s1).
  { apply (reposition_inv c s); auto.
    - unfold pend, done; simpl. rewrite HC. reflexivity.
    - unfold ctl_ok; simpl. exists q, rest. split; auto. split; auto. split; [|lia].
      intros g Hg. apply GQ. unfold gf in Hg. destruct (q_first q); auto.
    - simpl. rewrite EQ. pose proof (I_sorted c s I) as SS. rewrite EQ in SS. inversion SS; subst.
      constructor; [lia|]. eapply Forall_impl; [|eassumption]. unfold qlt; simpl; intros; lia.
    - intros H; rewrite HC in H; discriminate.
    - unfold fired_key_ok. rewrite HC. simpl. intros t g [_ H]. rewrite EQ in H. inversion H; subst. auto. }
  change (s_async (set_pos (set_time s (q_tick q) (s_elapsed s + absdiff (q_tick q) (s_elapsed s))) gf 0 Scan)) with (s_async s1).
  fold s1. destruct (drain c s1 (s_async s1)) as [s2|] eqn:ED.
  - apply (drain_inv c (s_async s1) s1 s2); auto.
  - apply (reposition_inv c s1); auto.
    + unfold ctl_ok; reflexivity.
    + simpl. pose proof (I_ge c s1 I1) as K. simpl in K. auto.
    + intros. exact Logic.I.
Qed.

(** The head of the pending list is the slot the scan looks at. *)
Lemma scan_head : forall c s q rest sl, Inv c s -> s_ctl s = Scan -> s_queue s = q :: rest ->
  (s_grp s < group_count c)%nat ->
  nth_error (nth (s_grp s) (q_groups q) []) (s_idx s) = Some sl ->
  pend s = (s_tick s, s_grp s, sl) :: skipn (S (s_idx s)) (flat (s_queue s)).
Proof.
  intros c s q rest sl I HC EQ HG HN.
  pose proof (I_ctl c s I) as K. unfold ctl_ok in K. rewrite HC in K.
  destruct K as (q' & rest' & E & Et & Hgs & Hn). rewrite EQ in E. injection E as <- <-.
  assert (GQ : gvalid c q) by (pose proof (I_q c s I) as K; rewrite EQ in K; inversion K; auto).
  destruct (fg_prefix (q_tick q) (q_groups q) (s_grp s) 0 Hgs) as (r & Er & _).
  { destruct GQ as [-> _]; auto. }
  unfold pend, done. rewrite HC, EQ. simpl flat. rewrite Er. simpl plus.
  rewrite <- app_assoc. rewrite Et.
  assert (L : forall (l : list slot) n (tl : list entry), nth_error l n = Some sl ->
     skipn n (map (fun sl => (s_tick s, s_grp s, sl)) l ++ tl) = (s_tick s, s_grp s, sl) :: skipn (S n) (map (fun sl => (s_tick s, s_grp s, sl)) l ++ tl)).
  { induction l; destruct n; simpl; intros; try discriminate.
    - injection H as ->. reflexivity.
    - rewrite IHl; auto. }
  rewrite (L _ _ _ HN). reflexivity.
Qed.

Lemma recent_In : forall l o, In o (recent l) -> In o l.
Proof. induction l; simpl; auto. intros o H. destruct a; simpl in *; intuition. Qed.

Lemma app_split_first : forall (l3 l2 l1 : list obs) a b, 
  l3 ++ a :: l2 ++ b :: l1 = (l3 ++ a :: l2) ++ b :: l1.
Proof. intros. rewrite <- app_assoc. reflexivity. Qed.

(** Firing the head of the pending list. [s'] is the state after recording it. *)
Lemma fire_inv : forall c s s' sl e q rest,
  Inv c s -> s_ctl s = Scan -> s_queue s = q :: rest -> (s_grp s < group_count c)%nat ->
  nth_error (nth (s_grp s) (q_groups q) []) (s_idx s) = Some sl -> sl_ev sl = Some e ->
  s_queue s' = s_queue s -> s_next s' = s_next s -> s_tick s' = s_tick s -> s_grp s' = s_grp s ->
  s_log s' = OFire (sl_id sl) e (s_tick s) (s_grp s) :: s_log s ->
  ((s_ctl s' = Scan /\ s_idx s' = S (s_idx s)) \/ (s_ctl s' = Handler /\ s_idx s' = s_idx s)) ->
  Inv c s' /\ pend s = (s_tick s, s_grp s, sl) :: pend s'.
Proof.
  intros c s s' sl e q rest I HC EQ HG HN HE Hq Hn Ht Hg Hl Hcc.
  pose proof (scan_head c s q rest sl I HC EQ HG HN) as HP.
  assert (HP' : pend s = (s_tick s, s_grp s, sl) :: pend s').
  { rewrite HP. f_equal. unfold pend at 1, done. rewrite Hq. destruct Hcc as [[-> ->]|[-> ->]]; reflexivity. }
  clear HP. split; [|exact HP'].
  assert (HL : (s_idx s < length (nth (s_grp s) (q_groups q) []))%nat) by (apply nth_error_Some; congruence).
  pose proof (I_ctl c s I) as K. unfold ctl_ok in K. rewrite HC in K.
  destruct K as (q' & rest' & E & Et & Hgs & _). rewrite EQ in E. injection E as <- <-.
  assert (HSS : StronglySorted elt (pend s)) by (apply skipn_sorted; apply (I_elt c s I)).
  assert (Hin : In (s_tick s, s_grp s, sl) (pend s)) by (rewrite HP'; left; auto).
  assert (Hal : alive_log (s_log s) (sl_id sl) e (s_tick s) (s_grp s)).
  { apply (I_alive c s I _ e Hin HE). }
  assert (Hfst : forall x, In x (pend s') -> elt (s_tick s, s_grp s, sl) x).
  { rewrite HP' in HSS. inversion HSS; subst. rewrite Forall_forall in H2. auto. }
  assert (Hfk : forall t g, fired_key_ok s t g -> fired_key_ok s' t g).
  { unfold fired_key_ok. rewrite HC, Ht, Hg. destruct Hcc as [[-> _]|[-> _]]; auto. }
  pose proof I as I0. destruct I0. constructor; rewrite ?Hq, ?Hn, ?Hl; auto.
  - rewrite Ht. auto.
  - unfold ctl_ok. rewrite Hq, Ht, Hg. destruct Hcc as [[-> ->]|[-> ->]]; exists q, rest; split; auto; split; auto; split; auto; lia.
  - intros id e0 t g [H|H].
    + injection H as <- <- <- <-. unfold fired_key_ok. rewrite Ht, Hg. destruct Hcc as [[-> _]|[-> _]]; auto.
    + apply Hfk. eauto.
  - intros id e0 t g x [H|H] Hx.
    + injection H as <- <- <- <-. apply Hfst in Hx. exact Hx.
    + eapply I_fpend0; eauto. rewrite HP'. right; auto.
  - intros id e0 t g [H|H]; [discriminate|]. eauto.
  - intros x e0 Hx He. apply alive_cons.
    + intros [H|[H|H]]; discriminate.
    + intros e1 t1 g1 H. injection H as H _ _ _.
      pose proof (Hfst x Hx) as [Hk|[_ Hk]].
      * (* same id at two keys is impossible: both alive with the same id *)
        assert (Hx' : In x (pend s)) by (rewrite HP'; right; auto).
        pose proof (I_alive0 x e0 Hx' He) as (a2 & a1 & Ea & _).
        destruct Hal as (b2 & b1 & Eb & _). rewrite <- H in Ea.
        assert (EX : exists u, u = OSched (sl_id sl) e0 (e_t x) (e_g x)) by eauto.
        rewrite Ea in Eb.
        assert (HH : forall a2 b2 a1 b1 k x1 x2 x3 y1 y2 y3,
            a2 ++ OSched k x1 x2 x3 :: a1 = b2 ++ OSched k y1 y2 y3 :: b1 ->
            (forall l2 l1 id e t g, a2 ++ OSched k x1 x2 x3 :: a1 = l2 ++ OSched id e t g :: l1 ->
               forall id' e' t' g', In (OSched id' e' t' g') l1 -> (id' < id)%nat) ->
            (x1,x2,x3) = (y1,y2,y3)).
        { clear. intros a2 b2 a1 b1 k x1 x2 x3 y1 y2 y3 E HS.
          revert b2 E HS. induction a2; intros b2 E HS; destruct b2; simpl in *; injection E as E1 E2.
          - congruence.
          - exfalso. subst. assert (k < k)%nat; [|lia]. eapply (HS [] (b2 ++ OSched k y1 y2 y3 :: b1)); [reflexivity|]. apply in_app_iff. right. left. reflexivity.
          - exfalso. subst. assert (k < k)%nat; [|lia]. eapply (HS [] (a2 ++ OSched k x1 x2 x3 :: a1)); [reflexivity|]. apply in_app_iff. right. left. reflexivity.
          - subst. eapply IHa2; eauto. intros. eapply (HS (o :: l2)); [simpl; f_equal; eauto|eauto]. }
        assert (KK : (e0, e_t x, e_g x) = (e, s_tick s, s_grp s)).
        { eapply HH; [exact Eb|]. rewrite <- Ea. intros. eapply I_schedids0; eauto. }
        injection KK as K1 K2 K3. unfold klt in Hk. simpl in Hk. unfold e_t, e_g in K2, K3. destruct x as [[? ?] ?]; simpl in *. lia.
      * simpl in Hk. lia.
    + apply I_alive0; auto. rewrite HP'. right; auto.
  - intros id e0 t g l2 l1 H. apply cons_split in H. destruct H as [(_ & H & _)|(l2' & -> & H)]; [discriminate|].
    destruct (I_complete0 _ _ _ _ _ _ H) as [|[(o' & ? & ?)|[Hcr|Hin']]]; simpl; eauto 6.
    + rewrite HC in Hcr. discriminate.
    + rewrite HP' in Hin'. destruct Hin' as [Hin'|]; auto. left. left.
      injection Hin' as -> -> ->. simpl in *. congruence.
  - intros l2 l1 id e0 t g H. apply cons_split in H. destruct H as [(_ & H & <-)|(l2' & -> & H)]; eauto.
    injection H as <- <- <- <-. auto.
  - intros l3 l2 l1 i1 e1 t1 g1 i2 e2 t2 g2 H HNR.
    apply cons_split in H. destruct H as [(_ & H & H1)|(l2' & -> & H)]; eauto.
    injection H as <- <- <- <-.
    assert (Hi : In (OFire i1 e1 t1 g1) (recent (s_log s))).
    { rewrite H1. clear -HNR. induction l2; simpl; auto.
      assert (Hx : In (OFire i1 e1 t1 g1) (recent (l2 ++ OFire i1 e1 t1 g1 :: l1))).
      { apply IHl2. intros t Ht. eapply HNR. right. eauto. }
      destruct a; simpl; auto. exfalso. eapply HNR. left. reflexivity. }
    pose proof (I_fpend0 _ _ _ _ _ Hi Hin) as K. unfold elt in *. simpl in *. auto.
  - intros l2 l1 id e0 t g H. apply cons_split in H. destruct H as [(_ & H & _)|(l2' & -> & H)]; [discriminate|]. eauto.
Qed.

(** Skipping a cancelled slot. *)
Lemma skip_inv : forall c s sl q rest,
  Inv c s -> s_ctl s = Scan -> s_queue s = q :: rest -> (s_grp s < group_count c)%nat ->
  nth_error (nth (s_grp s) (q_groups q) []) (s_idx s) = Some sl -> sl_ev sl = None ->
  Inv c (set_pos s (s_grp s) (S (s_idx s)) Scan) /\ pend s = (s_tick s, s_grp s, sl) :: pend (set_pos s (s_grp s) (S (s_idx s)) Scan).
Proof.
  intros c s sl q rest I HC EQ HG HN HE.
  pose proof (scan_head c s q rest sl I HC EQ HG HN) as HP.
  set (s' := set_pos s (s_grp s) (S (s_idx s)) Scan).
  assert (HP' : pend s = (s_tick s, s_grp s, sl) :: pend s') by (rewrite HP; reflexivity).
  split; [|exact HP'].
  assert (HL : (s_idx s < length (nth (s_grp s) (q_groups q) []))%nat) by (apply nth_error_Some; congruence).
  pose proof (I_ctl c s I) as K. unfold ctl_ok in K. rewrite HC in K.
  destruct K as (q' & rest' & E & Et & Hgs & _). rewrite EQ in E. injection E as <- <-.
  destruct I. constructor; simpl; auto.
  - unfold ctl_ok; simpl. exists q, rest. auto.
  - intros. apply I_fkey0 in H. unfold fired_key_ok in *. rewrite HC in H. auto.
  - intros. eapply I_fpend0; eauto. rewrite HP'. right; auto.
  - intros. apply I_alive0; auto. rewrite HP'. right; auto.
  - intros id e0 t g l2 l1 H. 
    destruct (I_complete0 _ _ _ _ _ _ H) as [|[(o' & ? & ?)|[Hcr|Hin']]]; simpl; eauto 6.
    + rewrite HC in Hcr. discriminate.
    + rewrite HP' in Hin'. destruct Hin' as [Hin'|]; auto. injection Hin' as _ _ ->. simpl in HE. discriminate.
Qed.

(** End of a group. *)
Lemma next_group_inv : forall c s q rest,
  Inv c s -> s_ctl s = Scan -> s_queue s = q :: rest -> (s_grp s < group_count c)%nat ->
  nth_error (nth (s_grp s) (q_groups q) []) (s_idx s) = None ->
  let s' := set_pos (set_queue s (mkQ (q_tick q) (upd (q_groups q) (s_grp s) []) (q_first q) :: rest) (s_pool s))
                    (S (s_grp s)) 0 Scan in
  Inv c s' /\ pend s' = pend s.
Proof.
  intros c s q rest I HC EQ HG HN s'.
  pose proof (I_ctl c s I) as K. unfold ctl_ok in K. rewrite HC in K.
  destruct K as (q' & rest' & E & Et & Hgs & Hle). rewrite EQ in E. injection E as <- <-.
  assert (GQ : gvalid c q) by (pose proof (I_q c s I) as K; rewrite EQ in K; inversion K; auto).
  assert (Hidx : s_idx s = length (nth (s_grp s) (q_groups q) [])).
  { apply nth_error_None in HN. lia. }
  assert (Hf : forall t gs g k, (forall j, (j < g)%nat -> nth j gs [] = []) -> (g < length gs)%nat ->
      fg t k gs = map (fun sl => (t, (k + g)%nat, sl)) (nth g gs []) ++ fg t k (upd gs g [])).
  { clear. induction gs; simpl; intros g k H H0; [lia|]. destruct g; simpl.
    - rewrite Nat.add_0_r. reflexivity.
    - pose proof (H 0%nat ltac:(lia)) as H1. simpl in H1. subst a. simpl.
      rewrite (IHgs g (S k)); [|intros; apply (H (S j)); lia|lia].
      do 2 f_equal. replace (S k + g)%nat with (k + S g)%nat by lia. reflexivity. }
  assert (Hfl : flat (s_queue s) = map (fun sl => (q_tick q, s_grp s, sl)) (nth (s_grp s) (q_groups q) []) ++ flat (s_queue s')).
  { rewrite EQ. simpl. rewrite (Hf (q_tick q) (q_groups q) (s_grp s) 0%nat Hgs) by (destruct GQ as [-> _]; auto).
    rewrite <- app_assoc. reflexivity. }
  assert (Hp : pend s' = pend s).
  { unfold pend, done. rewrite HC, Hfl. simpl s_ctl. cbv iota.
    rewrite skipn_app, map_length, Hidx, Nat.sub_diag. rewrite (skipn_all2 (map _ _)) by (rewrite map_length; lia). reflexivity. }
  split; [|exact Hp].
  assert (Hsub : forall x, In x (flat (s_queue s')) -> In x (flat (s_queue s))).
  { intros. rewrite Hfl. apply in_app_iff; auto. }
  destruct I. constructor; auto.
  - simpl. rewrite EQ in I_q0. inversion I_q0; subst. constructor; auto. destruct GQ as [G1 G2].
    split; simpl; [rewrite upd_length; auto|]. intros g Hg. rewrite nth_upd. destruct (_ && _)%bool; auto.
  - simpl. rewrite EQ in I_sorted0. inversion I_sorted0; subst. constructor; auto.
  - simpl. rewrite EQ in I_ge0. inversion I_ge0; subst. constructor; auto.
  - unfold ctl_ok; simpl. eexists; eexists. split; [reflexivity|]. simpl. split; auto. split; [|lia].
    intros g Hg. rewrite nth_upd. destruct (Nat.eqb_spec g (s_grp s)).
    + subst. rewrite (proj2 (Nat.ltb_lt _ _)); [reflexivity|]. destruct GQ as [-> _]; auto.
    + simpl. apply Hgs. lia.
  - rewrite Hfl in I_elt0. revert I_elt0. clear. generalize (flat (s_queue s')) as r.
    generalize (map (fun sl => (q_tick q, s_grp s, sl)) (nth (s_grp s) (q_groups q) [])) as l.
    induction l; simpl; intros; auto. inversion I_elt0; subst; auto.
  - apply Forall_forall. intros x Hx. rewrite Forall_forall in I_ids0. apply (I_ids0 x); auto.
  - intros. apply I_fkey0 in H. unfold fired_key_ok in *. rewrite HC in H. simpl. destruct H as [|[]]; auto.
  - rewrite Hp. auto.
  - rewrite Hp. auto.
  - rewrite Hp. intros. destruct (I_complete0 _ _ _ _ _ _ H) as [|[|[Hcr|]]]; auto. rewrite HC in Hcr; discriminate.
Qed.

(** End of a tick. *)
Lemma tick_end_inv : forall c s, Inv c s -> s_ctl s = Scan -> (group_count c <= s_grp s)%nat -> Inv c (tick_end s).
Proof.
  intros c s I HC HG. unfold tick_end.
  pose proof (I_ctl c s I) as K. unfold ctl_ok in K. rewrite HC in K.
  destruct K as (q & rest & EQ & Et & Hgs & Hle). rewrite EQ.
  assert (GQ : gvalid c q) by (pose proof (I_q c s I) as K; rewrite EQ in K; inversion K; auto).
  destruct GQ as [GL _].
  assert (HE : forall j, nth j (q_groups q) [] = []).
  { intros. destruct (Nat.ltb_spec j (s_grp s)); auto. apply nth_overflow. lia. }
  rewrite HE in Hle. simpl in Hle.
  assert (Hidx : s_idx s = 0%nat) by lia.
  assert (Hfl : flat (s_queue s) = flat rest).
  { rewrite EQ. simpl. rewrite fg_empty; auto. }
  pose proof (I_sorted c s I) as SS. rewrite EQ in SS. inversion SS as [|? ? SS1 SS2]; subst.
  (* the state after popping the quantum, still inside run, seen as a loop head *)
  assert (HI : forall f l r, (r = true -> rest <> []) ->
    Inv c (set_running (set_pos (set_finish (set_queue s rest (s_pool s ++ [q_first q])) f l) (s_grp s) (s_idx s) LoopHead) r)).
  { intros f l r Hr. set (s' := set_running _ r).
    assert (Hp : pend s' = pend s).
    { unfold pend, done. rewrite HC, Hidx, Hfl. reflexivity. }
    destruct I. constructor; auto; try (simpl; rewrite <- Hfl; auto; fail).
    - simpl. rewrite EQ in I_q0. inversion I_q0; auto.
    - simpl. eapply Forall_impl; [|exact SS2]. unfold qlt. intros. lia.
    - unfold ctl_ok; simpl. split; auto. intros _. eapply Forall_impl; [|exact SS2]. unfold qlt. intros. lia.
    - intros. apply I_fkey0 in H. unfold fired_key_ok in *. rewrite HC in H. simpl.
      assert (t <= s_tick s) by lia. split; auto. eapply Forall_impl; [|exact SS2]. unfold qlt. intros. lia.
    - rewrite Hp. auto.
    - rewrite Hp. auto.
    - rewrite Hp. intros. destruct (I_complete0 _ _ _ _ _ _ H) as [|[|[Hcr|]]]; auto. rewrite HC in Hcr; discriminate. }
  assert (HRE : forall f l, Inv c (run_end (set_finish (set_queue s rest (s_pool s ++ [q_first q])) f l))).
  { intros f l.
    pose proof (run_end_inv c _ (HI f l false ltac:(discriminate)) eq_refl) as KK. simpl in KK.
    assert (Forall (fun q0 => s_tick s < q_tick q0) rest).
    { eapply Forall_impl; [|exact SS2]. unfold qlt. intros. lia. }
    specialize (KK H). exact KK. }
  destruct rest as [|n rr] eqn:ER.
  - apply HRE.
  - destruct (s_latest (set_queue s (n :: rr) (s_pool s ++ [q_first q])) <? q_tick n).
    + apply HRE.
    + pose proof (HI false (s_latest s) (s_running s) ltac:(discriminate)) as KK. exact KK.
Qed.

Lemma scan_inv : forall c s, Inv c s -> s_ctl s = Scan -> Inv c (scan c s).
Proof.
  intros c s I HC. unfold scan. destruct (s_queue s) as [|q rest] eqn:EQ.
  { exfalso. pose proof (I_ctl c s I) as K. unfold ctl_ok in K. rewrite HC in K.
    destruct K as (? & ? & E & _). congruence. }
  destruct (Nat.ltb_spec (s_grp s) (group_count c)) as [HG|HG].
  - destruct (nth_error (nth (s_grp s) (q_groups q) []) (s_idx s)) as [sl|] eqn:EN.
    + destruct (sl_ev sl) as [[|n]|] eqn:EE.
      * eapply (fire_inv c s _ sl Stop q rest); eauto.
      * eapply (fire_inv c s _ sl (User n) q rest); eauto.
      * eapply skip_inv; eauto.
    + eapply next_group_inv; eauto.
  - apply tick_end_inv; auto.
Qed.

Lemma handler_end_inv : forall c s, Inv c s -> s_ctl s = Handler -> Inv c (set_pos s (s_grp s) (S (s_idx s)) Scan).
Proof.
  intros c s I HC. apply (reposition_inv c s); auto.
  - unfold pend, done. rewrite HC. reflexivity.
  - pose proof (I_ctl c s I) as K. unfold ctl_ok in *. rewrite HC in K. simpl.
    destruct K as (q & rest & ? & ? & ? & ?). exists q, rest. auto.
  - simpl. apply (I_ge c s I).
  - intros H; rewrite HC in H; discriminate.
  - unfold fired_key_ok. rewrite HC. auto.
Qed.

Lemma step_inv : forall c s a, Inv c s -> Inv c (step c s a).
Proof.
  intros c s a I. unfold step. destruct a; destruct (s_ctl s) eqn:HC; auto.
  - apply exec_cmd_inv; auto; congruence.
  - apply exec_cmd_inv; auto; congruence.
  - apply run_begin_inv; auto.
  - apply clear_inv; auto.
  - apply restart_inv; auto.
  - apply tick_begin_inv; auto.
  - apply scan_inv; auto.
  - apply handler_end_inv; auto.
Qed.

Lemma exec_inv : forall c l s, Inv c s -> Inv c (exec c s l).
Proof. induction l; simpl; intros; auto. apply IHl. apply step_inv; auto. Qed.

Lemma reach_inv : forall c l, Inv c (exec c init l).
Proof. intros. apply exec_inv. apply init_inv. Qed.
