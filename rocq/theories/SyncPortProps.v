(** Property C52: the synchronising ports. *)
From Coq Require Import List NArith Bool Lia Arith Permutation Sorting.Sorted.
From Verif Require Import ClockModel ClockProofs SyncPortModel.
Import ListNotations.
Open Scope N_scope.

Section SPP.
Context {A : Type}.
Implicit Types s : yst A.

(** What the sends of an execution handed over. *)
Definition sent1 (op : yop A) : list A := match op with YSend _ x _ _ => [x] | _ => [] end.
Definition sent (ops : list (yop A)) : list A := flat_map sent1 ops.

Lemma bind_some : forall B D (x : option B) (f : B -> option D) y, bind x f = Some y -> exists b, x = Some b /\ f b = Some y.
Proof. intros B D [b|] f y H; [eauto|discriminate]. Qed.
Lemma send_eq : forall c s x per cyc sl s' num, send_ c s x per cyc sl = Some (s', num) ->
  exists abs, abs = W64 (num + y_now s) /\ send_delay c (y_now s) per cyc sl (y_prev s) = Some num /\ abs mod y_per c = 0 /\ (forall p, y_prev s = Some p -> p < abs) /\ y_now s <= abs /\
    (num = 0 -> (y_phase s <= y_ph c)%nat) /\
    s' = mkY (y_now s) (y_phase s) (y_fly s ++ [mkFly abs x]) (y_log s) (Some abs) (y_num s + 1) (y_cur s) (y_old s) (y_set s) (y_last s).
Proof.
  intros c s x per cyc sl s' num H. unfold send_ in H. apply bind_some in H. destruct H as (n & E & H). cbv zeta in H.
  destruct (negb (W64 (n + y_now s) mod y_per c =? 0)) eqn:B1; [discriminate|]. apply negb_false_iff in B1. apply N.eqb_eq in B1.
  destruct (match y_prev s with Some p => negb (p <? W64 (n + y_now s)) | None => false end) eqn:B2; [discriminate|].
  destruct ((W64 (n + y_now s) =? 2 ^ 64 - 1) || (W64 (n + y_now s) <? y_now s)) eqn:B3; [discriminate|]. apply orb_false_iff in B3. destruct B3 as [_ B3]. apply N.ltb_ge in B3.
  destruct ((n =? 0) && Nat.ltb (y_ph c) (y_phase s)) eqn:B4; [discriminate|]. injection H as <- <-. exists (W64 (n + y_now s)). split; [reflexivity|]. split; [exact E|]. split; [exact B1|].
  split. { intros p Ep. rewrite Ep in B2. apply negb_false_iff in B2. apply N.ltb_lt in B2. exact B2. }
  split; [exact B3|]. split; [|reflexivity]. intros ->. simpl in B4. apply Nat.ltb_ge in B4. exact B4.
Qed.
Lemma y_send_eq : forall c s o x cyc sl s' num, y_send c s o x cyc sl = (s', Some num) ->
  exists per s1 k, nth_error (y_out c) o = Some per /\ send_ c s x per cyc sl = Some (s1, num) /\
    s' = mkY (y_now s1) (y_phase s1) (y_fly s1) (y_log s1) (y_prev s1) (y_num s1) (y_cur s1) (y_old s1) (y_set s1) (put (y_last s1) o (Some k)).
Proof.
  intros c s o x cyc sl s' num H. unfold y_send in H. destruct (nth_error (y_out c) o) as [per|]; [|discriminate]. destruct (nth_error (y_last s) o) as [last|]; [|discriminate].
  destruct (next_cycle c s per cyc 0) as [k|]; [|discriminate]. destruct (send_ c s x per cyc sl) as [[s1 n]|] eqn:E; [|discriminate].
  destruct (_ || _) in H; [discriminate|]. exists per, s1, k. split; auto. inversion H; subst. auto.
Qed.

(** Consistency: what was delivered and what is in flight is in strictly increasing order of arrival, on edges of the receiver, up to prev_data_arrival_tick_;
    nothing in flight is late. *)
Record yinv (c : ycfg) s : Prop := {
  i_sort : StronglySorted N.lt (map f_due (y_log s ++ y_fly s));
  i_prev : forall f, In f (y_log s ++ y_fly s) -> exists p, y_prev s = Some p /\ f_due f <= p;
  i_edge : forall f, In f (y_log s ++ y_fly s) -> f_due f mod y_per c = 0;
  i_time : forall f, In f (y_fly s) -> y_now s <= f_due f /\ (f_due f = y_now s -> (y_phase s <= y_ph c)%nat);
  i_num : y_num s = N.of_nat (length (y_fly s));
  i_fin : forall p, y_prev s = Some p -> p mod y_per c = 0 }.
Lemma SS_snoc : forall l x, StronglySorted N.lt l -> Forall (fun y => y < x) l -> StronglySorted N.lt (l ++ [x]).
Proof. induction l as [|a l IH]; intros x H F; simpl; [repeat constructor|]. inversion H; inversion F; subst. constructor; auto. apply Forall_app. split; auto. Qed.
Lemma SS_tail : forall l m, StronglySorted N.lt (l ++ m) -> StronglySorted N.lt m.
Proof. induction l as [|a l IH]; intros m H; simpl in H; auto. inversion H; auto. Qed.
Lemma take_head : forall now l f r, take_fly (A := A) now l = Some (f, r) -> StronglySorted N.lt (map f_due l) -> (forall g, In g l -> now <= f_due g) -> l = f :: r /\ f_due f = now.
Proof.
  intros now l f r H S G. destruct l as [|a l]; [discriminate|]. simpl in H. destruct (N.eqb_spec (f_due a) now); [injection H as <- <-; auto|]. exfalso.
  inversion S as [|? ? S1 S2]; subst. assert (L : now < f_due a) by (specialize (G a (or_introl eq_refl)); lia).
  assert (Q : take_fly now l = None). { clear - S2 L. induction l as [|b l IH]; auto. simpl. inversion S2; subst. destruct (N.eqb_spec (f_due b) now); [lia|]. rewrite IH; auto. }
  rewrite Q in H. discriminate.
Qed.
Lemma yinv_init : forall c r, yinv c (y_init c r).
Proof. intros c r. split; simpl; [constructor|intros ? []|intros ? []|intros ? []|reflexivity|discriminate]. Qed.
(** Handing over a datum. *)
Lemma yinv_send : forall c s x per cyc sl s' num, yinv c s -> send_ c s x per cyc sl = Some (s', num) -> yinv c s'.
Proof.
  intros c s x per cyc sl s' num V H. destruct (send_eq _ _ _ _ _ _ _ _ H) as (abs & Ea & Hd & Em & Pv & Nw & Ph & ->). destruct V as [V1 V2 V3 V4 V5 V6].
  split; cbn [y_now y_phase y_fly y_log y_prev y_num].
  - rewrite app_assoc, map_app. apply SS_snoc; auto. apply Forall_forall. intros d I. apply in_map_iff in I. destruct I as (f & <- & I). destruct (V2 f I) as (p & Ep & L). specialize (Pv p Ep). simpl. lia.
  - intros f I. exists abs. split; auto. rewrite app_assoc in I. apply in_app_or in I. destruct I as [I|[<-|[]]]; [|simpl; lia]. destruct (V2 f I) as (p & Ep & L). specialize (Pv p Ep). lia.
  - intros f I. rewrite app_assoc in I. apply in_app_or in I. destruct I as [I|[<-|[]]]; auto.
  - intros f I. apply in_app_or in I. destruct I as [I|[<-|[]]]; auto. simpl. split; auto. intro E. apply Ph.
    rewrite E in Ea. clear - Ea Hd. rename Hd into H. unfold send_delay in H. apply bind_some in H. destruct H as (sd & _ & H). apply bind_some in H. destruct H as (m & _ & H). cbv zeta in H.
    destruct (_ mod y_per c =? 0); [|discriminate]. injection H as H.
    assert (Ln : num < 2 ^ 64). { rewrite <- H. unfold sub64, W64. apply N.mod_lt. discriminate. }
    unfold W64 in Ea. change (2 ^ 64) with 18446744073709551616 in *. clear - Ea Ln.
    assert (Ln2 : y_now s < 18446744073709551616) by (rewrite Ea; apply N.mod_lt; discriminate).
    destruct (N.lt_ge_cases (num + y_now s) 18446744073709551616) as [L|L]; [rewrite N.mod_small in Ea by auto; lia|].
    replace (num + y_now s) with ((num + y_now s - 18446744073709551616) + 1 * 18446744073709551616) in Ea by lia. rewrite N.mod_add in Ea by discriminate. rewrite N.mod_small in Ea; lia.
  - rewrite V5, app_length. simpl. lia.
  - intros p Ep. injection Ep as <-. auto.
Qed.
Lemma yinv_step : forall c s op s', yinv c s -> ystep c s op = Some s' -> yinv c s'.
Proof.
  intros c s op s' V H. destruct op as [o x cyc sl|b| |q|t]; cbn [ystep] in H.
  - destruct (y_send c s o x cyc sl) as [s2 [num|]] eqn:E; [|discriminate]. injection H as ->. destruct (y_send_eq _ _ _ _ _ _ _ _ E) as (per & s1 & k & _ & E1 & ->).
    destruct (yinv_send _ _ _ _ _ _ _ _ V E1) as [W1 W2 W3 W4 W5 W6]. split; auto.
  - unfold set_ready in H. destruct V as [W1 W2 W3 W4 W5 W6]. destruct (y_set s <? y_now s); [injection H as <-; split; auto|]. destruct (_ && _); [|discriminate]. injection H as <-. split; auto.
  - destruct (Nat.eqb (y_ph c) (y_phase s)) eqn:Bp; [|discriminate]. apply bind_some in H. destruct H as ([f r] & T & H). cbn [fst snd] in H. pose proof V as V0. destruct V as [V1 V2 V3 V4 V5 V6].
    destruct (take_head _ _ _ _ T) as (El & Ed); [rewrite map_app in V1; apply SS_tail in V1; auto|intros g I; apply V4; auto|].
    unfold forward in H. cbn [y_now y_phase y_fly y_log y_prev y_num y_cur y_old y_set y_last] in H. destruct (_ || _) eqn:B0 in H; [discriminate|].
    destruct (latched _) in H.
    + injection H as <-. assert (Eq : map f_due ((y_log s ++ [mkFly (y_now s) (f_dat f)]) ++ r) = map f_due (y_log s ++ y_fly s)).
      { rewrite El, !map_app, <- app_assoc. simpl. rewrite Ed. auto. }
      assert (In1 : forall g, In g ((y_log s ++ [mkFly (y_now s) (f_dat f)]) ++ r) -> exists g', In g' (y_log s ++ y_fly s) /\ f_due g' = f_due g).
      { intros g I. assert (J : In (f_due g) (map f_due (y_log s ++ y_fly s))) by (rewrite <- Eq; apply in_map; auto). apply in_map_iff in J. destruct J as (g' & E & I'). eauto. }
      split; cbn [y_now y_phase y_fly y_log y_prev y_num].
      * rewrite Eq. auto.
      * intros g I. destruct (In1 g I) as (g' & I' & <-). auto.
      * intros g I. destruct (In1 g I) as (g' & I' & <-). auto.
      * intros g I. apply V4. rewrite El. right. auto.
      * rewrite V5, El. simpl length. lia.
      * auto.
    + destruct (send_ c _ (f_dat f) (y_per c) 1 false) as [[s2 num]|] eqn:E in H; [|discriminate]. cbn [option_map fst] in H. injection H as <-.
      (* the state without the payload satisfies all but the last clause *)
      destruct (send_eq _ _ _ _ _ _ _ _ E) as (abs & Ea & _ & Em & Pv & Nw & Ph & ->). cbn [y_now y_phase y_fly y_log y_prev y_num] in *.
      assert (Sub : forall g, In g (y_log s ++ r) -> In g (y_log s ++ y_fly s)) by (intros g I; rewrite El; apply in_app_or in I; apply in_or_app; destruct I; [left|right; right]; auto).
      assert (S1 : StronglySorted N.lt (map f_due (y_log s ++ r))).
      { rewrite El, !map_app in V1. rewrite map_app. clear - V1. simpl in V1. induction (map f_due (y_log s)) as [|a l IH]; simpl in *; inversion V1 as [|? ? X1 X2]; subst; auto.
        constructor; auto. apply Forall_app in X2. destruct X2 as [X2 X3]. inversion X3; subst. apply Forall_app. auto. }
      assert (R : yinv c (mkY (y_now s) (y_phase s) (r ++ [mkFly abs (f_dat f)]) (y_log s) (Some abs) (y_num s) (y_cur s) (y_old s) (y_set s) (y_last s))).
      { split; cbn [y_now y_phase y_fly y_log y_prev y_num].
        - rewrite app_assoc, map_app. apply SS_snoc; auto. apply Forall_forall. intros d I. apply in_map_iff in I. destruct I as (g & <- & I). destruct (V2 g (Sub g I)) as (p & Ep & L). specialize (Pv p Ep). simpl. lia.
        - intros g I. exists abs. split; auto. rewrite app_assoc in I. apply in_app_or in I. destruct I as [I|[<-|[]]]; [|simpl; lia]. destruct (V2 g (Sub g I)) as (p & Ep & L). specialize (Pv p Ep). lia.
        - intros g I. rewrite app_assoc in I. apply in_app_or in I. destruct I as [I|[<-|[]]]; auto.
        - intros g I. apply in_app_or in I. destruct I as [I|[<-|[]]]; [apply V4; rewrite El; right; auto|]. simpl. split; auto. intro X. apply Nat.eqb_eq in Bp. lia.
        - rewrite V5, El, app_length. simpl. lia.
        - intros p Ep. injection Ep as <-. auto. }
      destruct R as [R1 R2 R3 R4 R5 R6]. split; auto. cbn [y_num y_fly] in *. rewrite <- R5, V5, El. simpl length. lia.
  - destruct (Nat.ltb (y_phase s) q && _) eqn:B; [|discriminate]. injection H as <-. apply andb_prop in B. destruct B as [B1 B2]. destruct V as [W1 W2 W3 W4 W5 W6]. split; auto.
    cbn [y_now y_phase y_fly]. intros f I. split; [apply W4; auto|]. intro E. apply orb_prop in B2. destruct B2 as [B2|B2]; [apply Nat.leb_le; auto|].
    rewrite forallb_forall in B2. specialize (B2 f I). rewrite E, N.eqb_refl in B2. discriminate.
  - destruct ((y_now s <? t) && _) eqn:B; [|discriminate]. injection H as <-. apply andb_prop in B. destruct B as [B1 B2]. rewrite forallb_forall in B2. destruct V as [W1 W2 W3 W4 W5 W6]. split; auto.
    cbn [y_now y_phase y_fly]. intros f I. split; [apply N.leb_le; auto|]. intros. lia.
Qed.
Lemma yinv_run : forall c ops s s', yinv c s -> yrun c s ops = Some s' -> yinv c s'.
Proof.
  induction ops as [|op ops IH]; intros s s' V H; simpl in H; [injection H as <-; auto|]. destruct (ystep c s op) as [s1|] eqn:E; [|discriminate]. apply (IH s1); auto. eapply yinv_step; eauto.
Qed.

(** Data is delivered on rising edges of the receiver's clock, at strictly increasing ticks, so at most once in a cycle of the receiver. *)
Theorem C52_edges : forall c r ops s, yrun c (y_init c r) ops = Some s ->
  Forall (fun f => f_due f mod y_per c = 0) (y_log s) /\ StronglySorted N.lt (map f_due (y_log s)) /\
  (forall i j f g, nth_error (y_log s) i = Some f -> nth_error (y_log s) j = Some g -> f_due f / y_per c = f_due g / y_per c -> i = j).
Proof.
  intros c r ops s H. destruct (yinv_run _ _ _ _ (yinv_init c r) H) as [V1 V2 V3 V4 V5 V6].
  assert (F : forall f, In f (y_log s) -> f_due f mod y_per c = 0) by (intros; apply V3; apply in_or_app; auto).
  assert (S1 : StronglySorted N.lt (map f_due (y_log s))).
  { rewrite map_app in V1. clear - V1. induction (map f_due (y_log s)) as [|a l IH]; [constructor|]. simpl in V1. inversion V1 as [|? ? X1 X2]; subst. constructor; auto. apply Forall_app in X2. apply X2. }
  split; [apply Forall_forall; auto|]. split; auto. intros i j f g Ei Ej E.
  assert (Lt : forall i j f g, nth_error (y_log s) i = Some f -> nth_error (y_log s) j = Some g -> (i < j)%nat -> f_due f < f_due g).
  { clear - S1. induction (y_log s) as [|a l IH]; intros i j f g Ei Ej L; [destruct i; discriminate|]. simpl in S1. inversion S1 as [|? ? X1 X2]; subst.
    destruct j as [|j]; [lia|]. destruct i as [|i]; simpl in Ei, Ej.
    - injection Ei as <-. rewrite Forall_forall in X2. apply X2. apply in_map. eapply nth_error_In; eauto.
    - eapply IH; eauto. lia. }
  assert (Q : f_due f = f_due g).
  { destruct (N.eq_dec (y_per c) 0) as [Z|Z].
    - assert (M0 : forall n, n mod 0 = 0 -> n = 0) by (intros [|n] Q; [auto|discriminate Q]). pose proof (F f (nth_error_In _ _ Ei)) as X1. pose proof (F g (nth_error_In _ _ Ej)) as X2. rewrite Z in X1, X2. apply M0 in X1. apply M0 in X2. congruence.
    - rewrite (N.div_mod (f_due f) (y_per c) Z), (N.div_mod (f_due g) (y_per c) Z), E, (F f (nth_error_In _ _ Ei)), (F g (nth_error_In _ _ Ej)). auto. }
  destruct (Nat.lt_trichotomy i j) as [L|[L|L]]; auto; [pose proof (Lt _ _ _ _ Ei Ej L)|pose proof (Lt _ _ _ _ Ej Ei L)]; lia.
Qed.

Lemma take_perm : forall now l f r, take_fly (A := A) now l = Some (f, r) -> Permutation l (f :: r) /\ f_due f = now.
Proof.
  induction l as [|a l IH]; intros f r H; [discriminate|]. simpl in H. destruct (N.eqb_spec (f_due a) now); [injection H as <- <-; auto|].
  destruct (take_fly now l) as [[g q]|]; [|discriminate]. cbn [option_map fst snd] in H. injection H as <- <-. destruct (IH g q eq_refl) as (P & E). split; auto.
  rewrite P. apply perm_swap.
Qed.
(** The two outcomes of a delivery event: the consumer gets the datum, or it goes round again. *)
Lemma fire_eq : forall c s s', ystep c s YFire = Some s' -> exists f r, take_fly (y_now s) (y_fly s) = Some (f, r) /\ y_phase s = y_ph c /\ y_num s <> 0 /\ y_set s <= y_now s /\
  ((latched s = true /\ s' = mkY (y_now s) (y_phase s) r (y_log s ++ [mkFly (y_now s) (f_dat f)]) (y_prev s) (y_num s - 1) (y_cur s) (y_old s) (y_set s) (y_last s)) \/
   (latched s = false /\ exists num, send_ c (mkY (y_now s) (y_phase s) r (y_log s) (y_prev s) (y_num s - 1) (y_cur s) (y_old s) (y_set s) (y_last s)) (f_dat f) (y_per c) 1 false = Some (s', num))).
Proof.
  intros c s s' H. cbn [ystep] in H. destruct (Nat.eqb_spec (y_ph c) (y_phase s)) as [Ep|]; [|discriminate]. apply bind_some in H. destruct H as ([f r] & T & H). cbn [fst snd] in H.
  exists f, r. split; auto. split; auto. unfold forward in H. cbn [y_now y_phase y_fly y_log y_prev y_num y_cur y_old y_set y_last] in H.
  destruct (negb (y_set s <=? y_now s) || (y_num s =? 0)) eqn:B; [discriminate|]. apply orb_false_iff in B. destruct B as [B1 B2]. apply negb_false_iff in B1. apply N.leb_le in B1. apply N.eqb_neq in B2.
  split; auto. split; auto. change (latched (mkY (y_now s) (y_phase s) r (y_log s) (y_prev s) (y_num s) (y_cur s) (y_old s) (y_set s) (y_last s))) with (latched s) in H. destruct (latched s).
  - left. injection H as <-. auto.
  - right. split; auto. destruct (send_ c _ (f_dat f) (y_per c) 1 false) as [[s2 num]|] in H |- *; [|discriminate]. cbn [option_map fst] in H. injection H as <-. eauto.
Qed.
Lemma perm_step : forall c s op s', ystep c s op = Some s' ->
  Permutation (map f_dat (y_log s') ++ map f_dat (y_fly s')) ((map f_dat (y_log s) ++ map f_dat (y_fly s)) ++ sent1 op).
Proof.
  intros c s op s' H. destruct op as [o x cyc sl|b| |q|t]; cbn [sent1]; [|rewrite app_nil_r..].
  - cbn [ystep] in H. destruct (y_send c s o x cyc sl) as [s2 [num|]] eqn:E; [|discriminate]. injection H as ->. destruct (y_send_eq _ _ _ _ _ _ _ _ E) as (per & s1 & k & _ & E1 & ->).
    destruct (send_eq _ _ _ _ _ _ _ _ E1) as (abs & _ & _ & _ & _ & _ & _ & ->). cbn [y_log y_fly]. rewrite map_app, app_assoc. apply Permutation_refl.
  - cbn [ystep] in H. unfold set_ready in H. destruct (y_set s <? y_now s); [injection H as <-; apply Permutation_refl|]. destruct (_ && _); [|discriminate]. injection H as <-. apply Permutation_refl.
  - destruct (fire_eq _ _ _ H) as (f & r & T & _ & _ & _ & Q). destruct (take_perm _ _ _ _ T) as (P & _). apply (Permutation_map (@f_dat A)) in P. cbn [map] in P.
    destruct Q as [(_ & ->)|(_ & num & Q)].
    + cbn [y_log y_fly]. rewrite map_app, <- app_assoc. apply Permutation_app_head. symmetry. exact P.
    + destruct (send_eq _ _ _ _ _ _ _ _ Q) as (abs & _ & _ & _ & _ & _ & _ & ->). cbn [y_log y_fly]. apply Permutation_app_head. rewrite P, map_app. cbn [map f_dat]. apply Permutation_sym, Permutation_cons_append.
  - cbn [ystep] in H. destruct (_ && _); [|discriminate]. injection H as <-. apply Permutation_refl.
  - cbn [ystep] in H. destruct (_ && _); [|discriminate]. injection H as <-. apply Permutation_refl.
Qed.
(** Every datum accepted is in flight or has been delivered, each exactly as often as it was sent. *)
Theorem C52_exactly_once : forall c r ops s, yrun c (y_init c r) ops = Some s -> Permutation (sent ops) (map f_dat (y_log s) ++ map f_dat (y_fly s)) /\ y_num s = N.of_nat (length (y_fly s)).
Proof.
  intros c r ops s H. split; [|apply (yinv_run _ _ _ _ (yinv_init c r) H)].
  assert (G : forall ops s0 s, yrun c s0 ops = Some s -> Permutation ((map f_dat (y_log s0) ++ map f_dat (y_fly s0)) ++ sent ops) (map f_dat (y_log s) ++ map f_dat (y_fly s))).
  { clear. induction ops as [|op ops IH]; intros s0 s H; simpl in H; [injection H as <-; simpl; rewrite app_nil_r; apply Permutation_refl|].
    destruct (ystep c s0 op) as [s1|] eqn:E; [|discriminate]. rewrite <- (IH _ _ H). rewrite (perm_step _ _ _ _ E). unfold sent. cbn [flat_map]. rewrite <- !app_assoc. apply Permutation_refl. }
  apply (G _ _ _ H).
Qed.

(** Whenever a datum arrives, the receiver is ready for it or nothing else is in flight. *)
Definition calm s (op : yop A) : Prop := match op with YFire => latched s = true \/ (length (y_fly s) <= 1)%nat | _ => True end.
Fixpoint calm_run (c : ycfg) s (ops : list (yop A)) : Prop :=
  match ops with [] => True | op :: r => calm s op /\ match ystep c s op with Some s' => calm_run c s' r | None => True end end.
(** Then data is delivered in the order of the sends. *)
Theorem C52_in_order : forall c r ops s, yrun c (y_init c r) ops = Some s -> calm_run c (y_init c r) ops -> map f_dat (y_log s) ++ map f_dat (y_fly s) = sent ops.
Proof.
  intros c r ops s H Q.
  assert (G : forall ops s0 s, yinv c s0 -> yrun c s0 ops = Some s -> calm_run c s0 ops -> map f_dat (y_log s) ++ map f_dat (y_fly s) = (map f_dat (y_log s0) ++ map f_dat (y_fly s0)) ++ sent ops).
  { clear. induction ops as [|op ops IH]; intros s0 s V H Q; simpl in H; [injection H as <-; simpl; rewrite app_nil_r; auto|].
    destruct (ystep c s0 op) as [s1|] eqn:E; [|discriminate]. destruct Q as [Q1 Q2]. rewrite E in Q2. rewrite (IH _ _ (yinv_step _ _ _ _ V E) H Q2).
    unfold sent. cbn [flat_map]. rewrite (app_assoc _ (sent1 op)). f_equal. clear - V E Q1. destruct op as [o x cyc sl|b| |q|t]; cbn [sent1]; [|rewrite app_nil_r..].
    - cbn [ystep] in E. destruct (y_send c s0 o x cyc sl) as [s2 [num|]] eqn:E0; [|discriminate]. injection E as ->. destruct (y_send_eq _ _ _ _ _ _ _ _ E0) as (per & s3 & k & _ & E1 & ->).
      destruct (send_eq _ _ _ _ _ _ _ _ E1) as (abs & _ & _ & _ & _ & _ & _ & ->). cbn [y_log y_fly]. rewrite map_app, app_assoc. auto.
    - cbn [ystep] in E. unfold set_ready in E. destruct (y_set s0 <? y_now s0); [injection E as <-; auto|]. destruct (_ && _); [|discriminate]. injection E as <-. auto.
    - destruct (fire_eq _ _ _ E) as (f & r & T & _ & _ & _ & Z). destruct V as [V1 V2 V3 V4 V5 V6].
      destruct (take_head _ _ _ _ T) as (El & Ed); [rewrite map_app in V1; apply SS_tail in V1; auto|intros g I; apply V4; auto|].
      destruct Z as [(_ & ->)|(L & num & Z)].
      + cbn [y_log y_fly]. rewrite map_app, <- app_assoc, El. auto.
      + destruct (send_eq _ _ _ _ _ _ _ _ Z) as (abs & _ & _ & _ & _ & _ & _ & ->). cbn [y_log y_fly]. destruct Q1 as [Q1|Q1]; [congruence|]. rewrite El in Q1 |- *. destruct r; [auto|simpl in Q1; lia].
    - cbn [ystep] in E. destruct (_ && _); [|discriminate]. injection E as <-. auto.
    - cbn [ystep] in E. destruct (_ && _); [|discriminate]. injection E as <-. auto. }
  apply (G _ _ _ (yinv_init c r) H Q).
Qed.

(** The first edge of a clock from tick [t] on. *)
Definition first_edge (per t e : N) : Prop := e mod per = 0 /\ t <= e /\ forall e', e' mod per = 0 -> t <= e' -> e <= e'.
Lemma send_delay_first : forall c now per cyc sl prev num, send_delay c now per cyc sl prev = Some num -> now + cyc * per + y_rt c + y_per c < 2 ^ 64 -> (sl = true -> forall p, prev = Some p -> p + y_per c < 2 ^ 64) ->
  exists e, first_edge (y_per c) (now + cyc * per + y_rt c) e /\ e < 2 ^ 64 /\ y_per c <> 0 /\
    ((sl = true /\ exists p, prev = Some p /\ e <= p /\ now + num = p + y_per c) \/ ((sl = false \/ forall p, prev = Some p -> p < e) /\ now + num = e)).
Proof.
  intros c now per cyc sl prev num H Bd Bp. unfold send_delay in H. apply bind_some in H. destruct H as (sd & E1 & H). unfold tick_of in E1. destruct (_ <? 2 ^ 53) in E1; [|discriminate]. injection E1 as <-.
  apply bind_some in H. destruct H as (m & E2 & H). destruct (crossing_delay now (cyc * per) per (y_rt c) (y_per c)) as [d| |] eqn:E; cbn [ok] in E2; try discriminate. injection E2 as <-.
  assert (P1 : per <> 0). { intros ->. cbn in E. discriminate. }
  assert (P2 : y_per c <> 0). { intros Z. unfold crossing_delay in E. rewrite Z in E. destruct (per =? 0); [discriminate|]. destruct (negb _) in E; [discriminate|]. cbn in E. discriminate. }
  assert (P3 : now mod per = 0).
  { unfold crossing_delay in E. destruct (per =? 0); [discriminate|]. destruct (negb _) eqn:B in E; [discriminate|]. apply negb_false_iff in B. apply N.eqb_eq in B.
    destruct (edge_floor now per P1). rewrite W64_small in B by lia. apply mod0_edge; auto. }
  destruct (crossing_correct now (cyc * per) per (y_rt c) (y_per c) P1 P2 P3 Bd) as (d' & Ed & C1 & C2 & C3 & C4). rewrite E in Ed. injection Ed as <-.
  exists (now + d). assert (F : first_edge (y_per c) (now + cyc * per + y_rt c) (now + d)) by (split; [auto|split; [lia|intros; apply C4; auto; lia]]).
  assert (Lt : now + d < 2 ^ 64) by lia. split; auto. split; auto. split; auto.
  cbv zeta in H. rewrite (N.add_comm d now), (W64_small (now + d) Lt) in H. destruct prev as [p|].
  - destruct sl; cbn [andb] in H.
    + specialize (Bp eq_refl p eq_refl). destruct (N.leb_spec (now + d) p) as [L|L]; cbv iota in H; (destruct (_ mod y_per c =? 0) in H; [|discriminate]); injection H as <-.
      * left. split; auto. exists p. split; auto. split; auto. rewrite (W64_small _ Bp), sub64_small by lia. lia.
      * right. split; [right; intros q Q; injection Q as <-; auto|]. rewrite sub64_small by lia. lia.
    + destruct (_ mod y_per c =? 0) in H; [|discriminate]. injection H as <-. right. split; auto. rewrite sub64_small by lia. lia.
  - destruct (_ mod y_per c =? 0) in H; [|discriminate]. injection H as <-. right. split; [right; discriminate|]. rewrite sub64_small by lia. lia.
Qed.
Lemma send_delay_small : forall c now per cyc sl prev num, send_delay c now per cyc sl prev = Some num -> num < 2 ^ 64.
Proof.
  intros c now per cyc sl prev num H. unfold send_delay in H. apply bind_some in H. destruct H as (sd & _ & H). apply bind_some in H. destruct H as (m & _ & H). cbv zeta in H.
  destruct (_ mod y_per c =? 0) in H; [|discriminate]. injection H as <-. unfold sub64, W64. apply N.mod_lt. discriminate.
Qed.

(** When a datum arrives: on the first edge of the receiver after the delays of the sender and of the port; if this slides, in the cycle after the datum before it.
    The number returned is the number of ticks until then. *)
Theorem C52_arrival : forall c s o x cyc sl s' num per, y_send c s o x cyc sl = (s', Some num) -> nth_error (y_out c) o = Some per ->
  y_now s + cyc * per + y_rt c + y_per c < 2 ^ 64 -> (sl = true -> forall p, y_prev s = Some p -> p + y_per c < 2 ^ 64) ->
  y_fly s' = y_fly s ++ [mkFly (y_now s + num) x] /\ y_log s' = y_log s /\ exists e, first_edge (y_per c) (y_now s + cyc * per + y_rt c) e /\
    (y_now s + num = e \/ (sl = true /\ exists p, y_prev s = Some p /\ e <= p /\ y_now s + num = p + y_per c)).
Proof.
  intros c s o x cyc sl s' num per H En Bd Bp. destruct (y_send_eq _ _ _ _ _ _ _ _ H) as (per' & s1 & k & En' & E1 & ->). rewrite En in En'. injection En' as <-.
  destruct (send_eq _ _ _ _ _ _ _ _ E1) as (abs & Ea & Hd & _ & _ & _ & _ & ->). cbn [y_fly y_log].
  destruct (send_delay_first _ _ _ _ _ _ _ Hd Bd Bp) as (e & F & Le & _ & Q).
  assert (L : y_now s + num < 2 ^ 64) by (destruct Q as [(Q0 & p & Ep & _ & Q)|(_ & Q)]; [rewrite Q; auto|lia]).
  rewrite N.add_comm, W64_small in Ea by auto. subst abs. split; auto. split; auto. exists e. split; auto. destruct Q as [(Q1 & p & Q2 & Q3 & Q4)|(_ & Q)]; [right|left]; eauto.
Qed.

(** A datum that finds the receiver not ready tries again on the first edge one cycle plus the delay of the port later. *)
Theorem C52_recirculate : forall c r ops s s', yrun c (y_init c r) ops = Some s -> ystep c s YFire = Some s' -> latched s = false -> y_now s + y_per c + y_rt c + y_per c < 2 ^ 64 ->
  exists f rest e, y_fly s = f :: rest /\ f_due f = y_now s /\ first_edge (y_per c) (y_now s + y_per c + y_rt c) e /\ y_fly s' = rest ++ [mkFly e (f_dat f)] /\ y_log s' = y_log s.
Proof.
  intros c r ops s s' H E L Bd. pose proof (yinv_run _ _ _ _ (yinv_init c r) H) as V. destruct V as [V1 V2 V3 V4 V5 V6]. destruct (fire_eq _ _ _ E) as (f & rest & T & _ & _ & _ & Z).
  destruct (take_head _ _ _ _ T) as (El & Ed); [rewrite map_app in V1; apply SS_tail in V1; auto|intros g I; apply V4; auto|].
  destruct Z as [(Z & _)|(_ & num & Z)]; [congruence|]. destruct (send_eq _ _ _ _ _ _ _ _ Z) as (abs & Ea & Hd & _ & _ & _ & _ & ->). cbn [y_now y_prev y_fly y_log] in *.
  destruct (send_delay_first c (y_now s) (y_per c) 1 false (y_prev s) num Hd) as (e & F & Le & _ & Q); [lia|discriminate|]. rewrite N.mul_1_l in F.
  destruct Q as [(Q & _)|(_ & Q)]; [discriminate|]. exists f, rest, e. split; auto. split; auto. split; auto. split; auto. rewrite N.add_comm, Q, W64_small in Ea by auto. subst abs. auto.
Qed.

(** The calls of setReady of an execution, with their ticks. *)
Fixpoint sets (c : ycfg) s (ops : list (yop A)) : list (N * bool) :=
  match ops with
  | [] => []
  | op :: r => match op with YReady b => [(y_now s, b)] | _ => [] end ++ match ystep c s op with Some s' => sets c s' r | None => [] end
  end.
(** What the last call before tick [t] said. *)
Definition ready_before (r : bool) (h : list (N * bool)) (t : N) : bool := fold_left (fun b p => if fst p <? t then snd p else b) h r.
Lemma ready_snoc : forall r h t n b, ready_before r (h ++ [(n, b)]) t = if n <? t then b else ready_before r h t.
Proof. intros. unfold ready_before. rewrite fold_left_app. reflexivity. Qed.
(** The fields of the port against the history of the calls, and the ticks of the deliveries. *)
Record rinv (r : bool) s (h : list (N * bool)) : Prop := {
  r_set : y_set s <= y_now s;
  r_old : ready_before r h (y_set s) = y_old s;
  r_cur : forall t, y_set s < t -> ready_before r h t = y_cur s;
  r_tick : Forall (fun p => fst p <= y_now s) h;
  r_log : Forall (fun f => f_due f <= y_now s /\ ready_before r h (f_due f) = true) (y_log s) }.
Lemma latched_eq : forall r s h, rinv r s h -> latched s = ready_before r h (y_now s).
Proof.
  intros r s h [R1 R2 R3 R4 R5]. unfold latched. destruct (N.eqb_spec (y_set s) (y_now s)) as [E|Ne].
  - rewrite E, N.ltb_irrefl. rewrite E in R2. rewrite R2. destruct (y_old s); auto.
  - assert (L : y_set s < y_now s) by lia. rewrite (R3 _ L). apply N.ltb_lt in L. rewrite L. destruct (y_cur s); auto.
Qed.
Lemma rinv_step : forall c r s h op s', rinv r s h -> ystep c s op = Some s' -> rinv r s' (h ++ match op with YReady b => [(y_now s, b)] | _ => [] end).
Proof.
  intros c r s h op s' V H. pose proof (latched_eq _ _ _ V) as La. destruct V as [R1 R2 R3 R4 R5]. destruct op as [o x cyc sl|b| |q|t]; [rewrite app_nil_r| |rewrite app_nil_r..].
  - cbn [ystep] in H. destruct (y_send c s o x cyc sl) as [s2 [num|]] eqn:E; [|discriminate]. injection H as ->. destruct (y_send_eq _ _ _ _ _ _ _ _ E) as (per & s1 & k & _ & E1 & ->).
    destruct (send_eq _ _ _ _ _ _ _ _ E1) as (abs & _ & _ & _ & _ & _ & _ & ->). split; auto.
  - cbn [ystep] in H. unfold set_ready in H. destruct (N.ltb_spec (y_set s) (y_now s)) as [L|L].
    + injection H as <-. split; cbn [y_now y_set y_old y_cur y_log].
      * lia.
      * rewrite ready_snoc, N.ltb_irrefl. auto.
      * intros t Lt. rewrite ready_snoc. apply N.ltb_lt in Lt. rewrite Lt. auto.
      * apply Forall_app. split; auto. repeat constructor. simpl. lia.
      * rewrite Forall_forall in *. intros f I. destruct (R5 f I). split; auto. rewrite ready_snoc. destruct (N.ltb_spec (y_now s) (f_due f)); [lia|auto].
    + destruct ((y_now s =? y_set s) && eqb b (y_cur s)) eqn:B; [|discriminate]. injection H as <-. apply andb_prop in B. destruct B as [B1 B2]. apply N.eqb_eq in B1. apply eqb_prop in B2. subst b. split; auto.
      * rewrite ready_snoc, B1, N.ltb_irrefl. auto.
      * intros t Lt. rewrite ready_snoc, B1. apply N.ltb_lt in Lt. rewrite Lt. auto.
      * apply Forall_app. split; auto. repeat constructor. simpl. lia.
      * rewrite Forall_forall in *. intros f I. destruct (R5 f I). split; auto. rewrite ready_snoc. destruct (N.ltb_spec (y_now s) (f_due f)); [lia|auto].
  - destruct (fire_eq _ _ _ H) as (f & rest & T & _ & _ & _ & Z). destruct Z as [(Z & ->)|(_ & num & Z)].
    + split; auto. cbn [y_now y_log]. apply Forall_app. split; auto. constructor; [|constructor]. cbn [f_due]. split; [lia|]. rewrite <- La. auto.
    + destruct (send_eq _ _ _ _ _ _ _ _ Z) as (abs & _ & _ & _ & _ & _ & _ & ->). split; auto.
  - cbn [ystep] in H. destruct (_ && _); [|discriminate]. injection H as <-. split; auto.
  - cbn [ystep] in H. destruct ((y_now s <? t) && _) eqn:B; [|discriminate]. injection H as <-. apply andb_prop in B. destruct B as [B _]. apply N.ltb_lt in B. split; cbn [y_now y_set y_old y_cur y_log]; auto; try lia.
    + eapply Forall_impl; [|exact R4]. cbv beta. intros. lia.
    + eapply Forall_impl; [|exact R5]. cbv beta. intros a [? ?]. split; auto. lia.
Qed.
Lemma rinv_run : forall c r ops s h s', rinv r s h -> yrun c s ops = Some s' -> rinv r s' (h ++ sets c s ops).
Proof.
  induction ops as [|op ops IH]; intros s h s' V H; simpl in H; [injection H as <-; simpl; rewrite app_nil_r; auto|]. destruct (ystep c s op) as [s1|] eqn:E; [|discriminate].
  cbn [sets]. rewrite E, app_assoc. apply (IH s1); auto. eapply rinv_step; eauto.
Qed.
Lemma rinv_init : forall c r, rinv r (y_init c r) [].
Proof. intros. split; simpl; auto; lia. Qed.
(** setReady takes effect from the next tick on: data is only delivered at ticks where the last call before the tick, or else the initial state, said ready; and
    getReady is what the last call said. *)
Theorem C52_ready : forall c r ops s, yrun c (y_init c r) ops = Some s ->
  Forall (fun f => ready_before r (sets c (y_init c r) ops) (f_due f) = true) (y_log s) /\ latched s = ready_before r (sets c (y_init c r) ops) (y_now s) /\
  y_cur s = ready_before r (sets c (y_init c r) ops) (y_now s + 1).
Proof.
  intros c r ops s H. pose proof (rinv_run _ _ _ _ _ _ (rinv_init c r) H) as V. cbn [app] in V. pose proof (latched_eq _ _ _ V) as La. destruct V as [R1 R2 R3 R4 R5]. split; [|split; auto].
  - eapply Forall_impl; [|exact R5]. intros f [_ E]. exact E.
  - symmetry. apply R3. lia.
Qed.

(** A datum that has arrived at a ready port is delivered: either the phase of the port can be reached or the delivery event fires now. *)
Theorem C52_progress : forall c r ops s f rest, yrun c (y_init c r) ops = Some s -> y_fly s = f :: rest -> f_due f = y_now s -> latched s = true ->
  (y_phase s <= y_ph c)%nat /\
  (y_phase s = y_ph c -> exists s', ystep c s YFire = Some s' /\ y_log s' = y_log s ++ [f] /\ y_fly s' = rest) /\
  ((y_phase s < y_ph c)%nat -> exists s', ystep c s (YPhase (y_ph c)) = Some s').
Proof.
  intros c r ops s f rest H Ef Ed La. pose proof (yinv_run _ _ _ _ (yinv_init c r) H) as [V1 V2 V3 V4 V5 V6]. pose proof (rinv_run _ _ _ _ _ _ (rinv_init c r) H) as [R1 _ _ _ _].
  split; [|split].
  - apply V4 with (f := f); auto. rewrite Ef. left. auto.
  - intro Ep. cbn [ystep]. rewrite Ep, Nat.eqb_refl, Ef. cbn [take_fly]. rewrite Ed, N.eqb_refl. cbn [bind fst snd]. unfold forward. cbn [y_now y_phase y_fly y_log y_prev y_num y_cur y_old y_set y_last].
    assert (y_set s <=? y_now s = true) as -> by (apply N.leb_le; auto). assert (y_num s =? 0 = false) as -> by (apply N.eqb_neq; rewrite V5, Ef; simpl; lia). cbn [negb orb].
    change (latched (mkY (y_now s) (y_ph c) rest (y_log s) (y_prev s) (y_num s) (y_cur s) (y_old s) (y_set s) (y_last s))) with (latched s). rewrite La.
    eexists. split; [reflexivity|]. cbn [y_log y_fly]. split; auto. rewrite <- Ed. destruct f. auto.
  - intro L. cbn [ystep]. assert (Nat.ltb (y_phase s) (y_ph c) = true) as -> by (apply Nat.ltb_lt; auto). rewrite Nat.leb_refl. cbn [andb orb]. eauto.
Qed.

(** Sends without delay and slide, to a port without delay; or to a port with a delay of at most a cycle, the clocks of the senders having edges only on edges of
    the receiver and the sends coming after the delivery phase of the port. *)
Definition plain (c : ycfg) s (op : yop A) : Prop :=
  match op with
  | YSend o x cyc sl => cyc = 0 /\ sl = false /\ y_now s + y_rt c + y_per c < 2 ^ 64 /\
      (y_rt c = 0 \/ (y_rt c <= y_per c /\ (y_ph c < y_phase s)%nat /\ y_now s mod y_per c = 0))
  | _ => True
  end.
Fixpoint plain_run (c : ycfg) s (ops : list (yop A)) : Prop :=
  match ops with [] => True | op :: r => plain c s op /\ match ystep c s op with Some s' => plain_run c s' r | None => True end end.
Lemma plain_calm : forall c ops s, yinv c s -> (length (y_fly s) <= 1)%nat -> plain_run c s ops -> calm_run c s ops.
Proof.
  induction ops as [|op ops IH]; intros s V L Q; simpl; auto. destruct Q as [Q1 Q2]. split; [destruct op; simpl; auto|].
  destruct (ystep c s op) as [s1|] eqn:E; auto. apply IH; auto; [eapply yinv_step; eauto|]. clear IH Q2. destruct op as [o x cyc sl|b| |q|t].
  - cbn [ystep] in E. destruct (y_send c s o x cyc sl) as [s2 [num|]] eqn:E0; [|discriminate]. injection E as ->. destruct Q1 as (-> & -> & Bd & Q1).
    destruct (y_send_eq _ _ _ _ _ _ _ _ E0) as (per & s3 & k & En & E1 & ->). destruct (send_eq _ _ _ _ _ _ _ _ E1) as (abs & Ea & Hd & _ & Pv & _ & _ & ->). cbn [y_fly].
    destruct (send_delay_first _ _ _ _ _ _ _ Hd) as (e & (F1 & F2 & F3) & Le & Np & Z); [lia|discriminate|]. destruct Z as [(Z & _)|(_ & Z)]; [discriminate|]. rewrite N.add_comm, Z, W64_small in Ea by auto. subst abs.
    destruct (y_fly s) as [|f l] eqn:Ef; [simpl; lia|]. exfalso. destruct V as [V1 V2 V3 V4 V5 V6].
    assert (If : In f (y_log s ++ y_fly s)) by (rewrite Ef; apply in_or_app; right; left; auto). destruct (V2 f If) as (p & Ep & Lp). specialize (Pv p Ep). pose proof (V3 f If) as Mf.
    destruct (V4 f) as (T1 & T2); [rewrite Ef; left; auto|]. assert (X : e <= f_due f); [|lia]. apply F3; auto. rewrite N.mul_0_l, N.add_0_r. destruct Q1 as [Q1|(Q1 & Q2 & Q3)]; [lia|].
    assert (D : f_due f <> y_now s) by (intro Z'; specialize (T2 Z'); lia).
    assert (y_now s + y_per c <= f_due f); [|lia]. apply N.div_exact in Mf; auto. apply N.div_exact in Q3; auto. rewrite Mf, Q3 in T1, D |- *.
    assert (y_now s / y_per c < f_due f / y_per c). { destruct (N.lt_ge_cases (y_now s / y_per c) (f_due f / y_per c)) as [?|G]; auto. apply (N.mul_le_mono_l _ _ (y_per c)) in G. lia. }
    replace (y_per c * (y_now s / y_per c) + y_per c) with (y_per c * (y_now s / y_per c + 1)) by lia. apply N.mul_le_mono_l. lia.
  - cbn [ystep] in E. unfold set_ready in E. destruct (y_set s <? y_now s); [injection E as <-; auto|]. destruct (_ && _); [|discriminate]. injection E as <-. auto.
  - destruct (fire_eq _ _ _ E) as (f & rest & T & _ & _ & _ & Z). destruct (take_perm _ _ _ _ T) as (P & _). apply Permutation_length in P. simpl in P. destruct Z as [(_ & ->)|(_ & num & Z)]; [simpl; lia|].
    destruct (send_eq _ _ _ _ _ _ _ _ Z) as (abs & _ & _ & _ & _ & _ & _ & ->). cbn [y_fly]. rewrite app_length. simpl. lia.
  - cbn [ystep] in E. destruct (_ && _); [|discriminate]. injection E as <-. auto.
  - cbn [ystep] in E. destruct (_ && _); [|discriminate]. injection E as <-. auto.
Qed.
(** For these the order of the sends is kept whatever the receiver says with setReady. *)
Theorem C52_plain_in_order : forall c r ops s, yrun c (y_init c r) ops = Some s -> plain_run c (y_init c r) ops -> map f_dat (y_log s) ++ map f_dat (y_fly s) = sent ops.
Proof. intros c r ops s H Q. apply (C52_in_order c r ops s H). apply plain_calm; [apply yinv_init|simpl; lia|exact Q]. Qed.

Lemma first_bound : forall per t e, per <> 0 -> first_edge per t e -> e < t + per.
Proof.
  intros per t e Np (F1 & F2 & F3). destruct (N.lt_ge_cases e (t + per)) as [?|G]; auto. exfalso. assert (X : e <= e - per); [|lia]. apply F3; [|lia].
  destruct (edge_ex e per Np F1) as (q & ->). replace (q * per - per) with ((q - 1) * per) by (rewrite N.mul_sub_distr_r, N.mul_1_l; reflexivity). apply edge_mod. auto.
Qed.
Lemma beats_ok : forall c now per cyc left b prev arr, beats c now per cyc b prev left = Some arr ->
  now + (cyc + b + N.of_nat left) * per + y_rt c + (N.of_nat left + 2) * y_per c < 2 ^ 64 -> (forall p, prev = Some p -> p mod y_per c = 0 /\ p + (N.of_nat left + 2) * y_per c < 2 ^ 64) ->
  y_per c <> 0 /\ arr mod y_per c = 0 /\ arr + y_per c < 2 ^ 64 /\ now + (cyc + b) * per + y_rt c <= arr /\ (forall p, prev = Some p -> p + (N.of_nat left + 1) * y_per c <= arr).
Proof.
  induction left as [|k IH]; intros b prev arr H Bd Bp; cbn [beats] in H; apply bind_some in H; destruct H as (d & E & H); cbv zeta in H.
  - destruct (send_delay_first c now per (cyc + b) true prev d E) as (e & F & Le & Np & Q); [lia|intros _ p Ep; destruct (Bp p Ep); lia|]. pose proof (first_bound _ _ _ Np F) as FB. destruct F as (F1 & F2 & F3).
    assert (X : y_per c <> 0 /\ (now + d) mod y_per c = 0 /\ now + d + y_per c < 2 ^ 64 /\ now + (cyc + b) * per + y_rt c <= now + d /\ (forall p, prev = Some p -> p + (N.of_nat 0 + 1) * y_per c <= now + d)).
    { split; auto. destruct Q as [(_ & p & Ep & Lp & ->)|(Q & ->)].
      - destruct (Bp p Ep) as (M & Bq). split; [destruct (edge_ex p _ Np M) as (q & ->); replace (q * y_per c + y_per c) with ((q + 1) * y_per c) by lia; apply edge_mod; auto|].
        split; [lia|]. split; [lia|]. intros q Eq. rewrite Ep in Eq. injection Eq as <-. lia.
      - split; auto. split; [lia|]. split; auto. intros p Ep. destruct Q as [Q|Q]; [discriminate|]. specialize (Q p Ep). destruct (Bp p Ep) as (M & _).
        destruct (edge_ex p _ Np M) as (q & ->). destruct (edge_ex e _ Np F1) as (q' & ->). assert (q < q') by nia. nia. }
    assert (Z : arr = now + d) by (rewrite W64_small in H by lia; injection H as <-; auto). rewrite Z. exact X.
  - destruct (send_delay_first c now per (cyc + b) true prev d E) as (e & F & Le & Np & Q); [nia|intros _ p Ep; destruct (Bp p Ep); nia|]. pose proof (first_bound _ _ _ Np F) as FB. destruct F as (F1 & F2 & F3).
    assert (X : (now + d) mod y_per c = 0 /\ now + d + (N.of_nat k + 2) * y_per c < 2 ^ 64 /\ now + (cyc + b) * per + y_rt c <= now + d /\ (forall p, prev = Some p -> p + y_per c <= now + d)).
    { destruct Q as [(_ & p & Ep & Lp & ->)|(Q & ->)].
      - destruct (Bp p Ep) as (M & Bq). split; [destruct (edge_ex p _ Np M) as (q & ->); replace (q * y_per c + y_per c) with ((q + 1) * y_per c) by lia; apply edge_mod; auto|].
        split; [nia|]. split; [lia|]. intros q Eq. rewrite Ep in Eq. injection Eq as <-. lia.
      - split; auto. split; [nia|]. split; auto. intros p Ep. destruct Q as [Q|Q]; [discriminate|]. specialize (Q p Ep). destruct (Bp p Ep) as (M & _).
        destruct (edge_ex p _ Np M) as (q & ->). destruct (edge_ex e _ Np F1) as (q' & ->). assert (q < q') by nia. nia. }
    destruct X as (X1 & X2 & X3 & X4). assert (LL : now + d < 2 ^ 64) by lia. rewrite (W64_small _ LL) in H.
    destruct (IH (b + 1) (Some (now + d)) arr H) as (Y1 & Y2 & Y3 & Y4 & Y5); [nia|intros p Ep; injection Ep as <-; auto|]. specialize (Y5 _ eq_refl).
    split; auto. split; auto. split; auto. split; [nia|]. intros p Ep. specialize (X4 p Ep). nia.
Qed.
(** computeNextAvailableCycleForSend, for a sender at least as fast as the receiver: a datum sent at the cycle given comes after what was sent before and after
    the beats. *)
Theorem C52_next_available : forall c r ops s per cyc n k, yrun c (y_init c r) ops = Some s -> next_cycle c s per cyc n = Some k -> per <= y_per c ->
  y_now s + (cyc + N.of_nat n) * per + y_rt c + (N.of_nat n + 2) * y_per c < 2 ^ 64 -> (forall p, y_prev s = Some p -> p + (N.of_nat n + 2) * y_per c < 2 ^ 64) ->
  cyc <= k /\ y_now s <= (k - cyc) * per /\ exists e, first_edge (y_per c) ((k - cyc) * per + cyc * per + y_rt c) e /\ forall p, y_prev s = Some p -> p + (N.of_nat n + 1) * y_per c <= e.
Proof.
  intros c r ops s per cyc n k H E Pd Bd Bp. pose proof (yinv_run _ _ _ _ (yinv_init c r) H) as V. destruct V as [_ _ _ _ _ V6]. unfold next_cycle in E. apply bind_some in E. destruct E as (edge & E1 & E).
  assert (P0 : per <> 0) by (intros ->; cbn in E1; discriminate). unfold is_posedge in E1. apply N.eqb_neq in P0 as P0'. rewrite P0' in E1. cbn [ok] in E1. injection E1 as <-.
  destruct (N.eqb_spec (y_now s mod per) 0) as [Ed|]; [|discriminate]. cbn [negb] in E.
  apply bind_some in E. destruct E as (arr & E2 & E). destruct (beats_ok _ _ _ _ _ _ _ _ E2) as (Np & Z1 & Z2 & Z3 & Z4); [rewrite N.add_0_r; auto|auto|]. rewrite N.add_0_r in Z3.
  apply bind_some in E. destruct E as (sd & E3 & E). unfold tick_of in E3. destruct (_ <? 2 ^ 53) in E3; [|discriminate]. injection E3 as <-. destruct (negb _) in E; [discriminate|].
  apply bind_some in E. destruct E as (rr & E4 & E). destruct (reverse_correct arr (cyc * per) per (y_rt c) (y_per c) P0 Np Z1) as (d & Ed' & D1 & D2 & D3 & D4); [lia|lia|].
  rewrite Ed' in E4. cbn [ok] in E4. injection E4 as <-. destruct (arr <? d); [discriminate|]. apply bind_some in E. destruct E as (q & E5 & E). unfold get_cycle in E5. rewrite P0' in E5. cbn [ok] in E5. injection E5 as <-.
  destruct (edge_ex _ _ P0 D2) as (u & Eu). rewrite Eu in E. rewrite N.div_mul in E by auto. cbv zeta in E.
  assert (Lu : u + cyc < 2 ^ 64) by nia. rewrite (W64_small _ Lu) in E. destruct (_ <=? _) in E; [|discriminate]. injection E as <-.
  split; [lia|]. rewrite N.add_sub. assert (NU : y_now s <= u * per) by (rewrite <- Eu; apply D4; auto; lia). split; auto.
  exists arr. split; [|auto]. split; auto. split; [lia|]. intros e' M Le.
  (* the next edge of the sender would be late, and it is at most one receiver cycle away *)
  destruct (N.le_gt_cases arr e') as [?|G]; auto. exfalso.
  assert (X : (u + 1) * per <= arr - d); [|lia]. apply D4; [apply edge_mod; auto|].
  destruct (edge_ex e' _ Np M) as (a & ->). destruct (edge_ex arr _ Np Z1) as (b & Eb). clear - G Eb Le Pd Np.
  assert (a + 1 <= b) by (destruct (N.le_gt_cases (a + 1) b) as [?|L]; auto; assert (b * y_per c <= a * y_per c) by (apply N.mul_le_mono_r; lia); lia).
  assert ((a + 1) * y_per c <= b * y_per c) by (apply N.mul_le_mono_r; auto). lia.
Qed.
End SPP.
Print Assumptions C52_edges.
Print Assumptions C52_exactly_once.
Print Assumptions C52_in_order.
Print Assumptions C52_arrival.
Print Assumptions C52_recirculate.
Print Assumptions C52_ready.
Print Assumptions C52_progress.
Print Assumptions C52_plain_in_order.
Print Assumptions C52_next_available.

(** Two senders of periods 4 and 6 and a receiver of period 10 whose port has a delay of a cycle; PortUpdate is phase 2 and Tick phase 5. The receiver is not ready
    from the tick after 12 to the tick 30. *)
Definition ex_c : ycfg := whole_delay [4; 6] 10 1 2.
Definition ex_ops : list (yop N) :=
  [YTime 4; YPhase 5; YSend 0 100 0 false; YTime 12; YReady false; YTime 20; YPhase 2; YFire; YTime 30; YReady true; YTime 40; YPhase 2; YFire; YPhase 5; YSend 0 101 1 false; YTime 42; YPhase 5;
   YSend 1 102 0 true; YTime 60; YPhase 2; YFire; YTime 70; YPhase 2; YFire].
Example C52_ex :
  match yrun ex_c (y_init ex_c true) ex_ops with
  | Some s => y_log s = [mkFly 40 100; mkFly 60 101; mkFly 70 102] /\ y_fly s = [] /\ latched s = true /\ next_cycle ex_c s 4 0 0 = None /\ sent ex_ops = [100; 101; 102] /\
      sets ex_c (y_init ex_c true) ex_ops = [(12, false); (30, true)]
  | None => False end /\ calm_run ex_c (y_init ex_c true) ex_ops.
Proof. split; [vm_compute; repeat split|]. vm_compute. repeat split; auto. Qed.
(** One sender with the clock of the receiver, sending in the Tick phase to a port with a delay of a cycle. *)
Definition ex_d : ycfg := whole_delay [10] 10 1 2.
Definition ex_ops2 : list (yop N) := [YTime 10; YPhase 5; YSend 0 100 0 false; YReady false; YTime 20; YPhase 2; YFire; YPhase 5; YReady true; YTime 40; YPhase 2; YFire; YPhase 5; YSend 0 101 0 false].
Example C52_plain_ex :
  match yrun ex_d (y_init ex_d true) ex_ops2 with
  | Some s => y_log s = [mkFly 40 100] /\ y_fly s = [mkFly 50 101] /\ next_cycle ex_d s 10 3 2 = Some 9
  | None => False end /\ plain_run ex_d (y_init ex_d true) ex_ops2.
Proof. split; [vm_compute; repeat split|]. vm_compute. repeat split; right; repeat split; try discriminate; repeat constructor. Qed.

(** Without these conditions the order is not kept: a datum that finds the receiver not ready comes after data sent later. *)
Theorem C52_order_refuted : exists c (ops : list (yop N)) s, yrun c (y_init c true) ops = Some s /\ sent ops = [100; 101] /\ y_log s = [mkFly 30 101; mkFly 40 100] /\ y_fly s = [].
Proof.
  exists ex_d, [YTime 10; YPhase 5; YReady false; YSend 0 100 0 false; YSend 0 101 1 false; YTime 20; YPhase 2; YFire; YPhase 5; YReady true; YTime 30; YPhase 2; YFire; YTime 40; YPhase 2; YFire].
  eexists. vm_compute. repeat split.
Qed.
Print Assumptions C52_order_refuted.
(** Or its delivery event fails an assertion and it is lost, the tick it would go round to being taken. *)
Theorem C52_not_ready_refuted : exists c (ops : list (yop N)) s, yrun c (y_init c true) ops = Some s /\ y_fly s = [mkFly 20 100; mkFly 30 101] /\ y_now s = 20 /\ y_phase s = y_ph c /\ latched s = false /\
  ystep c s YFire = None.
Proof. exists (whole_delay [10] 10 0 2), [YTime 10; YReady false; YTime 20; YSend 0 100 0 false; YSend 0 101 1 false; YPhase 2]. eexists. vm_compute. repeat split. Qed.
Print Assumptions C52_not_ready_refuted.
(** After the port has become ready it is not always one cycle until data that went round is delivered, as the comment of setReady says. *)
Theorem C52_one_cycle_refuted : exists c (ops : list (yop N)) s, yrun c (y_init c true) ops = Some s /\ sets c (y_init c true) ops = [(10, false); (20, true)] /\ y_per c = 10 /\ y_log s = [mkFly 40 100].
Proof. exists ex_d, ex_ops2. eexists. vm_compute. repeat split. Qed.
Print Assumptions C52_one_cycle_refuted.
(** isReady of the sender does not see what was sent in this cycle, couldAccept_ (859) giving the current tick as the delay: it says ready and send fails. *)
Theorem C52_is_ready_refuted : exists c (ops : list (yop N)) s, yrun c (y_init c true) ops = Some s /\ is_ready c s 0 = Some true /\ snd (y_send c s 0 101 0 false) = None.
Proof. exists ex_d, [YTime 10; YPhase 5; YSend 0 100 0 false]. eexists. vm_compute. repeat split. Qed.
Print Assumptions C52_is_ready_refuted.
(** Nor does it see data going round for the next cycle. *)
Theorem C52_is_ready_waiting_refuted : exists c (ops : list (yop N)) s, yrun c (y_init c true) ops = Some s /\ sent ops = [100] /\ y_now s = 30 /\ y_fly s = [mkFly 40 100] /\ is_ready c s 0 = Some true /\
  snd (y_send c s 0 101 0 false) = None.
Proof. exists ex_d, [YTime 10; YPhase 5; YSend 0 100 0 false; YReady false; YTime 20; YPhase 2; YFire; YPhase 5; YReady true; YTime 30; YPhase 5]. eexists. vm_compute. repeat split. Qed.
Print Assumptions C52_is_ready_waiting_refuted.
(** sendAndAllowSlide from a slow clock to a fast one fails for the second datum of a cycle, after it has been scheduled: it is delivered although refused. *)
Theorem C52_slide_refuted : exists c (ops : list (yop N)) s s', yrun c (y_init c true) ops = Some s /\ y_send c s 0 101 0 true = (s', None) /\ y_fly s = [mkFly 30 100] /\ y_fly s' = [mkFly 30 100; mkFly 40 101].
Proof. exists (whole_delay [30] 10 0 5), [YTime 30; YPhase 5; YSend 0 100 0 true]. eexists. eexists. vm_compute. repeat split. Qed.
Print Assumptions C52_slide_refuted.
(** For a sender slower than the receiver the next available cycle may be the current one when nothing can be sent in it. *)
Theorem C52_next_available_refuted : exists c (ops : list (yop N)) s, yrun c (y_init c true) ops = Some s /\ next_cycle c s 30 0 0 = Some 1 /\ get_cycle 30 (y_now s) = Ok 1 /\ snd (y_send c s 0 101 0 false) = None.
Proof. exists (whole_delay [30] 10 0 5), [YTime 30; YPhase 5; YSend 0 100 0 true]. eexists. vm_compute. repeat split. Qed.
Print Assumptions C52_next_available_refuted.
(** isDriven of the sender says no while data is in flight that will arrive before what could be sent now. *)
Theorem C52_driven_refuted : exists c (ops : list (yop N)) s, yrun c (y_init c true) ops = Some s /\ y_fly s = [mkFly 40 100] /\ out_driven c s 0 0 = Some false.
Proof. exists (whole_delay [10] 10 3 2), [YTime 10; YPhase 5; YSend 0 100 0 false; YTime 20]. eexists. vm_compute. repeat split. Qed.
Print Assumptions C52_driven_refuted.
(** setReady cannot change the state in tick 0, though it was not called before. *)
Theorem C52_tick_zero_refuted : exists c, ystep (A := N) c (y_init c true) (YReady false) = None.
Proof. exists ex_d. reflexivity. Qed.
Print Assumptions C52_tick_zero_refuted.
