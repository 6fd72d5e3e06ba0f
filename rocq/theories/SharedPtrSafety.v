(** Shared pointers: no undefined behaviour, and every call returns. *)
From Coq Require Import List ZArith Arith Bool Lia.
From Verif Require Import SharedPtrModel SharedPtrProofs.
Import ListNotations.

Definition dess (l : list task) : list nat := flat_map (fun t => match t with TDes v => [v] | _ => [] end) l.
Lemma dess_in : forall l v, In v (dess l) <-> In (TDes v) l.
Proof.
  intros l v. unfold dess. rewrite in_flat_map. split.
  - intros [t [H1 H2]]. destruct t; try destruct H2; [subst; auto|destruct H].
  - intros H. exists (TDes v). split; [auto|left; auto].
Qed.
Lemma NoDup_app_iff' : forall (A : Type) (l m : list A), NoDup (l ++ m) <-> NoDup l /\ NoDup m /\ forall x, In x l -> ~ In x m.
Proof.
  induction l as [|a l IH]; cbn; intros m; [split; [intros; split; [constructor|auto]|tauto]|].
  split.
  - intros H. inversion H as [|? ? N1 N2]; subst. apply IH in N2. destruct N2 as (A1 & A2 & A3). rewrite in_app_iff in N1. split; [constructor; tauto|]. split; auto. intros x [<-|X]; auto.
  - intros (H1 & H2 & H3). inversion H1; subst. constructor; [rewrite in_app_iff; intros [X|X]; [auto|apply (H3 a); auto]|]. apply IH. split; auto.
Qed.
Definition operand (f : src) : option nat := match f with FCopy w | FMove w => Some w | _ => None end.
Record OI (s : st) : Prop := {
  o_mem : forall b v, b < s_bn s -> In v (b_mem (s_blk s b)) -> exists x, s_vars s v = Some x /\ x_stale x = false /\ x_own x = Some b;
  o_memnd : forall b, b < s_bn s -> NoDup (b_mem (s_blk s b));
  o_dead : forall b, b < s_bn s -> b_obj (s_blk s b) = false -> b_mem (s_blk s b) = [];
  o_des : forall v, In (TDes v) (s_stack s) -> exists x, s_vars s v = Some x /\ x_stale x = false /\ x_own x <> None /\ forall b, b < s_bn s -> ~ In v (b_mem (s_blk s b));
  o_desnd : NoDup (dess (s_stack s));
  o_set : forall v f, In (TSet v f) (s_stack s) -> (forall x, s_vars s v = Some x -> x_own x = None) /\ forall w, operand f = Some w -> exists y, s_vars s w = Some y /\ x_own y = None;
  o_kill : forall v f u x, In (TSet v f) (s_stack s) -> In (TKill u) (s_stack s) -> s_vars s u = Some x -> x_own x <> None
}.
Lemma init_OI : forall cap, OI (sp_init cap).
Proof. intros cap. constructor; cbn; intros; try lia; try tauto; try constructor. Qed.

Lemma OI_frame : forall s s', OI s -> s_bn s' = s_bn s -> (forall b, b_mem (s_blk s' b) = b_mem (s_blk s b)) -> (forall b, b_obj (s_blk s' b) = b_obj (s_blk s b)) ->
  (forall t, In t (s_stack s') -> match t with TDes _ | TSet _ _ | TKill _ => In t (s_stack s) | _ => True end) -> NoDup (dess (s_stack s')) ->
  (forall v x, s_vars s v = Some x -> exists y, s_vars s' v = Some y /\ x_stale y = x_stale x /\ x_own y = x_own x) ->
  (forall v y, s_vars s' v = Some y -> exists x, s_vars s v = Some x /\ x_own y = x_own x) -> OI s'.
Proof.
  intros s s' J E1 EM EO ES ND V1 V2. destruct J. constructor.
  - intros b v. rewrite E1, EM. intros H1 H2. destruct (o_mem0 b v H1 H2) as [x [X1 [X2 X3]]]. destruct (V1 v x X1) as [y [Y1 [Y2 Y3]]]. exists y. split; auto. split; congruence.
  - intros b. rewrite E1, EM. auto.
  - intros b. rewrite E1, EO, EM. auto.
  - intros v H. apply (ES (TDes v)) in H. destruct (o_des0 v H) as [x [X1 [X2 [X3 X4]]]]. destruct (V1 v x X1) as [y [Y1 [Y2 Y3]]]. exists y. split; auto. split; [congruence|]. split; [congruence|]. intros b. rewrite E1, EM. auto.
  - auto.
  - intros v f H. apply (ES (TSet v f)) in H. destruct (o_set0 v f H) as [A1 A2]. split.
    + intros y Y. destruct (V2 v y Y) as [x [X1 X2]]. rewrite X2. eauto.
    + intros w W. destruct (A2 w W) as [x [X1 X2]]. destruct (V1 w x X1) as [y [Y1 [Y2 Y3]]]. exists y. split; congruence.
  - intros v f u y H1 H2 Y. apply (ES (TSet v f)) in H1. apply (ES (TKill u)) in H2. destruct (V2 u y Y) as [x [X1 X2]]. rewrite X2. eauto.
Qed.

Lemma gone_false : forall s b, b_rel (s_blk s b) = false -> gone s b = false.
Proof. intros s b H. unfold gone. rewrite H. apply andb_false_r. Qed.

(** unlink_ of a variable that no member list mentions. *)
Lemma unlink_OI : forall s v x K, Inv s -> OI s -> s_vars s v = Some x -> x_stale x = false -> (forall b, b < s_bn s -> ~ In v (b_mem (s_blk s b))) -> ~ In (TDes v) (s_stack s) ->
  (match K with TKill u => u = v /\ (x_own x <> None \/ forall w f, ~ In (TSet w f) (s_stack s))
   | TSet u f => u = v /\ s_stack s = [] /\ x_own x = None /\ forall w, operand f = Some w -> exists y, s_vars s w = Some y /\ x_own y = None | _ => False end) ->
  exists s', unlink s v K = Some s' /\ OI s'.
Proof.
  intros s v x K I J V SX NM ND HK. unfold unlink. rewrite V, SX.
  assert (G : forall s', s_bn s' = s_bn s -> (forall b, b_mem (s_blk s' b) = b_mem (s_blk s b)) -> (forall b, b_obj (s_blk s' b) = b_obj (s_blk s b)) ->
    s_vars s' = vset (s_vars s) v (Some (mkV (x_kind x) (x_ref x) true (x_own x))) -> (forall t, In t (s_stack s') -> match t with TDes _ | TSet _ _ | TKill _ => t = K \/ In t (s_stack s) | _ => True end) ->
    dess (s_stack s') = dess (s_stack s) -> OI s').
  { intros s' E1 EM EO EV ES ED. destruct J.
    assert (NV : forall w y, s_vars s w = Some y -> w <> v -> s_vars s' w = Some y) by (intros w y W NE; rewrite EV, vset_ne; auto).
    assert (VV : s_vars s' v = Some (mkV (x_kind x) (x_ref x) true (x_own x))) by (rewrite EV; apply vset_eq).
    assert (OW : forall w y, s_vars s' w = Some y -> exists z, s_vars s w = Some z /\ x_own z = x_own y).
    { intros w y W. destruct (Nat.eq_dec w v) as [->|NE]; [rewrite VV in W; injection W as <-; eauto|]. rewrite EV, vset_ne in W by auto. eauto. }
    assert (OW2 : forall w z, s_vars s w = Some z -> exists y, s_vars s' w = Some y /\ x_own y = x_own z).
    { intros w z W. destruct (Nat.eq_dec w v) as [->|NE]; [rewrite V in W; injection W as <-; eauto|]. eauto. }
    constructor.
    - intros b w. rewrite E1, EM. intros H1 H2. destruct (o_mem0 b w H1 H2) as [y [Y1 [Y2 Y3]]]. exists y. split; auto. apply NV; auto. intros ->. eapply NM; eauto.
    - intros b. rewrite E1, EM. auto.
    - intros b. rewrite E1, EO, EM. auto.
    - intros w H. apply dess_in in H. rewrite ED in H. apply dess_in in H. destruct (o_des0 w H) as [y [Y1 [Y2 [Y3 Y4]]]]. exists y. split; [apply NV; auto; intros ->; contradiction|]. split; auto. split; auto. intros b. rewrite E1, EM. auto.
    - rewrite ED. auto.
    - intros w f H. apply (ES (TSet w f)) in H. destruct H as [H|H].
      + subst K. destruct HK as (-> & EE & OX & OP). split; [intros y Y; rewrite VV in Y; injection Y as <-; auto|]. intros u U. destruct (OP u U) as [y [Y1 Y2]]. destruct (OW2 u y Y1) as [z [Z1 Z2]]. exists z. split; congruence.
      + destruct (o_set0 w f H) as [A1 A2]. split; [intros y Y; destruct (OW w y Y) as [z [Z1 Z2]]; rewrite <- Z2; eauto|]. intros u U. destruct (A2 u U) as [y [Y1 Y2]]. destruct (OW2 u y Y1) as [z [Z1 Z2]]. exists z. split; congruence.
    - intros w f u y H1 H2 Y. apply (ES (TSet w f)) in H1. apply (ES (TKill u)) in H2. destruct (OW u y Y) as [z [Z1 Z2]]. rewrite <- Z2. destruct H1 as [H1|H1].
      + subst K. destruct HK as (-> & EE & _). destruct H2 as [H2|H2]; [discriminate|]. rewrite EE in H2. destruct H2.
      + destruct H2 as [H2|H2]; [|eauto]. subst K. destruct HK as [-> [HK|HK]]; [congruence|exfalso; eapply HK; eauto]. }
  assert (KD : forall l, dess (K :: l) = dess l) by (intros l; destruct K; auto; destruct HK).
  assert (KS : forall t l, In t (K :: l) -> match t with TDes _ | TSet _ _ | TKill _ => t = K \/ In t l | _ => True end) by (intros t l [H|H]; destruct t; auto).
  destruct (x_ref x) as [b|] eqn:XR.
  - destruct (i_ref s I v x b V XR) as [B1 B2]. rewrite (gone_false s b B2). eexists. split; [reflexivity|]. apply G; clear G; auto.
    + intros c. cbn. unfold bset. destruct (Nat.eqb_spec c b) as [->|]; auto. destruct (x_kind x); auto.
    + intros c. cbn. unfold bset. destruct (Nat.eqb_spec c b) as [->|]; auto. destruct (x_kind x); auto.
    + intros t. cbn. intros [H|H]; [subst t; exact Logic.I|]. exact (KS t (s_stack s) H).
    + exact (KD (s_stack s)).
  - eexists. split; [reflexivity|]. apply G; clear G; auto. intros t. apply KS. exact (KD (s_stack s)).
Qed.

(** No step is undefined. *)
Lemma step_safe : forall s, Inv s -> KI s -> OI s -> exists s', step s = Some s' /\ OI s'.
Proof.
  intros s I K J. unfold step. destruct (s_stack s) as [|t r] eqn:E; [eauto|].
  assert (SUB : forall u, In u r -> match u with TDes _ | TSet _ _ | TKill _ => In u (s_stack s) | _ => True end) by (intros u H; rewrite E; destruct u; try exact Logic.I; right; auto).
  assert (NDR : NoDup (dess r)). { pose proof (o_desnd s J) as N. rewrite E in N. unfold dess in N. cbn [flat_map] in N. destruct t; auto. cbn in N. inversion N; auto. }
  destruct t.
  - destruct (pop_des s v r I E) as [I1 R1]. destruct (o_des s J v) as [x [X1 [X2 [X3 X4]]]]; [rewrite E; left; auto|].
    assert (J1 : OI (set_stack s r)) by (apply (OI_frame s); auto; cbn; eauto).
    apply (unlink_OI (set_stack s r) v x (TKill v) I1 J1 X1 X2 X4).
    + cbn. intros H. pose proof (o_desnd s J) as N. rewrite E in N. unfold dess in N. cbn in N. inversion N as [|? ? N1 N2]. apply N1. apply dess_in. auto.
    + split; auto.
  - destruct (rel_head s k v b r I E) as (K0 & q & -> & KO & RQ & B1 & B2). rewrite (gone_false s b B2). destruct (Z.eqb_spec (b_cnt (s_blk s b)) 0) as [Z0|Z0].
    + destruct (rel_destroy s k v b (K0 :: q) I E Z0) as (-> & O1 & O2 & _). rewrite O2. rewrite andb_false_r. eexists. split; [reflexivity|].
      set (s' := push _ _). assert (EV : s_vars s' = s_vars s) by reflexivity. assert (EN : s_bn s' = s_bn s) by reflexivity.
      assert (MB : forall c, c <> b -> s_blk s' c = s_blk s c) by (intros c NE; unfold s'; proj; rewrite bset_ne; auto).
      assert (MB2 : b_mem (s_blk s' b) = []) by (unfold s'; proj; rewrite bset_eq; auto).
      assert (ES : s_stack s' = (map TDes (b_mem (s_blk s b)) ++ [TFin v b]) ++ K0 :: q) by reflexivity.
      assert (DS : dess (s_stack s') = b_mem (s_blk s b) ++ dess (K0 :: q)).
      { rewrite ES. unfold dess. rewrite <- app_assoc, flat_map_app. f_equal. rewrite flat_map_concat_map, map_map. cbn. clear. induction (b_mem (s_blk s b)); cbn; congruence. }
      assert (ND0 : NoDup (dess (K0 :: q))) by (pose proof (o_desnd s J) as N; rewrite E in N; exact N).
      destruct J. constructor.
      * intros c w. rewrite EV, EN. intros H1 H2. destruct (Nat.eq_dec c b) as [->|NE]; [rewrite MB2 in H2; destruct H2|]. rewrite MB in H2 by auto. eauto.
      * intros c. rewrite EN. intros H1. destruct (Nat.eq_dec c b) as [->|NE]; [rewrite MB2; constructor|]. rewrite MB by auto. auto.
      * intros c. rewrite EN. intros H1 H2. destruct (Nat.eq_dec c b) as [->|NE]; auto. rewrite MB in * by auto. auto.
      * intros w H. apply dess_in in H. rewrite DS in H. rewrite EV. apply in_app_or in H. destruct H as [H|H].
        -- destruct (o_mem0 b w B1 H) as [x [X1 [X2 X3]]]. exists x. split; auto. split; auto. split; [congruence|]. rewrite EN. intros c H1 H2. destruct (Nat.eq_dec c b) as [->|NE]; [rewrite MB2 in H2; destruct H2|].
           rewrite MB in H2 by auto. destruct (o_mem0 c w H1 H2) as [y [Y1 [Y2 Y3]]]. congruence.
        -- destruct (o_des0 w) as [x [X1 [X2 [X3 X4]]]]; [rewrite E; right; apply dess_in; auto|]. exists x. split; auto. split; auto. split; auto. rewrite EN. intros c H1 H2. destruct (Nat.eq_dec c b) as [->|NE]; [rewrite MB2 in H2; destruct H2|].
           rewrite MB in H2 by auto. eapply X4; eauto.
      * rewrite DS. apply NoDup_app_iff'. split; [auto|]. split; auto. intros w H1 H2. destruct (o_des0 w) as [x [X1 [X2 [X3 X4]]]]; [rewrite E; right; apply dess_in; auto|]. eapply X4; eauto.
      * intros w f H. rewrite EV. apply (o_set0 w f). rewrite ES in H. rewrite E. right. rewrite <- app_assoc in H. apply in_app_or in H. destruct H as [H|H]; [apply in_map_iff in H; destruct H as [? [H _]]; discriminate|]. destruct H as [H|H]; [discriminate|auto].
      * intros w f u x H1 H2. rewrite EV.
        assert (TS : forall t, In t (s_stack s') -> match t with TSet _ _ | TKill _ => In t (s_stack s) | _ => True end).
        { intros t H. rewrite ES in H. rewrite <- app_assoc in H. rewrite E. apply in_app_or in H. destruct H as [H|[H|H]]; [apply in_map_iff in H; destruct H as [? [<- _]]; exact Logic.I|subst t; exact Logic.I|destruct t; auto; right; auto]. }
        apply (o_kill0 w f u x); [apply (TS (TSet w f)); auto|apply (TS (TKill u)); auto].
    + eexists. split; [reflexivity|]. apply (OI_frame s); auto; proj; eauto. intros u [<-|H]; [exact Logic.I|]. apply SUB. auto.
  - destruct (i_tvb s I (TFin v b) v b) as [y [Y1 [Y2 _]]]; [rewrite E; left; auto|auto|]. destruct (i_ref s I v y b Y1 Y2) as [B1 B2]. rewrite (gone_false s b B2). eexists. split; [reflexivity|].
    apply (OI_frame s); auto; proj; eauto.
    + intros c. unfold bset. destruct (Nat.eqb_spec c b) as [->|]; auto.
    + intros c. unfold bset. destruct (Nat.eqb_spec c b) as [->|]; auto.
    + intros u [<-|H]; [exact Logic.I|]. apply SUB. auto.
  - destruct (chk_head s v b r I E) as (K0 & q & y & -> & KO & RQ & B1 & B2 & Y1 & Y2 & Y3). rewrite (gone_false s b B2).
    destruct ((b_cnt (s_blk s b) <=? 0) && (b_wp (s_blk s b) =? 0))%Z eqn:C.
    + rewrite Y1. destruct (chk_free s v b (K0 :: q) y I E C Y1) as [F1 F2].
      assert (G : forall s', s_bn s' = s_bn s -> s_blk s' = bset (s_blk s) b (mkB (b_heap (s_blk s b)) (b_cnt (s_blk s b)) (b_wp (s_blk s b)) (b_p (s_blk s b)) (b_obj (s_blk s b)) true (b_uid (s_blk s b)) (b_mem (s_blk s b))) ->
        s_stack s' = K0 :: q -> s_vars s' = vset (s_vars s) v (Some (mkV (x_kind y) None (x_stale y) (x_own y))) -> OI s').
      { intros s' E1 E2 E3 E4. apply (OI_frame s); auto.
        - intros c. rewrite E2. unfold bset. destruct (Nat.eqb_spec c b) as [->|]; auto.
        - intros c. rewrite E2. unfold bset. destruct (Nat.eqb_spec c b) as [->|]; auto.
        - rewrite E3. auto.
        - rewrite E3. auto.
        - rewrite E4. intros w z W. destruct (Nat.eq_dec w v) as [->|NE]; [rewrite vset_eq; rewrite Y1 in W; injection W as <-; eauto|]. rewrite vset_ne by auto. eauto.
        - rewrite E4. intros w z W. destruct (Nat.eq_dec w v) as [->|NE]; [rewrite vset_eq in W; injection W as <-; eauto|]. rewrite vset_ne in W by auto. eauto. }
      destruct (b_heap (s_blk s b)) eqn:HH.
      * eexists. split; [reflexivity|]. apply G; auto.
      * destruct (F2 eq_refl) as [L _]. apply Nat.ltb_lt in L. rewrite L. eexists. split; [reflexivity|]. apply G; auto.
    + eexists. split; [reflexivity|]. apply (OI_frame s); auto; proj; eauto.
  - assert (EX : exists y, s_vars s v = Some y /\ x_stale y = true) by (apply (i_stale s I); rewrite E; left; auto). destruct EX as [y [Y1 Y2]]. rewrite Y1. eexists. split; [reflexivity|].
    assert (NV : forall w z, s_vars s w = Some z -> x_stale z = false -> w <> v) by (intros w z W SZ ->; congruence).
    destruct J. constructor; proj; auto.
    + intros c w H1 H2. destruct (o_mem0 c w H1 H2) as [z [Z1 [Z2 Z3]]]. rewrite vset_ne by eauto. eauto.
    + intros w H. destruct (o_des0 w) as [z [Z1 [Z2 [Z3 Z4]]]]; [rewrite E; right; auto|]. rewrite vset_ne by eauto. eauto.
    + intros w f H. assert (H' : In (TSet w f) (s_stack s)) by (rewrite E; right; auto). destruct (o_set0 w f H') as [A1 A2]. split.
      * intros z Z. destruct (Nat.eq_dec w v) as [->|NE]; [rewrite vset_eq in Z; discriminate|]. rewrite vset_ne in Z by auto. auto.
      * intros u U. destruct (A2 u U) as [z [Z1 Z2]]. exists z. split; auto. rewrite vset_ne; auto. intros ->. apply (o_kill0 w f v z); auto. rewrite E. left. auto.
    + intros w f u z H1 H2 Z. destruct (Nat.eq_dec u v) as [->|NE]; [rewrite vset_eq in Z; discriminate|]. rewrite vset_ne in Z by auto. apply (o_kill0 w f u z); auto; rewrite E; right; auto.
  - assert (EX : exists y, s_vars s v = Some y /\ x_stale y = true) by (apply (i_stale s I); rewrite E; left; auto). destruct EX as [y [Y1 Y2]]. rewrite Y1.
    pose proof (i_top s I) as T. rewrite E in T. cbn [top] in T. destruct T as [KO _]. cbn [kok] in KO. destruct KO as (_ & -> & FF).
    destruct (o_set s J v f) as [OV OW]; [rewrite E; left; auto|]. specialize (OV y Y1).
    assert (NM : forall c, c < s_bn s -> ~ In v (b_mem (s_blk s c))). { intros c H1 H2. destruct (o_mem s J c v H1 H2) as [z [Z1 [Z2 Z3]]]. congruence. }
    assert (G : forall s', s_stack s' = [] -> (forall c w, c < s_bn s' -> In w (b_mem (s_blk s' c)) -> c < s_bn s /\ In w (b_mem (s_blk s c))) -> (forall c, c < s_bn s' -> NoDup (b_mem (s_blk s' c)) /\ (b_obj (s_blk s' c) = false -> b_mem (s_blk s' c) = [])) ->
       (forall w z, w <> v -> s_vars s w = Some z -> exists z', s_vars s' w = Some z' /\ x_stale z' = x_stale z /\ x_own z' = x_own z) -> OI s').
    { intros s' E1 E2 E3 E4. constructor; rewrite ?E1; cbn; try tauto; try constructor.
      - intros c w H1 H2. destruct (E2 c w H1 H2) as [A1 A2]. destruct (o_mem s J c w A1 A2) as [z [Z1 [Z2 Z3]]]. destruct (E4 w z) as [z' [Z1' [Z2' Z3']]]; auto. intros ->. eapply NM; eauto. exists z'. split; auto. split; congruence.
      - intros c H. apply E3. auto.
      - intros c H. apply E3. auto. }
    assert (ND : forall c, c < s_bn s -> NoDup (b_mem (s_blk s c)) /\ (b_obj (s_blk s c) = false -> b_mem (s_blk s c) = [])) by (intros; split; [apply (o_memnd s J); auto|apply (o_dead s J); auto]).
    destruct f; try tauto; cbn [take].
    + cbn [set_stack s_vars]. rewrite Y1. eexists. split; [reflexivity|]. apply G; auto. intros w z NE Z. proj. rewrite vset_ne by auto. eauto.
    + cbn [new_blk set_stack s_vars]. rewrite Y1. eexists. split; [reflexivity|]. apply G; proj; auto.
      * intros c w H1 H2. destruct (Nat.eq_dec c (s_bn s)) as [->|NE]; [rewrite bset_eq in H2; destruct H2|]. rewrite bset_ne in H2 by auto. split; [lia|auto].
      * intros c H1. destruct (Nat.eq_dec c (s_bn s)) as [->|NE]; [rewrite bset_eq; split; [constructor|auto]|]. rewrite bset_ne by auto. apply ND. lia.
      * intros w z NE Z. rewrite vset_ne by auto. eauto.
    + destruct (OW w eq_refl) as [x [W1 W2]]. cbn [set_stack s_vars]. rewrite W1. destruct (x_ref x) as [b|] eqn:XR.
      * destruct (i_ref s I w x b W1 XR) as [B1 B2]. rewrite gone_false by auto. cbn [bump set_blk s_vars set_stack]. rewrite Y1. eexists. split; [reflexivity|].
        apply G; unfold bump; proj; auto.
        -- intros c u H1 H2. split; auto. unfold bset in H2. destruct (Nat.eqb_spec c b) as [->|]; auto. destruct (x_kind x); auto.
        -- intros c H1. unfold bset. destruct (Nat.eqb_spec c b) as [->|]; auto. destruct (x_kind x); cbn; auto.
        -- intros u z NE Z. destruct (x_kind x); cbn; rewrite vset_ne by auto; eauto.
      * cbn [set_stack s_vars]. rewrite Y1. eexists. split; [reflexivity|]. apply G; auto. intros u z NE Z. proj. rewrite vset_ne by auto. eauto.
    + destruct (OW w eq_refl) as [x [W1 W2]]. cbn [set_stack s_vars]. rewrite W1. cbn [set_var set_stack s_vars].
      assert (EV : exists y', vset (s_vars s) w (Some (mkV (x_kind x) None (x_stale x) (x_own x))) v = Some y') by (destruct (Nat.eq_dec v w) as [->|NE]; [rewrite vset_eq; eauto|rewrite vset_ne by auto; eauto]).
      destruct EV as [y' EV]. rewrite EV. eexists. split; [reflexivity|]. apply G; proj; auto.
      intros u z NE Z. rewrite vset_ne by auto. destruct (Nat.eq_dec u w) as [->|NE2]; [rewrite vset_eq; rewrite W1 in Z; injection Z as <-; eauto|rewrite vset_ne by auto; eauto].
Qed.

(** Calls that take a reference away are made on local variables, with local operands. *)
Definition is_local (s : st) (v : nat) : Prop := forall x, s_vars s v = Some x -> x_own x = None.
Definition local_ok (s : st) (o : sop) : Prop :=
  match o with Reset v | ResetNew v => is_local s v | Assign v w | MoveAssign v w => is_local s v /\ is_local s w | _ => True end.

Lemma take_safe : forall s f k, Inv s -> s_stack s = [] -> fits s k f = true ->
  take s f = Some None \/
  exists s1 k1 rf, take s f = Some (Some (s1, k1, rf)) /\ s_bn s <= s_bn s1 /\ s_vn s1 = s_vn s /\
    (forall c, c < s_bn s1 -> (c < s_bn s /\ b_mem (s_blk s1 c) = b_mem (s_blk s c) /\ b_obj (s_blk s1 c) = b_obj (s_blk s c)) \/ (b_mem (s_blk s1 c) = [] /\ b_obj (s_blk s1 c) = true)) /\
    (forall c, c < s_bn s -> b_obj (s_blk s c) = true -> b_mem (s_blk s1 c) = b_mem (s_blk s c) /\ b_obj (s_blk s1 c) = true) /\
    (forall w z, s_vars s w = Some z -> exists z', s_vars s1 w = Some z' /\ x_stale z' = x_stale z /\ x_own z' = x_own z).
Proof.
  intros s f k I E FT.
  assert (BUMP : forall k0 b c, b_mem (s_blk (bump s k0 b 1) c) = b_mem (s_blk s c) /\ b_obj (s_blk (bump s k0 b 1) c) = b_obj (s_blk s c)).
  { intros k0 b c. unfold bump. proj. unfold bset. destruct (Nat.eqb_spec c b) as [->|]; auto. destruct k0; auto. }
  assert (SH : forall k0 w x, s_vars s w = Some x -> exists s1 k1 rf, (match x_ref x with Some b => if gone s b then None else Some (Some (bump s k0 b 1, k0, Some b)) | None => Some (Some (s, k0, None)) end) = Some (Some (s1, k1, rf)) /\
      s_bn s <= s_bn s1 /\ s_vn s1 = s_vn s /\
    (forall c, c < s_bn s1 -> (c < s_bn s /\ b_mem (s_blk s1 c) = b_mem (s_blk s c) /\ b_obj (s_blk s1 c) = b_obj (s_blk s c)) \/ (b_mem (s_blk s1 c) = [] /\ b_obj (s_blk s1 c) = true)) /\
    (forall c, c < s_bn s -> b_obj (s_blk s c) = true -> b_mem (s_blk s1 c) = b_mem (s_blk s c) /\ b_obj (s_blk s1 c) = true) /\
    (forall w z, s_vars s w = Some z -> exists z', s_vars s1 w = Some z' /\ x_stale z' = x_stale z /\ x_own z' = x_own z)).
  { intros k0 w x W. destruct (x_ref x) as [b|] eqn:XR.
    - destruct (i_ref s I w x b W XR) as [B1 B2]. rewrite gone_false by auto. do 3 eexists. split; [reflexivity|]. split; [auto|]. split; [auto|]. split; [|split].
      + intros c H. left. split; auto.
      + intros c H1 H2. destruct (BUMP k0 b c). split; congruence.
      + intros u z Z. exists z. auto.
    - do 3 eexists. split; [reflexivity|]. split; [auto|]. split; [auto|]. split; [|split]; eauto. }
  destruct f; cbn [take].
  - right. do 3 eexists. split; [reflexivity|]. split; [auto|]. split; [auto|]. split; [|split]; eauto.
  - right. cbn [new_blk]. do 3 eexists. split; [reflexivity|]. proj. split; [auto|]. split; [auto|]. split; [|split]; eauto.
    + intros c H. destruct (Nat.eq_dec c (s_bn s)) as [->|NE]; [right; rewrite bset_eq; auto|]. left. rewrite bset_ne by auto. split; [lia|auto].
    + intros c H1 H2. rewrite bset_ne by lia. auto.
  - unfold allocate. destruct (s_free s) as [|b r] eqn:F.
    + destruct (Nat.leb (s_cap s) (length (s_arena s))); [auto|]. right. cbn [new_blk]. do 3 eexists. split; [reflexivity|]. proj. split; [auto|]. split; [auto|]. split; [|split]; eauto.
      * intros c H. destruct (Nat.eq_dec c (s_bn s)) as [->|NE]; [right; rewrite bset_eq; auto|]. left. rewrite bset_ne by auto. split; [lia|auto].
      * intros c H1 H2. rewrite bset_ne by lia. auto.
    + assert (IF : In b (s_free s)) by (rewrite F; left; auto). apply (i_free s I) in IF. destruct IF as [A R]. apply (i_ar s I) in A. destruct A as [A1 A2].
      rewrite (i_p s I b A1 (or_intror A2)). destruct (i_rel s I b A1 R) as [_ OB]. right. do 3 eexists. split; [reflexivity|]. proj. split; [auto|]. split; [auto|]. split; [|split]; eauto.
      * intros c H. destruct (Nat.eq_dec c b) as [->|NE]; [right; rewrite bset_eq; auto|]. left. rewrite bset_ne by auto. auto.
      * intros c H1 H2. rewrite bset_ne by congruence. auto.
  - right. cbn [fits] in FT. unfold has_kind in FT. destruct (s_vars s w) as [x|] eqn:W; [|discriminate]. destruct (SH (x_kind x) w x W) as (s1 & k1 & rf & A & B). exists s1, k1, rf. split; auto. destruct (x_ref x); auto.
  - right. cbn [fits] in FT. unfold has_kind in FT. destruct (s_vars s w) as [x|] eqn:W; [|discriminate]. do 3 eexists. split; [reflexivity|]. proj. split; [auto|]. split; [auto|]. split; [|split]; eauto.
    intros u z Z. destruct (Nat.eq_dec u w) as [->|NE]; [rewrite vset_eq; rewrite W in Z; injection Z as <-; eauto|rewrite vset_ne by auto; eauto].
  - right. cbn [fits] in FT. apply andb_true_iff in FT. destruct FT as [_ FT]. unfold has_kind in FT. destruct (s_vars s w) as [x|] eqn:W; [|discriminate]. destruct (SH Weak w x W) as (s1 & k1 & rf & A & B). exists s1, k1, rf. split; auto. destruct (x_ref x); auto.
  - right. cbn [fits] in FT. apply andb_true_iff in FT. destruct FT as [_ FT]. unfold has_kind in FT. destruct (s_vars s w) as [x|] eqn:W; [|discriminate]. destruct (SH Strong w x W) as (s1 & k1 & rf & A & B). exists s1, k1, rf. split; auto. destruct (x_ref x); auto.
Qed.

Lemma call_safe : forall s o, Inv s -> OI s -> local_ok s o -> exists s', call s o = Some s' /\ OI s'.
Proof.
  intros s o I J LO. unfold call. destruct (s_stack s) as [|t r] eqn:E; [|eauto].
  assert (NS : forall w z, s_vars s w = Some z -> x_stale z = false).
  { intros w z Z. destruct (x_stale z) eqn:SZ; auto. assert (H : In w (kvars (s_stack s))) by (apply (i_stale s I); eauto). rewrite E in H. destruct H. }
  assert (NM : forall v x, s_vars s v = Some x -> x_own x = None -> forall b, b < s_bn s -> ~ In v (b_mem (s_blk s b))).
  { intros v x V OX b B H. destruct (o_mem s J b v B H) as [z [Z1 [Z2 Z3]]]. congruence. }
  assert (ND : forall v, ~ In (TDes v) (s_stack s)) by (intros v; rewrite E; auto).
  assert (HK : forall k v, has_kind s k v = true -> exists x, s_vars s v = Some x) by (intros k v H; unfold has_kind in H; destruct (s_vars s v); [eauto|discriminate]).
  destruct o.
  - assert (G : forall ob, (forall b, ob = Some b -> b < s_bn s /\ b_obj (s_blk s b) = true) -> exists s', (if fits s k f then match take s f with None => None | Some None => Some s | Some (Some (s1, _, rf)) =>
       let v := s_vn s1 in let s2 := mkS (vset (s_vars s1) v (Some (mkV k rf false ob))) (S v) (s_blk s1) (s_bn s1) (s_arena s1) (s_free s1) (s_cap s1) (s_stack s1) (s_log s1) (s_un s1) in
       Some (match ob with Some b => set_blk s2 b (with_mem (s_blk s2 b) (v :: b_mem (s_blk s2 b))) | None => s2 end) end else Some s) = Some s' /\ OI s').
    { intros ob OB. destruct (fits s k f) eqn:FT; [|eauto]. destruct (take_safe s f k I E FT) as [TK|(s1 & k1 & rf & TK & T1 & T2 & T3 & T4 & T5)]; rewrite TK; [eauto|]. apply take_stack in TK. rewrite E in TK.
      cbv zeta. eexists. split; [reflexivity|].
      assert (V0 : s_vars s (s_vn s) = None) by (destruct (s_vars s (s_vn s)) eqn:EV; auto; exfalso; assert (s_vn s < s_vn s) by (apply (i_dom s I); congruence); lia).
      assert (M1 : forall c w, c < s_bn s1 -> In w (b_mem (s_blk s1 c)) -> exists x, s_vars s w = Some x /\ x_stale x = false /\ x_own x = Some c).
      { intros c w H1 H2. destruct (T3 c H1) as [[A1 [A2 A3]]|[A1 A2]]; [|rewrite A1 in H2; destruct H2]. rewrite A2 in H2. apply (o_mem s J c w A1 H2). }
      assert (M2 : forall c w, c < s_bn s1 -> In w (b_mem (s_blk s1 c)) -> exists x, vset (s_vars s1) (s_vn s1) (Some (mkV k rf false ob)) w = Some x /\ x_stale x = false /\ x_own x = Some c).
      { intros c w H1 H2. destruct (M1 c w H1 H2) as [x [X1 [X2 X3]]]. rewrite T2. rewrite vset_ne by (intros ->; congruence). destruct (T5 w x X1) as [z [Z1 [Z2 Z3]]]. exists z. split; auto. split; congruence. }
      assert (M3 : forall c, c < s_bn s1 -> NoDup (b_mem (s_blk s1 c)) /\ (b_obj (s_blk s1 c) = false -> b_mem (s_blk s1 c) = [])).
      { intros c H1. destruct (T3 c H1) as [[A1 [A2 A3]]|[A1 A2]]; [|rewrite A1; split; [constructor|auto]]. rewrite A2, A3. split; [apply (o_memnd s J); auto|apply (o_dead s J); auto]. }
      destruct ob as [b|].
      - destruct (OB b eq_refl) as [B1 B2]. destruct (T4 b B1 B2) as [B3 B4]. constructor; unfold set_blk; proj; rewrite ?TK; cbn [In dess flat_map]; try tauto; try constructor.
        + intros c w H1 H2. destruct (Nat.eq_dec c b) as [->|NE]; [|rewrite bset_ne in H2 by auto; auto]. rewrite bset_eq in H2. cbn [b_mem with_mem] in H2. destruct H2 as [H2|H2]; [|auto].
          subst w. rewrite vset_eq. eexists. split; [reflexivity|]. auto.
        + intros c H1. destruct (Nat.eq_dec c b) as [->|NE]; [|rewrite bset_ne by auto; apply M3; auto]. rewrite bset_eq. cbn [b_mem with_mem]. constructor; [|apply M3; auto].
          intros H. destruct (M1 b (s_vn s1) H1 H) as [x [X1 _]]. rewrite T2 in X1. congruence.
        + intros c H1. destruct (Nat.eq_dec c b) as [->|NE]; [|rewrite bset_ne by auto; apply M3; auto]. rewrite bset_eq. cbn. congruence.
      - constructor; proj; rewrite ?TK; cbn [In dess flat_map]; try tauto; try constructor; auto; intros c H1; apply M3; auto. }
    destruct o as [u|]; [destruct (target s u) as [b|] eqn:TG|].
    + apply (G (Some b)). intros b' Hb. injection Hb as <-. unfold target in TG. destruct (s_vars s u) as [x|] eqn:U; [|discriminate]. destruct (x_kind x); [|discriminate]. destruct (x_ref x) as [c|] eqn:XR; [|discriminate].
      destruct (b_obj (s_blk s c)) eqn:OC; [|discriminate]. injection TG as <-. destruct (i_ref s I u x c U XR). auto.
    + eauto.
    + apply (G None). discriminate.
  - destruct (s_vars s v) as [x|] eqn:V; [|eauto]. destruct (x_own x) eqn:OX; [eauto|]. apply (unlink_OI s v x (TKill v) I J V); eauto. split; auto. right. rewrite E. auto.
  - destruct (has_kind s Strong v) eqn:H; [|eauto]. destruct (HK _ _ H) as [x V]. cbn [local_ok] in LO. specialize (LO x V). apply (unlink_OI s v x (TSet v FNull) I J V); eauto. split; auto. split; auto. split; auto. discriminate.
  - destruct (has_kind s Strong v) eqn:H; [|eauto]. destruct (HK _ _ H) as [x V]. cbn [local_ok] in LO. specialize (LO x V). apply (unlink_OI s v x (TSet v FHeap) I J V); eauto. split; auto. split; auto. split; auto. discriminate.
  - cbn [local_ok] in LO. destruct LO as [L1 L2].
    assert (GD : forall k, has_kind s k v = true -> has_kind s k w = true -> exists s', unlink s v (TSet v (FCopy w)) = Some s' /\ OI s').
    { intros k H1 H2. destruct (HK _ _ H1) as [x V]. destruct (HK _ _ H2) as [y W]. pose proof (L1 x V). apply (unlink_OI s v x _ I J V); eauto. split; auto. split; auto. split; auto. intros u U. injection U as <-. exists y. split; auto. }
    destruct (has_kind s Strong v && has_kind s Strong w)%bool eqn:HS.
    + apply andb_true_iff in HS. destruct HS. destruct (Nat.eqb_spec v w); eauto.
    + destruct (has_kind s Weak v && has_kind s Weak w)%bool eqn:HW; [|eauto]. apply andb_true_iff in HW. destruct HW. eauto.
  - cbn [local_ok] in LO. destruct LO as [L1 L2].
    assert (GD : forall k, has_kind s k v = true -> has_kind s k w = true -> exists s', unlink s v (TSet v (FMove w)) = Some s' /\ OI s').
    { intros k H1 H2. destruct (HK _ _ H1) as [x V]. destruct (HK _ _ H2) as [y W]. pose proof (L1 x V). apply (unlink_OI s v x _ I J V); eauto. split; auto. split; auto. split; auto. intros u U. injection U as <-. exists y. split; auto. }
    destruct (has_kind s Strong v && has_kind s Strong w)%bool eqn:HS.
    + apply andb_true_iff in HS. destruct HS. destruct (Nat.eqb_spec v w); eauto.
    + destruct (has_kind s Weak v && has_kind s Weak w)%bool eqn:HW; [|eauto]. apply andb_true_iff in HW. destruct HW. eauto.
Qed.

(** Termination. *)
Definition act_ind (x : option var) : nat := match x with Some y => if x_stale y then 0 else 1 | None => 0 end.
Fixpoint actives (f : nat -> option var) (n : nat) : nat := match n with O => 0 | S m => actives f m + act_ind (f m) end.
Definition weight (t : task) : nat := match t with TDes _ => 0 | TRel _ _ _ => 3 | TFin _ _ => 2 | TChk _ _ => 1 | TKill _ => 1 | TSet _ _ => 8 end.
Definition weights (l : list task) : nat := fold_right (fun t a => weight t + a) 0 l.
Definition measure (s : st) : nat := 6 * actives (s_vars s) (s_vn s) + weights (s_stack s).
Lemma actives_out : forall n f v x, n <= v -> actives (vset f v x) n = actives f n.
Proof. induction n; intros; cbn [actives]; auto. rewrite IHn by lia. now rewrite vset_ne by lia. Qed.
Lemma actives_set : forall n f v x, v < n -> actives (vset f v x) n + act_ind (f v) = actives f n + act_ind x.
Proof.
  induction n; intros f v x L; [lia|]. cbn [actives]. destruct (Nat.eq_dec v n) as [->|NE].
  - rewrite actives_out by lia. rewrite vset_eq. lia.
  - rewrite vset_ne by lia. specialize (IHn f v x ltac:(lia)). lia.
Qed.
Lemma weights_app : forall l m, weights (l ++ m) = weights l + weights m.
Proof. unfold weights. induction l; intros; cbn [app fold_right]; auto. rewrite IHl. lia. Qed.
Lemma weights_des : forall l, weights (map TDes l) = 0.
Proof. induction l; auto. Qed.

Lemma step_less : forall s s', Inv s -> s_stack s <> [] -> step s = Some s' -> measure s' < measure s \/ (s' = s /\ exists v f r, s_stack s = TSet v f :: r /\ take (set_stack s r) f = Some None).
Proof.
  intros s s' I NE ST. unfold step in ST. unfold measure. destruct (s_stack s) as [|t r] eqn:E; [congruence|]. destruct t.
  - left. unfold unlink in ST. proj. cbn [set_stack s_vars] in ST. destruct (s_vars s v) as [x|] eqn:V; [|discriminate]. destruct (x_stale x) eqn:SX; [discriminate|].
    assert (DV : v < s_vn s) by (apply (i_dom s I); congruence).
    pose proof (actives_set (s_vn s) (s_vars s) v (Some (mkV (x_kind x) (x_ref x) true (x_own x))) DV) as A. rewrite V in A. cbn [act_ind x_stale] in A. rewrite SX in A.
    destruct (x_ref x) as [b|].
    + match type of ST with context[if ?g then _ else _] => destruct g end; [discriminate|]. apply Some_inj' in ST. subst s'. unfold bump. proj. cbn [weights fold_right weight]. unfold weights. lia.
    + apply Some_inj' in ST. subst s'. proj. cbn [weights fold_right weight]. unfold weights. lia.
  - left. destruct (gone s b); [discriminate|]. destruct (b_cnt (s_blk s b) =? 0)%Z.
    + apply Some_inj' in ST. subst s'.
      set (s2 := if (b_heap (s_blk s b) && negb (b_p (s_blk s b)))%bool then _ else _). assert (A1 : s_vars s2 = s_vars s /\ s_vn s2 = s_vn s /\ s_stack s2 = r) by (unfold s2; destruct (_ && _)%bool; auto). destruct A1 as (A1 & A2 & A3).
      cbn [push set_stack s_vars s_vn s_stack]. rewrite A1, A2, A3, !weights_app, weights_des. change (weights [TFin v b]) with 2. change (weights (TRel k v b :: r)) with (3 + weights r). lia.
    + apply Some_inj' in ST. subst s'. proj. cbn [weights fold_right weight]. unfold weights. lia.
  - left. destruct (gone s b); [discriminate|]. apply Some_inj' in ST. subst s'. proj. cbn [weights fold_right weight]. unfold weights. lia.
  - left. destruct (gone s b); [discriminate|]. destruct ((b_cnt (s_blk s b) <=? 0) && (b_wp (s_blk s b) =? 0))%Z.
    + destruct (s_vars s v) as [y|] eqn:Y; [|discriminate]. assert (DV : v < s_vn s) by (apply (i_dom s I); congruence).
      pose proof (actives_set (s_vn s) (s_vars s) v (Some (mkV (x_kind y) None (x_stale y) (x_own y))) DV) as A. rewrite Y in A. cbn [act_ind x_stale] in A.
      assert (G : s_vars s' = vset (s_vars s) v (Some (mkV (x_kind y) None (x_stale y) (x_own y))) /\ s_vn s' = s_vn s /\ s_stack s' = r).
      { destruct (b_heap (s_blk s b)); [|destruct (Nat.ltb _ _); [|discriminate]]; apply Some_inj' in ST; subst s'; auto. }
      destruct G as (-> & -> & ->). change (weights (TChk v b :: r)) with (1 + weights r). destruct (x_stale y); lia.
    + apply Some_inj' in ST. subst s'. proj. cbn [weights fold_right weight]. unfold weights. lia.
  - left. destruct (s_vars s v) as [y|] eqn:Y; [|discriminate]. assert (DV : v < s_vn s) by (apply (i_dom s I); congruence). apply Some_inj' in ST. subst s'. proj.
    pose proof (actives_set (s_vn s) (s_vars s) v None DV) as A. cbn [act_ind] in A. cbn [weights fold_right weight]. unfold weights. lia.
  - destruct (s_vars s v) as [y|] eqn:Y; [|discriminate]. assert (DV : v < s_vn s) by (apply (i_dom s I); congruence).
    destruct (take (set_stack s r) f) as [[[[s1 k1] rf]|]|] eqn:TK; [| |discriminate].
    + left. pose proof (take_stack _ _ _ _ _ TK) as TS. cbn [set_stack s_stack] in TS.
      assert (A1 : actives (s_vars s1) (s_vn s1) = actives (s_vars s) (s_vn s) /\ s_vn s1 = s_vn s).
      { destruct f; cbn [take] in TK.
        - injection TK as <- _ _. auto.
        - injection TK as <- _ _. auto.
        - unfold allocate in TK. cbn [set_stack s_free] in TK. destruct (s_free s) as [|b l].
          + destruct (Nat.leb _ _); [discriminate|]. injection TK as <- _ _. auto.
          + destruct (b_p _); [|discriminate]. injection TK as <- _ _. auto.
        - cbn [set_stack s_vars] in TK. destruct (s_vars s w) as [x|]; [|discriminate]. destruct (x_ref x); [match type of TK with context[if ?g then _ else _] => destruct g end; [discriminate|]|]; injection TK as <- _ _; auto.
        - cbn [set_stack s_vars] in TK. destruct (s_vars s w) as [x|] eqn:W; [|discriminate]. injection TK as <- _ _. proj. assert (DW : w < s_vn s) by (apply (i_dom s I); congruence).
          pose proof (actives_set (s_vn s) (s_vars s) w (Some (mkV (x_kind x) None (x_stale x) (x_own x))) DW) as A. rewrite W in A. cbn [act_ind x_stale] in A. split; auto. lia.
        - cbn [set_stack s_vars] in TK. destruct (s_vars s w) as [x|]; [|discriminate]. destruct (x_ref x); [match type of TK with context[if ?g then _ else _] => destruct g end; [discriminate|]|]; injection TK as <- _ _; auto.
        - cbn [set_stack s_vars] in TK. destruct (s_vars s w) as [x|]; [|discriminate]. destruct (x_ref x); [match type of TK with context[if ?g then _ else _] => destruct g end; [discriminate|]|]; injection TK as <- _ _; auto. }
      destruct A1 as [A1 A2]. destruct (s_vars s1 v) as [z|] eqn:Z; [|discriminate]. apply Some_inj' in ST. subst s'. proj.
      match goal with |- context[vset (s_vars s1) v ?a] => pose proof (actives_set (s_vn s1) (s_vars s1) v a ltac:(rewrite A2; auto)) as A; cbn [act_ind x_stale] in A end.
      rewrite TS. cbn [weights fold_right weight]. unfold weights. lia.
    + right. apply Some_inj' in ST. subst s'. split; auto. exists v, f, r. auto.
Qed.

(** Every call returns, and nothing undefined happens on the way. *)
Lemma finish : forall n s, measure s <= n -> Inv s -> KI s -> OI s -> exists m s', run s (repeat Step m) = Some s' /\ s_stack s' = [] /\ Inv s' /\ KI s' /\ OI s'.
Proof.
  induction n as [|n IH]; intros s L I K J.
  - exists 0, s. split; auto. split; auto. unfold measure in L. destruct (s_stack s) as [|t r] eqn:E; auto.
    destruct t; cbn in L; try lia. exfalso. destruct (o_des s J v) as [x [X1 [X2 _]]]; [rewrite E; left; auto|]. assert (DV : v < s_vn s) by (apply (i_dom s I); congruence).
    pose proof (actives_set (s_vn s) (s_vars s) v None DV) as A. rewrite X1 in A. cbn in A. rewrite X2 in A. lia.
  - destruct (s_stack s) as [|t r] eqn:E; [exists 0, s; auto|]. destruct (step_safe s I K J) as [s1 [ST J1]]. destruct (step_inv s s1 I K ST) as [I1 K1].
    destruct (step_less s s1 I ltac:(rewrite E; discriminate) ST) as [LT|[_ (v & f & r' & E' & TK)]].
    + destruct (IH s1 ltac:(lia) I1 K1 J1) as (m & s' & R & REST). exists (S m), s'. cbn [repeat run do1]. rewrite ST. auto.
    + exfalso. apply take_throw in TK. subst f. pose proof (i_top s I) as T. rewrite E' in T. cbn [top kok] in T. tauto.
Qed.
