(** Lemmas about the shared pointer model. *)
From Coq Require Import List ZArith Arith Bool Lia.
From Verif Require Import SharedPtrModel.
Import ListNotations.

Definition ind (x : option var) (k : kind) (b : nat) : nat :=
  match x with
  | Some y => if (negb (x_stale y) && kind_eqb (x_kind y) k && match x_ref y with Some c => Nat.eqb c b | None => false end)%bool then 1 else 0
  | None => 0
  end.
Fixpoint refs (f : nat -> option var) (n : nat) (k : kind) (b : nat) : nat :=
  match n with O => 0 | S m => refs f m k b + ind (f m) k b end.
Lemma kind_eqb_refl : forall k, kind_eqb k k = true. Proof. destruct k; auto. Qed.
Lemma kind_eqb_eq : forall a b, kind_eqb a b = true -> a = b. Proof. destruct a, b; auto; discriminate. Qed.
Lemma vset_eq : forall f v x, vset f v x v = x. Proof. intros. unfold vset. now rewrite Nat.eqb_refl. Qed.
Lemma vset_ne : forall f v x w, w <> v -> vset f v x w = f w. Proof. intros. unfold vset. destruct (Nat.eqb_spec w v); congruence. Qed.
Lemma bset_eq : forall f v x, bset f v x v = x. Proof. intros. unfold bset. now rewrite Nat.eqb_refl. Qed.
Lemma bset_ne : forall f v x w, w <> v -> bset f v x w = f w. Proof. intros. unfold bset. destruct (Nat.eqb_spec w v); congruence. Qed.
Lemma refs_out : forall n f v x k b, n <= v -> refs (vset f v x) n k b = refs f n k b.
Proof. induction n; intros; cbn [refs]; auto. rewrite IHn by lia. now rewrite vset_ne by lia. Qed.
Lemma refs_set : forall n f v x k b, v < n -> refs (vset f v x) n k b + ind (f v) k b = refs f n k b + ind x k b.
Proof.
  induction n; intros f v x k b L; [lia|]. cbn [refs]. destruct (Nat.eq_dec v n) as [->|NE].
  - rewrite refs_out by lia. rewrite vset_eq. lia.
  - rewrite vset_ne by lia. specialize (IHn f v x k b ltac:(lia)). lia.
Qed.
Lemma refs_ge : forall n f v k b, v < n -> ind (f v) k b <= refs f n k b.
Proof. induction n; intros f v k b L; [lia|]. cbn [refs]. destruct (Nat.eq_dec v n) as [->|NE]; [lia|]. specialize (IHn f v k b ltac:(lia)). lia. Qed.
Lemma refs_pos : forall n f k b, 0 < refs f n k b -> exists v, v < n /\ ind (f v) k b = 1.
Proof.
  induction n; cbn [refs]; intros f k b L; [lia|]. destruct (ind (f n) k b) as [|m] eqn:E.
  - destruct (IHn f k b ltac:(lia)) as [v [A B]]. exists v. split; auto.
  - exists n. split; [lia|]. unfold ind in *. destruct (f n); [|discriminate]. destruct (_ && _ && _)%bool; [auto|discriminate].
Qed.
Lemma ind_iff : forall x k b, ind x k b = 1 <-> exists o, x = Some (mkV k (Some b) false o).
Proof.
  intros x k b. unfold ind. split.
  - destruct x as [[k' r s o]|]; [|discriminate]. cbn. destruct s; [discriminate|]. cbn. destruct (kind_eqb k' k) eqn:E; [|discriminate]. cbn.
    destruct r as [c|]; [|discriminate]. destruct (Nat.eqb_spec c b); [|discriminate]. intros _. apply kind_eqb_eq in E. subst. eauto.
  - intros [o ->]. cbn. now rewrite kind_eqb_refl, Nat.eqb_refl.
Qed.

Lemma Some_inj' : forall (A : Type) (a b : A), Some a = Some b -> a = b. Proof. congruence. Qed.
(** Tasks. *)
Definition kv (t : task) : list nat := match t with TKill v => [v] | TSet v _ => [v] | _ => [] end.
Definition kvars (l : list task) : list nat := flat_map kv l.
Definition fins (b : nat) (l : list task) : nat := length (filter (fun t => match t with TFin _ c => Nat.eqb c b | _ => false end) l).
Definition kok (t : task) (v : nat) (r : list task) : Prop :=
  match t with
  | TKill w => w = v
  | TSet w f => w = v /\ r = [] /\ match f with FNull | FHeap | FCopy _ | FMove _ => True | _ => False end
  | _ => False
  end.
Fixpoint rest (l : list task) : Prop :=
  match l with
  | [] => True
  | TDes _ :: r => rest r
  | TFin v _ :: r => match r with k :: q => kok k v q /\ rest q | [] => False end
  | _ => False
  end.
Definition top (l : list task) : Prop :=
  match l with
  | TRel _ v _ :: k :: r | TChk v _ :: k :: r => kok k v r /\ rest r
  | TRel _ _ _ :: [] | TChk _ _ :: [] => False
  | (TKill v as k) :: r | (TSet v _ as k) :: r => kok k v r /\ rest r
  | _ => rest l
  end.
Definition hd_rel (l : list task) (b : nat) : Prop := match l with TRel Strong _ c :: _ => c = b | _ => False end.
Definition hd_any (l : list task) (b : nat) : Prop := match l with TRel _ _ c :: _ | TChk _ c :: _ => c = b | _ => False end.
Definition tvb (t : task) : option (nat * nat) := match t with TRel _ v b | TFin v b | TChk v b => Some (v, b) | _ => None end.

Definition n_des (u : nat) (l : list sobs) : nat := length (filter (fun o => match o with ODes w => Nat.eqb w u | _ => false end) l).
Definition n_rel (u : nat) (l : list sobs) : nat := length (filter (fun o => match o with ORel w => Nat.eqb w u | _ => false end) l).

Record Inv (s : st) : Prop := {
  i_dom : forall v, s_vars s v <> None -> v < s_vn s;
  i_ref : forall v x b, s_vars s v = Some x -> x_ref x = Some b -> b < s_bn s /\ b_rel (s_blk s b) = false;
  i_stale : forall v, In v (kvars (s_stack s)) <-> exists x, s_vars s v = Some x /\ x_stale x = true;
  i_nd : NoDup (kvars (s_stack s));
  i_top : top (s_stack s);
  i_tvb : forall t v b, In t (s_stack s) -> tvb t = Some (v, b) -> exists x, s_vars s v = Some x /\ x_ref x = Some b /\ match t with TRel k _ _ => x_kind x = k | _ => True end;
  i_fin : forall v b, In (TFin v b) (s_stack s) -> b_obj (s_blk s b) = false;
  i_wp : forall b, b < s_bn s -> b_rel (s_blk s b) = false -> b_wp (s_blk s b) = Z.of_nat (refs (s_vars s) (s_vn s) Weak b + fins b (s_stack s));
  i_cnt : forall b, b < s_bn s -> b_rel (s_blk s b) = false -> b_obj (s_blk s b) = true ->
     b_cnt (s_blk s b) = Z.of_nat (refs (s_vars s) (s_vn s) Strong b) /\ ((1 <= b_cnt (s_blk s b))%Z \/ hd_rel (s_stack s) b);
  i_dead : forall b, b < s_bn s -> b_rel (s_blk s b) = false -> b_obj (s_blk s b) = false ->
     b_cnt (s_blk s b) = (-1)%Z /\ refs (s_vars s) (s_vn s) Strong b = 0 /\ ((1 <= b_wp (s_blk s b))%Z \/ hd_any (s_stack s) b);
  i_rel : forall b, b < s_bn s -> b_rel (s_blk s b) = true -> b_wp (s_blk s b) = 0%Z /\ b_obj (s_blk s b) = false;
  i_ar : forall b, In b (s_arena s) <-> b < s_bn s /\ b_heap (s_blk s b) = false;
  i_arnd : NoDup (s_arena s);
  i_cap : length (s_arena s) <= s_cap s;
  i_free : forall b, In b (s_free s) <-> In b (s_arena s) /\ b_rel (s_blk s b) = true;
  i_fnd : NoDup (s_free s);
  i_p : forall b, b < s_bn s -> (b_obj (s_blk s b) = true \/ b_heap (s_blk s b) = false) -> b_p (s_blk s b) = true;
  i_pd : forall b, b < s_bn s -> b_obj (s_blk s b) = false -> b_heap (s_blk s b) = true -> fins b (s_stack s) = 0 -> b_p (s_blk s b) = false;
  i_uid : forall b c, b < s_bn s -> c < s_bn s -> b_uid (s_blk s b) = b_uid (s_blk s c) -> b = c;
  i_un : forall b, b < s_bn s -> b_uid (s_blk s b) < s_un s;
  i_log : forall b, b < s_bn s -> n_des (b_uid (s_blk s b)) (s_log s) = (if b_obj (s_blk s b) then 0 else 1) /\
     n_rel (b_uid (s_blk s b)) (s_log s) = (if b_rel (s_blk s b) then 1 else 0);
  i_past : forall u, u < s_un s -> (exists b, b < s_bn s /\ b_uid (s_blk s b) = u) \/ (n_des u (s_log s) = 1 /\ n_rel u (s_log s) = 1);
  i_new : forall u, s_un s <= u -> n_des u (s_log s) = 0 /\ n_rel u (s_log s) = 0
}.

Lemma init_inv : forall cap, Inv (sp_init cap).
Proof.
  intros cap. unfold sp_init. constructor; cbn [s_vars s_vn s_blk s_bn s_arena s_free s_cap s_stack s_log s_un].
  1:{ intros v H. now destruct H. }
  1:{ discriminate. }
  1:{ intros v. split; [intros []|intros [x [X _]]; discriminate]. }
  1:{ constructor. }
  1:{ exact Logic.I. }
  1:{ intros t v b []. }
  1:{ intros v b []. }
  all: try (intros; lia).
  - intros b. split; [intros []|intros [X _]; lia].
  - constructor.
  - cbn [length]. lia.
  - intros b. split; [intros []|intros [[] _]].
  - constructor.
  - auto.
Qed.

Lemma refs_ext : forall n f g k b, (forall v, f v = g v) -> refs f n k b = refs g n k b.
Proof. induction n; intros f g k b E; cbn [refs]; auto. rewrite (IHn f g), E; auto. Qed.
Lemma inv_ext : forall s s', Inv s -> (forall v, s_vars s' v = s_vars s v) -> s_vn s' = s_vn s -> (forall b, s_blk s' b = s_blk s b) -> s_bn s' = s_bn s ->
  s_arena s' = s_arena s -> s_free s' = s_free s -> s_cap s' = s_cap s -> s_stack s' = s_stack s -> s_log s' = s_log s -> s_un s' = s_un s -> Inv s'.
Proof.
  intros s s' I EV E1 EB E2 E3 E4 E5 E6 E7 E8.
  assert (RX : forall k b, refs (s_vars s') (s_vn s') k b = refs (s_vars s) (s_vn s) k b) by (intros; rewrite E1; apply refs_ext; auto).
  destruct I. constructor; rewrite ?E2, ?E3, ?E4, ?E5, ?E6, ?E7, ?E8.
  - intros v H. rewrite E1. apply i_dom0. rewrite <- EV. auto.
  - intros v x b H. rewrite EB. rewrite EV in H. eauto.
  - intros v. rewrite i_stale0. split; intros [x H]; exists x; rewrite EV in *; auto.
  - auto.
  - auto.
  - intros t v b H1 H2. rewrite EV. eauto.
  - intros v b H. rewrite EB. eauto.
  - intros b H1 H2. rewrite EB in *. rewrite RX. auto.
  - intros b H1 H2 H3. rewrite EB in *. rewrite RX. auto.
  - intros b H1 H2 H3. rewrite EB in *. rewrite RX. auto.
  - intros b H1 H2. rewrite EB in *. auto.
  - intros b. rewrite EB. auto.
  - auto.
  - auto.
  - intros b. rewrite EB. auto.
  - auto.
  - intros b H1 H2. rewrite EB in *. auto.
  - intros b H1 H2 H3. rewrite EB in *. auto.
  - intros b c H1 H2 H3. rewrite !EB in H3. auto.
  - intros b H. rewrite EB. auto.
  - intros b H. rewrite EB. auto.
  - intros u H. destruct (i_past0 u H) as [[b [A1 A2]]|A]; auto. left. exists b. rewrite EB. auto.
  - auto.
Qed.

Lemma rest_top : forall l, rest l -> top l.
Proof. intros [|[] l]; cbn; auto; tauto. Qed.
Lemma rest_hd : forall l b, rest l -> ~ hd_any l b /\ ~ hd_rel l b.
Proof. intros l b. destruct l as [|t l]; [cbn; tauto|]. destruct t as [|k ? ?| | | |]; cbn; try tauto; destruct k; tauto. Qed.
Lemma fins_des : forall b ms l, fins b (map TDes ms ++ l) = fins b l.
Proof. unfold fins. induction ms as [|m ms IH]; intros l; cbn; auto. Qed.
Lemma kvars_des : forall ms l, kvars (map TDes ms ++ l) = kvars l.
Proof. unfold kvars. induction ms as [|m ms IH]; intros l; cbn; auto. Qed.
Lemma rest_des : forall ms l, rest l -> rest (map TDes ms ++ l).
Proof. induction ms; cbn; auto. Qed.
Lemma fins_pos : forall b l, 0 < fins b l -> exists v, In (TFin v b) l.
Proof.
  unfold fins. induction l as [|t l IH]; cbn [filter length]; [lia|]. destruct t; try (intros H; destruct (IH H) as [w W]; exists w; right; auto; fail).
  destruct (Nat.eqb_spec b0 b) as [->|NE]; intros H; [exists v; left; auto|]. destruct (IH H) as [w W]. exists w. right. auto.
Qed.
Lemma fins_in : forall v b l, In (TFin v b) l -> 0 < fins b l.
Proof.
  unfold fins. induction l as [|t l IH]; intros I; [destruct I|]. cbn [filter]. destruct I as [->|I].
  - rewrite Nat.eqb_refl. cbn. lia.
  - specialize (IH I). destruct t; auto. destruct (Nat.eqb _ _); cbn [length]; lia.
Qed.
Lemma fins_fin : forall v b l c, fins c (TFin v b :: l) = (if Nat.eqb b c then 1 else 0) + fins c l.
Proof. intros. unfold fins. cbn [filter]. destruct (Nat.eqb b c); auto. Qed.
Lemma n_cons : forall u o l, n_des u (o :: l) = (match o with ODes w => if Nat.eqb w u then 1 else 0 | _ => 0 end) + n_des u l /\
  n_rel u (o :: l) = (match o with ORel w => if Nat.eqb w u then 1 else 0 | _ => 0 end) + n_rel u l.
Proof. intros u o l. unfold n_des, n_rel. destruct o; cbn [filter]; auto; destruct (Nat.eqb u0 u); auto. Qed.
Lemma arena_free : forall s, Inv s -> length (s_free s) <= s_cap s.
Proof.
  intros s I. eapply Nat.le_trans; [|apply (i_cap s I)]. apply NoDup_incl_length; [apply I|]. intros b H. apply (i_free s I) in H. tauto.
Qed.

Ltac proj := cbn [s_vars s_vn s_blk s_bn s_arena s_free s_cap s_stack s_log s_un set_var set_blk set_stack push note set_free bump app].

(** Popping the destructor call. *)
Lemma pop_des : forall s v r, Inv s -> s_stack s = TDes v :: r -> Inv (set_stack s r) /\ rest r.
Proof.
  intros s v r I E. pose proof I as J. destruct J. rewrite E in *. cbn [top] in i_top0. cbn [rest] in i_top0. split; [|auto].
  constructor; proj; auto.
  - apply rest_top. auto.
  - intros t w b IN. apply i_tvb0. right. auto.
  - intros w b IN. eapply i_fin0. right. eauto.
  - intros b B R O. destruct (i_cnt0 b B R O) as [A1 [A2|A2]]; auto. destruct A2.
  - intros b B R O. destruct (i_dead0 b B R O) as [A1 [A2 [A3|A3]]]; auto. destruct A3.
Qed.

(** The first half of a destructor, reset or assignment. *)
Lemma unlink_inv : forall s v k s', Inv s -> rest (s_stack s) -> kok k v (s_stack s) -> unlink s v k = Some s' -> Inv s'.
Proof.
  intros s v k s' I RS KO U. unfold unlink in U. destruct (s_vars s v) as [x|] eqn:V; [|discriminate]. destruct (x_stale x) eqn:SX; [discriminate|].
  assert (NK : ~ In v (kvars (s_stack s))).
  { intros H. apply (i_stale s I) in H. destruct H as [y [Y1 Y2]]. congruence. }
  assert (KV : kv k = [v]).
  { destruct k; cbn in KO; try tauto; [subst; auto|destruct KO as [-> _]; auto]. }
  assert (DV : v < s_vn s) by (apply (i_dom s I); congruence).
  pose proof (rest_hd (s_stack s)) as RH.
  assert (KT : tvb k = None) by (destruct k; cbn in KO; try tauto).
  assert (KF : forall b l, fins b (k :: l) = fins b l) by (intros; destruct k; cbn in KO; try tauto).
  assert (ST : forall w l, In w (kvars (k :: l)) <-> w = v \/ In w (kvars l)).
  { intros w l. unfold kvars. cbn [flat_map]. rewrite KV. cbn. split; intros [H|H]; auto. }
  set (x' := mkV (x_kind x) (x_ref x) true (x_own x)) in *.
  assert (STL : forall w, In w (kvars (k :: s_stack s)) <-> exists y, vset (s_vars s) v (Some x') w = Some y /\ x_stale y = true).
  { intros w. rewrite ST. rewrite (i_stale s I). destruct (Nat.eq_dec w v) as [->|NE].
    - rewrite vset_eq. split; [intros _; exists x'; auto|auto].
    - rewrite vset_ne by auto. split; [intros [H|H]; [congruence|auto]|auto]. }
  destruct (x_ref x) as [b|] eqn:XR.
  - destruct (gone s b); [discriminate|]. injection U as <-.
    destruct (i_ref s I v x b V XR) as [B1 B2].
    assert (RF : forall kk c, refs (vset (s_vars s) v (Some x')) (s_vn s) kk c + ind (s_vars s v) kk c = refs (s_vars s) (s_vn s) kk c).
    { intros kk c. pose proof (refs_set (s_vn s) (s_vars s) v (Some x') kk c DV) as H. change (ind (Some x') kk c) with 0 in H. lia. }
    assert (IV : forall kk c, ind (s_vars s v) kk c = if (kind_eqb (x_kind x) kk && Nat.eqb b c)%bool then 1 else 0).
    { intros kk c. rewrite V. unfold ind. rewrite SX, XR. cbn. reflexivity. }
    pose proof (refs_ge (s_vn s) (s_vars s) v (x_kind x) b DV) as GE. rewrite IV, kind_eqb_refl, Nat.eqb_refl in GE. cbn [andb] in GE.
    assert (OB : x_kind x = Strong -> b_obj (s_blk s b) = true).
    { intros KS. destruct (b_obj (s_blk s b)) eqn:O; auto. destruct (i_dead s I b B1 B2 O) as [_ [D _]]. rewrite KS in GE. lia. }
    assert (BP : forall c, b_heap (bset (s_blk s) b (match x_kind x with Strong => with_cnt (s_blk s b) (b_cnt (s_blk s b) + -1) | Weak => with_wp (s_blk s b) (b_wp (s_blk s b) + -1) end) c) = b_heap (s_blk s c)
       /\ b_p (bset (s_blk s) b (match x_kind x with Strong => with_cnt (s_blk s b) (b_cnt (s_blk s b) + -1) | Weak => with_wp (s_blk s b) (b_wp (s_blk s b) + -1) end) c) = b_p (s_blk s c)
       /\ b_obj (bset (s_blk s) b (match x_kind x with Strong => with_cnt (s_blk s b) (b_cnt (s_blk s b) + -1) | Weak => with_wp (s_blk s b) (b_wp (s_blk s b) + -1) end) c) = b_obj (s_blk s c)
       /\ b_rel (bset (s_blk s) b (match x_kind x with Strong => with_cnt (s_blk s b) (b_cnt (s_blk s b) + -1) | Weak => with_wp (s_blk s b) (b_wp (s_blk s b) + -1) end) c) = b_rel (s_blk s c)
       /\ b_uid (bset (s_blk s) b (match x_kind x with Strong => with_cnt (s_blk s b) (b_cnt (s_blk s b) + -1) | Weak => with_wp (s_blk s b) (b_wp (s_blk s b) + -1) end) c) = b_uid (s_blk s c)
       /\ b_cnt (bset (s_blk s) b (match x_kind x with Strong => with_cnt (s_blk s b) (b_cnt (s_blk s b) + -1) | Weak => with_wp (s_blk s b) (b_wp (s_blk s b) + -1) end) c) = (b_cnt (s_blk s c) - Z.of_nat (ind (s_vars s v) Strong c))%Z
       /\ b_wp (bset (s_blk s) b (match x_kind x with Strong => with_cnt (s_blk s b) (b_cnt (s_blk s b) + -1) | Weak => with_wp (s_blk s b) (b_wp (s_blk s b) + -1) end) c) = (b_wp (s_blk s c) - Z.of_nat (ind (s_vars s v) Weak c))%Z).
    { intros c. rewrite !IV. destruct (Nat.eq_dec c b) as [->|NE].
      - rewrite bset_eq, Nat.eqb_refl. destruct (x_kind x); cbn; repeat split; lia.
      - rewrite bset_ne by auto. destruct (Nat.eqb_spec b c); [congruence|]. rewrite !andb_false_r. repeat split; lia. }
    remember (bset (s_blk s) b (match x_kind x with Strong => with_cnt (s_blk s b) (b_cnt (s_blk s b) + -1) | Weak => with_wp (s_blk s b) (b_wp (s_blk s b) + -1) end)) as nb eqn:NB.
    assert (GO : Inv (mkS (vset (s_vars s) v (Some x')) (s_vn s) nb (s_bn s) (s_arena s) (s_free s) (s_cap s) (TRel (x_kind x) v b :: k :: s_stack s) (s_log s) (s_un s))).
    { clear NB. assert (C1 : forall c, b_heap (nb c) = b_heap (s_blk s c)) by apply BP. assert (C2 : forall c, b_p (nb c) = b_p (s_blk s c)) by apply BP.
      assert (C3 : forall c, b_obj (nb c) = b_obj (s_blk s c)) by apply BP. assert (C4 : forall c, b_rel (nb c) = b_rel (s_blk s c)) by apply BP.
      assert (C5 : forall c, b_uid (nb c) = b_uid (s_blk s c)) by apply BP.
      assert (C6 : forall c, b_cnt (nb c) = (b_cnt (s_blk s c) - Z.of_nat (ind (s_vars s v) Strong c))%Z) by apply BP.
      assert (C7 : forall c, b_wp (nb c) = (b_wp (s_blk s c) - Z.of_nat (ind (s_vars s v) Weak c))%Z) by apply BP. clear BP.
      pose proof I as J. destruct J. constructor; proj; auto; try (intros; rewrite ?C1, ?C2, ?C3, ?C4, ?C5 in *; eauto; fail).
      - intros w H. destruct (Nat.eq_dec w v) as [->|NE]; auto. rewrite vset_ne in H by auto. auto.
      - intros w y c H1 H2. rewrite C4. destruct (Nat.eq_dec w v) as [->|NE].
        + rewrite vset_eq in H1. injection H1 as <-. cbn in H2. injection H2 as <-. auto.
        + rewrite vset_ne in H1 by auto. eapply i_ref0; eauto.
      - unfold kvars in *. cbn [flat_map kv app]. rewrite KV. cbn. constructor; auto.
      - cbn [top]. auto.
      - intros t w c [<-|[<-|IN]] HT.
        + cbn in HT. injection HT as <- <-. exists x'. rewrite vset_eq. cbn. auto.
        + congruence.
        + destruct (i_tvb0 t w c IN HT) as [y [Y1 Y2]]. destruct (Nat.eq_dec w v) as [->|NE]; [|rewrite vset_ne by auto; eauto].
          rewrite vset_eq. exists x'. rewrite V in Y1. injection Y1 as <-. cbn. split; auto. destruct Y2. split; [congruence|auto].
      - intros w c [H|[H|H]]; [discriminate|destruct k; cbn in KO; try tauto; discriminate|]. rewrite C3. eauto.
      - intros c H1 H2. rewrite C4 in H2. rewrite C7. change (fins c (TRel (x_kind x) v b :: k :: s_stack s)) with (fins c (k :: s_stack s)). rewrite KF. rewrite (i_wp0 c H1 H2).
        specialize (RF Weak c). lia.
      - intros c H1 H2 H3. rewrite C4 in H2. rewrite C3 in H3. rewrite C6. destruct (i_cnt0 c H1 H2 H3) as [A1 A2]. specialize (RF Strong c). split; [lia|].
        destruct A2 as [A2|A2]; [|now apply RH in A2]. destruct (x_kind x) eqn:KX.
        + cbn [hd_rel]. destruct (Nat.eq_dec b c) as [->|NE]; [right; auto|]. left. rewrite IV. destruct (Nat.eqb_spec b c); [congruence|]. rewrite andb_false_r. lia.
        + left. rewrite IV. cbn. lia.
      - intros c H1 H2 H3. rewrite C4 in H2. rewrite C3 in H3. rewrite C6, C7. destruct (i_dead0 c H1 H2 H3) as [A1 [A2 A3]]. specialize (RF Strong c).
        assert (I0 : ind (s_vars s v) Strong c = 0) by lia. split; [lia|]. split; [lia|]. destruct A3 as [A3|A3]; [|now apply RH in A3].
        destruct (x_kind x) eqn:KX; cbn [hd_any]; (destruct (Nat.eq_dec b c) as [->|NE]; [right; auto|]; left; rewrite IV; destruct (Nat.eqb_spec b c); [congruence|]; rewrite andb_false_r; lia).
      - intros c H1 H2. rewrite C4 in H2. rewrite C3, C7. destruct (i_rel0 c H1 H2) as [A1 A2]. split; [|auto]. rewrite IV. destruct (Nat.eqb_spec b c); [congruence|]. rewrite andb_false_r. lia.
      - intros c H1 H2 H3. rewrite C2. rewrite C3 in H2. rewrite C1 in H3. change (fins c (TRel (x_kind x) v b :: k :: s_stack s)) with (fins c (k :: s_stack s)). rewrite KF. auto.
      - intros u H. destruct (i_past0 u H) as [[c [A1 A2]]|A]; auto. left. exists c. rewrite C5. auto. }
    subst nb. exact GO.
  - injection U as <-. pose proof I as J. destruct J.
    assert (RF : forall kk c, refs (vset (s_vars s) v (Some x')) (s_vn s) kk c = refs (s_vars s) (s_vn s) kk c).
    { intros kk c. pose proof (refs_set (s_vn s) (s_vars s) v (Some x') kk c DV) as H. rewrite V in H. change (ind (Some x') kk c) with 0 in H.
      assert (ind (Some x) kk c = 0) by (unfold ind; rewrite XR, andb_false_r; auto). lia. }
    constructor; proj; auto; try (intros; rewrite ?RF, ?KF in *; eauto; fail).
    + intros w H. destruct (Nat.eq_dec w v) as [->|NE]; auto. rewrite vset_ne in H by auto. auto.
    + intros w y c H1 H2. destruct (Nat.eq_dec w v) as [->|NE].
      * rewrite vset_eq in H1. injection H1 as <-. discriminate.
      * rewrite vset_ne in H1 by auto. eapply i_ref0; eauto.
    + unfold kvars in *. cbn [flat_map app]. rewrite KV. cbn. constructor; auto.
    + destruct k; cbn in KO |- *; try tauto.
    + intros t w c [<-|IN] HT; [congruence|]. destruct (i_tvb0 t w c IN HT) as [y [Y1 Y2]]. destruct (Nat.eq_dec w v) as [->|NE]; [|rewrite vset_ne by auto; eauto].
      rewrite vset_eq. exists x'. rewrite V in Y1. injection Y1 as <-. cbn. split; auto. destruct Y2. split; [congruence|auto].
    + intros w c [H|H]; [destruct k; cbn in KO; try tauto; discriminate|]. eauto.
    + intros c H1 H2 H3. rewrite RF. destruct (i_cnt0 c H1 H2 H3) as [A1 [A2|A2]]; auto. now apply RH in A2.
    + intros c H1 H2 H3. rewrite RF. destruct (i_dead0 c H1 H2 H3) as [A1 [A2 [A3|A3]]]; auto. now apply RH in A3.
Qed.

Lemma kok_facts : forall k v q, kok k v q -> kv k = [v] /\ tvb k = None /\ (forall b l, fins b (k :: l) = fins b l) /\ (forall w c, k <> TFin w c) /\ (forall w, k <> TDes w) /\ (rest q -> top (k :: q)).
Proof.
  intros k v q KO. destruct k; cbn in KO; try tauto.
  - subst. split; auto. split; auto. split; auto. split; [discriminate|]. split; [discriminate|]. intros. cbn. auto.
  - destruct KO as [-> KO]. split; auto. split; auto. split; auto. split; [discriminate|]. split; [discriminate|]. intros. cbn. auto.
Qed.

Lemma rel_head : forall s k v b r, Inv s -> s_stack s = TRel k v b :: r -> exists K q, r = K :: q /\ kok K v q /\ rest q /\ b < s_bn s /\ b_rel (s_blk s b) = false.
Proof.
  intros s k v b r I E. pose proof (i_top s I) as T. rewrite E in T. destruct r as [|K q]; [destruct T|]. cbn [top] in T. exists K, q.
  destruct (i_tvb s I (TRel k v b) v b) as [x [X1 [X2 _]]]; [rewrite E; left; auto|auto|]. destruct (i_ref s I v x b X1 X2). tauto.
Qed.

(** releaseRefCount_ with nothing to destroy. *)
Lemma rel_skip : forall s k v b r, Inv s -> s_stack s = TRel k v b :: r -> b_cnt (s_blk s b) <> 0%Z -> Inv (push (set_stack s r) [TChk v b]).
Proof.
  intros s k v b r I E NZ. destruct (rel_head s k v b r I E) as (K & q & -> & KO & RQ & B1 & B2).
  pose proof I as J. destruct J. rewrite E in *. constructor; proj; auto.
  - intros t w c [<-|IN] HT.
    + cbn in HT. injection HT as <- <-. destruct (i_tvb0 (TRel k v b) v b) as [x [X1 [X2 _]]]; [left; auto|auto|]. exists x. auto.
    + apply i_tvb0; auto. right. auto.
  - intros w c [H|H]; [discriminate|]. eapply i_fin0. right. eauto.
  - intros c H1 H2 H3. destruct (i_cnt0 c H1 H2 H3) as [A1 [A2|A2]]; split; auto. cbn [hd_rel] in A2. destruct k; [|destruct A2]. subst c. left. lia.
Qed.

(** releaseRefCount_ destroying the object. *)
Lemma rel_destroy : forall s k v b r, Inv s -> s_stack s = TRel k v b :: r -> b_cnt (s_blk s b) = 0%Z -> let x := s_blk s b in
  k = Strong /\ b_obj x = true /\ b_p x = true /\
  Inv (push (note (set_blk (set_stack s r) b (mkB (b_heap x) (-1) (b_wp x + 1) (b_p x) false (b_rel x) (b_uid x) [])) (ODes (b_uid x))) (map TDes (b_mem x) ++ [TFin v b])).
Proof.
  intros s k v b r I E Z0 x. destruct (rel_head s k v b r I E) as (K & q & -> & KO & RQ & B1 & B2).
  assert (OB : b_obj (s_blk s b) = true).
  { destruct (b_obj (s_blk s b)) eqn:O; auto. destruct (i_dead s I b B1 B2 O) as [D _]. lia. }
  assert (KS : k = Strong).
  { destruct (i_cnt s I b B1 B2 OB) as [_ [H|H]]; [lia|]. rewrite E in H. cbn in H. destruct k; [auto|destruct H]. }
  assert (BP : b_p x = true) by (apply (i_p s I); auto). split; [auto|]. split; [auto|]. split; [auto|].
  destruct (kok_facts K v q KO) as (KV & KT & KF & KN & KD & _).
  destruct (i_cnt s I b B1 B2 OB) as [CR _]. assert (R0 : refs (s_vars s) (s_vn s) Strong b = 0) by lia.
  assert (F0 : fins b (K :: q) = 0).
  { destruct (fins b (K :: q)) eqn:F; auto. destruct (fins_pos b (K :: q)) as [w W]; [lia|]. exfalso.
    assert (b_obj (s_blk s b) = false) by (apply (i_fin s I w); rewrite E; right; auto). congruence. }
  pose proof I as J. destruct J. rewrite E in *.
  unfold push, note, set_blk, set_stack. proj. rewrite <- app_assoc. cbn [app]. constructor; proj.
  - auto.
  - intros w y c H1 H2. destruct (Nat.eq_dec c b) as [->|NE]; [rewrite bset_eq; cbn; auto|]. rewrite bset_ne by auto. eauto.
  - intros w. rewrite kvars_des. auto.
  - rewrite kvars_des. auto.
  - apply rest_top. apply rest_des. cbn [rest]. auto.
  - intros t w c IN HT. apply in_app_or in IN. destruct IN as [IN|[<-|IN]].
    + apply in_map_iff in IN. destruct IN as [m [<- _]]. discriminate.
    + cbn in HT. injection HT as <- <-. destruct (i_tvb0 (TRel k v b) v b) as [y [Y1 [Y2 _]]]; [left; auto|auto|]. exists y. auto.
    + apply i_tvb0; auto. right. auto.
  - intros w c IN. apply in_app_or in IN. destruct IN as [IN|[IN|IN]].
    + apply in_map_iff in IN. destruct IN as [m [H _]]. discriminate.
    + injection IN as <- <-. rewrite bset_eq. auto.
    + destruct (Nat.eq_dec c b) as [->|NE]; [now rewrite bset_eq|]. rewrite bset_ne by auto. eapply i_fin0. right. eauto.
  - intros c H1 H2. rewrite fins_des. destruct (Nat.eq_dec c b) as [->|NE].
    + rewrite bset_eq. cbn [b_wp]. unfold x. rewrite (i_wp0 b B1 B2). change (fins b (TRel k v b :: K :: q)) with (fins b (K :: q)). rewrite fins_fin, Nat.eqb_refl. lia.
    + rewrite bset_ne in H2 |- * by auto. rewrite (i_wp0 c H1 H2). change (fins c (TRel k v b :: K :: q)) with (fins c (K :: q)). rewrite fins_fin. destruct (Nat.eqb_spec b c); [congruence|]. reflexivity.
  - intros c H1 H2 H3. destruct (Nat.eq_dec c b) as [->|NE]; [rewrite bset_eq in H3; discriminate|]. rewrite bset_ne in * by auto.
    destruct (i_cnt0 c H1 H2 H3) as [A1 [A2|A2]]; auto. cbn in A2. destruct k; [congruence|destruct A2].
  - intros c H1 H2 H3. destruct (Nat.eq_dec c b) as [->|NE].
    + rewrite bset_eq. cbn [b_cnt b_wp]. split; auto. split; auto. left. unfold x. rewrite (i_wp0 b B1 B2). lia.
    + rewrite bset_ne in * by auto. destruct (i_dead0 c H1 H2 H3) as [A1 [A2 [A3|A3]]]; auto. cbn in A3. congruence.
  - intros c H1 H2. destruct (Nat.eq_dec c b) as [->|NE]; [rewrite bset_eq in H2; cbn in H2; unfold x in H2; congruence|]. rewrite bset_ne in * by auto. auto.
  - intros c. destruct (Nat.eq_dec c b) as [->|NE]; [rewrite bset_eq|rewrite bset_ne by auto]; auto. apply i_ar0.
  - auto.
  - auto.
  - intros c. destruct (Nat.eq_dec c b) as [->|NE]; [rewrite bset_eq|rewrite bset_ne by auto]; auto. apply i_free0.
  - auto.
  - intros c H1 H2. destruct (Nat.eq_dec c b) as [->|NE]; [now rewrite bset_eq|]. rewrite bset_ne in * by auto. auto.
  - intros c H1 H2 H3 H4. rewrite fins_des in H4. destruct (Nat.eq_dec c b) as [->|NE].
    + rewrite fins_fin, Nat.eqb_refl in H4. discriminate.
    + rewrite bset_ne in * by auto. apply i_pd0; auto. change (fins c (TRel k v b :: K :: q)) with (fins c (K :: q)). rewrite fins_fin in H4. destruct (Nat.eqb_spec b c); [congruence|]. exact H4.
  - intros c d H1 H2. unfold bset. destruct (Nat.eqb_spec c b), (Nat.eqb_spec d b); cbn [b_uid]; intros H; subst; auto.
  - intros c H1. destruct (Nat.eq_dec c b) as [->|NE]; [rewrite bset_eq; cbn; apply i_un0; auto|rewrite bset_ne by auto; auto].
  - intros c H1. destruct (n_cons (b_uid (bset (s_blk s) b (mkB (b_heap x) (-1) (b_wp x + 1) (b_p x) false (b_rel x) (b_uid x) []) c)) (ODes (b_uid x)) (s_log s)) as [-> ->].
    destruct (Nat.eq_dec c b) as [->|NE].
    + rewrite bset_eq. cbn [b_uid b_obj b_rel]. rewrite Nat.eqb_refl. unfold x. destruct (i_log0 b B1) as [L1 L2]. rewrite OB in L1. rewrite L1, L2. auto.
    + rewrite bset_ne by auto. destruct (Nat.eqb_spec (b_uid x) (b_uid (s_blk s c))) as [EQ|_]; [apply i_uid0 in EQ; auto; congruence|]. apply i_log0. auto.
  - intros u H. destruct (n_cons u (ODes (b_uid x)) (s_log s)) as [-> ->]. destruct (i_past0 u H) as [[c [A1 A2]]|A].
    + left. exists c. split; auto. destruct (Nat.eq_dec c b) as [->|NE]; [rewrite bset_eq; auto|rewrite bset_ne by auto; auto].
    + right. destruct (Nat.eqb_spec (b_uid x) u) as [EQ|_]; [|auto]. exfalso. destruct (i_log0 b B1) as [L1 _]. rewrite OB in L1. unfold x in EQ. rewrite EQ in L1. lia.
  - intros u H. destruct (n_cons u (ODes (b_uid x)) (s_log s)) as [-> ->]. destruct (Nat.eqb_spec (b_uid x) u) as [EQ|_]; [|apply i_new0; auto]. exfalso. pose proof (i_un0 b B1). unfold x in EQ. lia.
Qed.

(** Behind the destruction of the object. *)
Lemma fin_inv : forall s v b r, Inv s -> s_stack s = TFin v b :: r -> let x := s_blk s b in
  Inv (push (set_blk (set_stack s r) b (mkB (b_heap x) (b_cnt x) (b_wp x - 1) (b_p x && negb (b_heap x)) (b_obj x) (b_rel x) (b_uid x) (b_mem x))) [TChk v b]).
Proof.
  intros s v b r I E x. pose proof (i_top s I) as T. rewrite E in T. cbn [top rest] in T. destruct r as [|K q]; [destruct T|]. destruct T as [KO RQ].
  destruct (i_tvb s I (TFin v b) v b) as [y [Y1 [Y2 _]]]; [rewrite E; left; auto|auto|]. destruct (i_ref s I v y b Y1 Y2) as [B1 B2].
  assert (OB : b_obj (s_blk s b) = false) by (apply (i_fin s I v); rewrite E; left; auto).
  destruct (kok_facts K v q KO) as (KV & KT & KF & KN & KD & _).
  pose proof I as J. destruct J. rewrite E in *.
  assert (FS : forall c, fins c (TFin v b :: K :: q) = (if Nat.eqb b c then 1 else 0) + fins c (K :: q)).
  { intros c. apply fins_fin. }
  assert (NB : forall c, let z := bset (s_blk s) b (mkB (b_heap x) (b_cnt x) (b_wp x - 1) (b_p x && negb (b_heap x)) (b_obj x) (b_rel x) (b_uid x) (b_mem x)) c in
     b_heap z = b_heap (s_blk s c) /\ b_cnt z = b_cnt (s_blk s c) /\ b_obj z = b_obj (s_blk s c) /\ b_rel z = b_rel (s_blk s c) /\ b_uid z = b_uid (s_blk s c) /\
     b_wp z = (b_wp (s_blk s c) - if Nat.eqb b c then 1 else 0)%Z /\ b_p z = if Nat.eqb b c then (b_p x && negb (b_heap x))%bool else b_p (s_blk s c)).
  { intros c. destruct (Nat.eq_dec c b) as [->|NE].
    - cbv zeta. rewrite bset_eq, Nat.eqb_refl. cbn. unfold x. repeat split; auto.
    - cbv zeta. rewrite bset_ne by auto. destruct (Nat.eqb_spec b c); [congruence|]. repeat split; auto. lia. }
  unfold push, set_blk, set_stack. proj. remember (bset (s_blk s) b (mkB (b_heap x) (b_cnt x) (b_wp x - 1) (b_p x && negb (b_heap x)) (b_obj x) (b_rel x) (b_uid x) (b_mem x))) as nb eqn:NBE. clear NBE.
  assert (C1 : forall c, b_heap (nb c) = b_heap (s_blk s c)) by apply NB. assert (C2 : forall c, b_cnt (nb c) = b_cnt (s_blk s c)) by apply NB.
  assert (C3 : forall c, b_obj (nb c) = b_obj (s_blk s c)) by apply NB. assert (C4 : forall c, b_rel (nb c) = b_rel (s_blk s c)) by apply NB.
  assert (C5 : forall c, b_uid (nb c) = b_uid (s_blk s c)) by apply NB.
  assert (C7 : forall c, b_wp (nb c) = (b_wp (s_blk s c) - if Nat.eqb b c then 1 else 0)%Z) by apply NB.
  assert (C8 : forall c, b_p (nb c) = if Nat.eqb b c then (b_p x && negb (b_heap x))%bool else b_p (s_blk s c)) by apply NB. clear NB.
  constructor; proj.
  - auto.
  - intros w z c H1 H2. rewrite C4. eauto.
  - auto.
  - auto.
  - cbn. auto.
  - intros t w c [<-|IN] HT; [cbn in HT; injection HT as <- <-; exists y; auto|]. apply i_tvb0; auto. right. auto.
  - intros w c [H|H]; [discriminate|]. rewrite C3. eapply i_fin0. right. eauto.
  - intros c H1 H2. rewrite C4 in H2. rewrite C7. rewrite (i_wp0 c H1 H2), FS. change (fins c (TChk v b :: K :: q)) with (fins c (K :: q)). destruct (Nat.eqb b c); lia.
  - intros c H1 H2 H3. rewrite C4 in H2. rewrite C3 in H3. rewrite C2. destruct (i_cnt0 c H1 H2 H3) as [A1 [A2|A2]]; auto; destruct A2.
  - intros c H1 H2 H3. rewrite C4 in H2. rewrite C3 in H3. rewrite C2, C7. destruct (i_dead0 c H1 H2 H3) as [A1 [A2 [A3|A3]]]; [|destruct A3]. split; auto. split; auto.
    cbn [hd_any]. destruct (Nat.eqb_spec b c); [right; auto|left; lia].
  - intros c H1 H2. rewrite C4 in H2. rewrite C3, C7. destruct (i_rel0 c H1 H2) as [A1 A2]. destruct (Nat.eqb_spec b c); [congruence|]. split; [lia|auto].
  - intros c. rewrite C1. auto.
  - auto.
  - auto.
  - intros c. rewrite C4. auto.
  - auto.
  - intros c H1 H2. rewrite C1, C3 in H2. rewrite C8. destruct (Nat.eqb_spec b c) as [->|NE]; [|auto]. destruct H2 as [H2|H2]; [congruence|]. unfold x. rewrite H2. rewrite (i_p0 c) by auto. auto.
  - intros c H1 H2 H3 H4. rewrite C3 in H2. rewrite C1 in H3. rewrite C8. destruct (Nat.eqb_spec b c) as [->|NE].
    + unfold x. rewrite H3. apply andb_false_r.
    + apply i_pd0; auto. rewrite FS. destruct (Nat.eqb_spec b c); [congruence|]. exact H4.
  - intros c d H1 H2. rewrite !C5. auto.
  - intros c. rewrite C5. auto.
  - intros c. rewrite C5, C3, C4. auto.
  - intros u H. destruct (i_past0 u H) as [[c [A1 A2]]|A]; auto. left. exists c. rewrite C5. auto.
  - auto.
Qed.

Lemma rest_kvars : forall w l, rest l -> In w (flat_map kv l) -> exists c, In (TFin w c) l.
Proof.
  intros w l. remember (length l) as n eqn:LN. assert (LE : length l <= n) by lia. clear LN. revert l LE. induction n as [|n IH]; intros l LE R IN.
  { destruct l; [destruct IN|cbn in LE; lia]. }
  destruct l as [|t l]; [destruct IN|]. cbn [length] in LE. destruct t; cbn [rest] in R; try tauto.
  - cbn in IN. destruct (IH l) as [c X]; auto; [lia|]. exists c. right. auto.
  - destruct l as [|k l]; [destruct R|]. cbn [length] in LE. destruct R as [R1 R2]. destruct (kok_facts _ _ _ R1) as (KV & _). cbn [flat_map kv app] in IN. rewrite KV in IN. cbn in IN. destruct IN as [<-|IN].
    + exists b. left. auto.
    + destruct (IH l) as [c X]; auto; [lia|]. exists c. right. right. auto.
Qed.
Lemma rest_tvb : forall l t v c, rest l -> In t l -> tvb t = Some (v, c) -> exists w', t = TFin w' c.
Proof.
  intros l. remember (length l) as n eqn:LN. assert (LE : length l <= n) by lia. clear LN. revert l LE. induction n as [|n IH]; intros l LE t v c R IN HT.
  { destruct l; [destruct IN|cbn in LE; lia]. }
  destruct l as [|u l]; [destruct IN|]. cbn [length] in LE. destruct u; cbn [rest] in R; try tauto.
  - destruct IN as [<-|IN]; [discriminate|]. apply (IH l) with (v := v); auto. lia.
  - destruct l as [|k l]; [destruct R|]. cbn [length] in LE. destruct R as [R1 R2]. destruct (kok_facts _ _ _ R1) as (_ & KT & _). destruct IN as [<-|[<-|IN]]; [cbn in HT; injection HT as <- <-; eauto|congruence|].
    apply (IH l) with (v := v); auto. lia.
Qed.

Lemma chk_head : forall s v b r, Inv s -> s_stack s = TChk v b :: r -> exists K q y, r = K :: q /\ kok K v q /\ rest q /\ b < s_bn s /\ b_rel (s_blk s b) = false /\ s_vars s v = Some y /\ x_ref y = Some b /\ x_stale y = true.
Proof.
  intros s v b r I E. pose proof (i_top s I) as T. rewrite E in T. destruct r as [|K q]; [destruct T|]. cbn [top] in T.
  destruct (i_tvb s I (TChk v b) v b) as [x [X1 [X2 _]]]; [rewrite E; left; auto|auto|]. destruct (i_ref s I v x b X1 X2). exists K, q, x.
  destruct T as [T1 T2]. destruct (kok_facts K v q T1) as (KV & _). assert (IN : In v (kvars (s_stack s))).
  { rewrite E. unfold kvars. cbn [flat_map kv app]. rewrite KV. left. auto. }
  apply (i_stale s I) in IN. destruct IN as [x' [X1' X3]]. rewrite X1 in X1'. injection X1' as <-. tauto.
Qed.

(** The end of releaseRefCount_: the block stays. *)
Lemma chk_keep : forall s v b r, Inv s -> s_stack s = TChk v b :: r -> ((b_cnt (s_blk s b) <=? 0) && (b_wp (s_blk s b) =? 0))%Z = false -> Inv (set_stack s r).
Proof.
  intros s v b r I E C. destruct (chk_head s v b r I E) as (K & q & y & -> & KO & RQ & B1 & B2 & Y1 & Y2 & Y3).
  destruct (kok_facts K v q KO) as (KV & KT & KF & KN & KD & KTOP).
  pose proof I as J. destruct J. rewrite E in *. constructor; proj; auto.
  - intros t w c IN. apply i_tvb0. right. auto.
  - intros w c IN. eapply i_fin0. right. eauto.
  - intros c H1 H2 H3. destruct (i_cnt0 c H1 H2 H3) as [A1 [A2|A2]]; auto. destruct A2.
  - intros c H1 H2 H3. destruct (i_dead0 c H1 H2 H3) as [A1 [A2 [A3|A3]]]; auto. cbn in A3. subst c. split; auto. split; auto. left.
    apply andb_false_iff in C. destruct C as [C|C]; [apply Z.leb_gt in C; lia|]. apply Z.eqb_neq in C. pose proof (i_wp0 b H1 H2). lia.
Qed.

(** The end of releaseRefCount_: the block is released. *)
Lemma chk_free : forall s v b r y, Inv s -> s_stack s = TChk v b :: r -> ((b_cnt (s_blk s b) <=? 0) && (b_wp (s_blk s b) =? 0))%Z = true -> s_vars s v = Some y ->
  let x := s_blk s b in
  let s2 := set_var (note (set_blk (set_stack s r) b (mkB (b_heap x) (b_cnt x) (b_wp x) (b_p x) (b_obj x) true (b_uid x) (b_mem x))) (ORel (b_uid x))) v (Some (mkV (x_kind y) None (x_stale y) (x_own y))) in
  (b_heap x = true -> Inv s2) /\ (b_heap x = false -> length (s_free s) < s_cap s /\ Inv (set_free s2 (b :: s_free s))).
Proof.
  intros s v b r y I E C Y x s2. destruct (chk_head s v b r I E) as (K & q & y' & -> & KO & RQ & B1 & B2 & Y1 & Y2 & Y3).
  rewrite Y in Y1. injection Y1 as <-.
  destruct (kok_facts K v q KO) as (KV & KT & KF & KN & KD & KTOP). apply andb_true_iff in C. destruct C as [C1 C2]. apply Z.leb_le in C1. apply Z.eqb_eq in C2.
  assert (OB : b_obj (s_blk s b) = false).
  { destruct (b_obj (s_blk s b)) eqn:O; auto. destruct (i_cnt s I b B1 B2 O) as [_ [A|A]]; [lia|]. rewrite E in A. destruct A. }
  assert (W0 : refs (s_vars s) (s_vn s) Weak b = 0 /\ fins b (s_stack s) = 0) by (pose proof (i_wp s I b B1 B2); lia). destruct W0 as [W0 F0].
  destruct (i_dead s I b B1 B2 OB) as [_ [S0 _]].
  assert (DV : v < s_vn s) by (apply (i_dom s I); congruence).
  pose proof (i_ar s I b) as AR. pose proof (i_free s I b) as FR.
  assert (NF : ~ In b (s_free s)) by (rewrite FR; intros [_ H]; congruence).
  assert (NR : forall w z, w <> v -> s_vars s w = Some z -> x_ref z <> Some b).
  { intros w z NE Z1 Z2. destruct (x_stale z) eqn:SZ.
    - assert (IN : In w (kvars (s_stack s))) by (apply (i_stale s I); eauto). rewrite E in IN. unfold kvars in IN. cbn [flat_map kv app] in IN. rewrite KV in IN. cbn in IN. destruct IN as [H|IN]; [congruence|].
      destruct (rest_kvars w q RQ IN) as [c FC].
      assert (IS : In (TFin w c) (s_stack s)) by (rewrite E; right; right; auto).
      destruct (i_tvb s I (TFin w c) w c IS eq_refl) as [z' [Z1' [Z2' _]]]. rewrite Z1 in Z1'. injection Z1' as <-. assert (c = b) by congruence. subst c. apply fins_in in IS. lia.
    - pose proof (refs_ge (s_vn s) (s_vars s) w (x_kind z) b ltac:(apply (i_dom s I); congruence)) as GE.
      assert (ind (s_vars s w) (x_kind z) b = 1) by (rewrite Z1; unfold ind; rewrite SZ, Z2, kind_eqb_refl, Nat.eqb_refl; auto). destruct (x_kind z); lia. }
  assert (RX : forall k c, refs (vset (s_vars s) v (Some (mkV (x_kind y) None (x_stale y) (x_own y)))) (s_vn s) k c = refs (s_vars s) (s_vn s) k c).
  { intros k c. pose proof (refs_set (s_vn s) (s_vars s) v (Some (mkV (x_kind y) None (x_stale y) (x_own y))) k c DV) as H. rewrite Y in H.
    assert (X1 : ind (Some y) k c = 0) by (unfold ind; rewrite Y3; auto). assert (X2 : ind (Some (mkV (x_kind y) None (x_stale y) (x_own y))) k c = 0) by (unfold ind; cbn; rewrite Y3; auto). lia. }
  set (nb := mkB (b_heap x) (b_cnt x) (b_wp x) (b_p x) (b_obj x) true (b_uid x) (b_mem x)) in *.
  pose proof I as J. destruct J. rewrite E in *.
  assert (G : forall fr, NoDup fr -> (forall c, In c fr <-> In c (s_arena s) /\ b_rel (bset (s_blk s) b nb c) = true) -> Inv (set_free s2 fr)).
  { intros fr FN FI. unfold s2, set_free, set_var, note, set_blk, set_stack. proj. constructor; proj; auto.
    - intros w H. destruct (Nat.eq_dec w v) as [->|NE]; auto. rewrite vset_ne in H by auto. auto.
    - intros w z c H1 H2. destruct (Nat.eq_dec w v) as [->|NE]; [rewrite vset_eq in H1; injection H1 as <-; discriminate|]. rewrite vset_ne in H1 by auto.
      destruct (Nat.eq_dec c b) as [->|NE2]; [exfalso; eapply NR; eauto|]. rewrite bset_ne by auto. eauto.
    - intros w. change (kvars (K :: q)) with (kvars (TChk v b :: K :: q)). rewrite i_stale0. destruct (Nat.eq_dec w v) as [->|NE]; [|rewrite vset_ne by auto; tauto].
      rewrite vset_eq, Y. split; intros [z [Z1 Z2]]; injection Z1 as <-; eexists; (split; [reflexivity|]); cbn in *; auto.
    - intros t w c IN HT. destruct (i_tvb0 t w c (or_intror IN) HT) as [z [Z1 [Z2 Z3]]]. destruct (Nat.eq_dec w v) as [->|NE]; [|rewrite vset_ne by auto; eauto].
      rewrite Y in Z1. injection Z1 as <-. rewrite Y2 in Z2. injection Z2 as <-. exfalso.
      destruct IN as [<-|IN]; [congruence|].
      destruct (rest_tvb q t v b RQ IN HT) as [w' ->]. assert (0 < fins b (TChk v b :: K :: q)) by (eapply fins_in; right; right; eauto). lia.
    - intros w c IN. destruct (Nat.eq_dec c b) as [->|NE]; [rewrite bset_eq; auto|]. rewrite bset_ne by auto. eapply i_fin0. right. eauto.
    - intros c H1 H2. rewrite RX. destruct (Nat.eq_dec c b) as [->|NE]; [rewrite bset_eq in H2; discriminate|]. rewrite bset_ne in * by auto. apply i_wp0; auto.
    - intros c H1 H2 H3. rewrite RX. destruct (Nat.eq_dec c b) as [->|NE]; [rewrite bset_eq in H2; discriminate|]. rewrite bset_ne in * by auto.
      destruct (i_cnt0 c H1 H2 H3) as [A1 [A2|A2]]; auto. destruct A2.
    - intros c H1 H2 H3. rewrite RX. destruct (Nat.eq_dec c b) as [->|NE]; [rewrite bset_eq in H2; discriminate|]. rewrite bset_ne in * by auto.
      destruct (i_dead0 c H1 H2 H3) as [A1 [A2 [A3|A3]]]; auto. cbn in A3. congruence.
    - intros c H1 H2. destruct (Nat.eq_dec c b) as [->|NE]; [rewrite bset_eq; cbn; auto|]. rewrite bset_ne in * by auto. auto.
    - intros c. destruct (Nat.eq_dec c b) as [->|NE]; [rewrite bset_eq; cbn; apply i_ar0|]. rewrite bset_ne by auto. auto.
    - intros c H1 H2. destruct (Nat.eq_dec c b) as [->|NE]; [rewrite bset_eq in *; cbn in *; apply i_p0; auto|]. rewrite bset_ne in * by auto. auto.
    - intros c H1 H2 H3 H4. destruct (Nat.eq_dec c b) as [->|NE]; [rewrite bset_eq in *; cbn in *; apply i_pd0; auto|]. rewrite bset_ne in * by auto. apply i_pd0; auto.
    - intros c d H1 H2. unfold bset. destruct (Nat.eqb_spec c b), (Nat.eqb_spec d b); cbn [b_uid nb]; intros H; subst; auto.
    - intros c H1. destruct (Nat.eq_dec c b) as [->|NE]; [rewrite bset_eq; cbn; apply i_un0; auto|rewrite bset_ne by auto; auto].
    - intros c H1. destruct (n_cons (b_uid (bset (s_blk s) b nb c)) (ORel (b_uid x)) (s_log s)) as [-> ->].
      destruct (Nat.eq_dec c b) as [->|NE].
      + rewrite bset_eq. cbn [b_uid b_obj b_rel nb]. rewrite Nat.eqb_refl. unfold x. destruct (i_log0 b B1) as [L1 L2]. rewrite B2 in L2. rewrite L1, L2. auto.
      + rewrite bset_ne by auto. destruct (Nat.eqb_spec (b_uid x) (b_uid (s_blk s c))) as [EQ|_]; [apply i_uid0 in EQ; auto; congruence|]. apply i_log0. auto.
    - intros u H. destruct (n_cons u (ORel (b_uid x)) (s_log s)) as [-> ->]. destruct (i_past0 u H) as [[c [A1 A2]]|A].
      + left. exists c. split; auto. destruct (Nat.eq_dec c b) as [->|NE]; [rewrite bset_eq; auto|rewrite bset_ne by auto; auto].
      + right. destruct (Nat.eqb_spec (b_uid x) u) as [EQ|_]; [|auto]. exfalso. destruct (i_log0 b B1) as [_ L2]. rewrite B2 in L2. unfold x in EQ. rewrite EQ in L2. lia.
    - intros u H. destruct (n_cons u (ORel (b_uid x)) (s_log s)) as [-> ->]. destruct (Nat.eqb_spec (b_uid x) u) as [EQ|_]; [|apply i_new0; auto]. exfalso. pose proof (i_un0 b B1). unfold x in EQ. lia. }
  split; intros HH.
  - apply (inv_ext (set_free s2 (s_free s))); auto. apply G; auto. intros c. rewrite i_free0. destruct (Nat.eq_dec c b) as [->|NE]; [|rewrite bset_ne by auto; tauto].
    rewrite i_ar0. unfold x in HH. split; intros [[H1 H2] _]; congruence.
  - assert (IA : In b (s_arena s)) by (apply i_ar0; auto). split.
    + eapply Nat.lt_le_trans; [|exact i_cap0]. change (length (s_free s) < length (s_arena s)). apply (NoDup_incl_length (l := b :: s_free s)).
      * constructor; auto.
      * intros c [<-|H]; auto. apply i_free0 in H. tauto.
    + apply G; [constructor; auto|]. intros c. cbn [In]. rewrite i_free0. destruct (Nat.eq_dec c b) as [->|NE]; [rewrite bset_eq; cbn; tauto|]. rewrite bset_ne by auto. split; [intros [H|H]; [congruence|auto]|auto].
Qed.

(** The variable of the innermost member function goes away (end of a destructor), or is about to get its new value. *)
Lemma kill_inv : forall s k v r, Inv s -> s_stack s = k :: r -> kok k v r -> Inv (set_var (set_stack s r) v None) /\ rest r.
Proof.
  intros s k v r I E KO. destruct (kok_facts k v r KO) as (KV & KT & KF & KN & KD & _).
  pose proof I as J. destruct J. rewrite E in *.
  assert (RR : rest r) by (destruct k; cbn in KO; try tauto; cbn [top] in i_top0; tauto). split; [|auto].
  assert (IV : In v (kvars (k :: r))) by (unfold kvars; cbn [flat_map]; rewrite KV; left; auto).
  assert (EX : exists y, s_vars s v = Some y /\ x_stale y = true) by (apply i_stale0; auto). destruct EX as [y [Y1 Y2]].
  assert (DV : v < s_vn s) by (apply i_dom0; congruence).
  assert (NV : ~ In v (kvars r)).
  { unfold kvars in *. cbn [flat_map] in i_nd0. rewrite KV in i_nd0. inversion i_nd0; auto. }
  assert (RX : forall kk c, refs (vset (s_vars s) v None) (s_vn s) kk c = refs (s_vars s) (s_vn s) kk c).
  { intros kk c. pose proof (refs_set (s_vn s) (s_vars s) v None kk c DV) as H. rewrite Y1 in H. assert (ind (Some y) kk c = 0) by (unfold ind; rewrite Y2; auto). change (ind None kk c) with 0 in H. lia. }
  assert (NT : forall t c, In t r -> tvb t = Some (v, c) -> False).
  { intros t c IN HT. assert (G : forall l, rest l -> In t l -> In v (kvars l)).
    { intros l. remember (length l) as n eqn:LN. assert (LE : length l <= n) by lia. clear LN. revert l LE. induction n as [|n IH]; intros l LE R IT.
      { destruct l; [destruct IT|cbn in LE; lia]. }
      destruct l as [|u l]; [destruct IT|]. cbn [length] in LE. destruct u; cbn [rest] in R; try tauto.
      - destruct IT as [<-|IT]; [discriminate|]. apply IH in IT; auto. lia.
      - destruct l as [|k' l]; [destruct R|]. cbn [length] in LE. destruct R as [R1 R2]. destruct (kok_facts _ _ _ R1) as (KV' & KT' & _).
        unfold kvars in *. cbn [flat_map kv app]. rewrite KV'. destruct IT as [<-|[<-|IT]]; [cbn in HT; injection HT as <- <-; left; auto|congruence|].
        right. apply IH; auto. lia. }
    apply NV. apply (G r); auto. }
  constructor; proj; auto.
  - intros w H. destruct (Nat.eq_dec w v) as [->|NE]; auto. rewrite vset_ne in H by auto. auto.
  - intros w z c H1 H2. destruct (Nat.eq_dec w v) as [->|NE]; [rewrite vset_eq in H1; discriminate|]. rewrite vset_ne in H1 by auto. eauto.
  - intros w. destruct (Nat.eq_dec w v) as [->|NE].
    + rewrite vset_eq. split; [tauto|intros [z [Z1 _]]; discriminate].
    + rewrite vset_ne by auto. rewrite <- i_stale0. unfold kvars. cbn [flat_map]. rewrite KV. cbn. split; [auto|intros [H|H]; [congruence|auto]].
  - unfold kvars in *. cbn [flat_map] in i_nd0. rewrite KV in i_nd0. inversion i_nd0; auto.
  - apply rest_top. auto.
  - intros t w c IN HT. destruct (Nat.eq_dec w v) as [->|NE]; [exfalso; eapply NT; eauto|]. rewrite vset_ne by auto. apply i_tvb0; auto. right. auto.
  - intros w c IN. eapply i_fin0. right. eauto.
  - intros c H1 H2. rewrite RX, <- KF. auto.
  - intros c H1 H2 H3. rewrite RX. destruct (i_cnt0 c H1 H2 H3) as [A1 [A2|A2]]; auto. destruct k; cbn in KO, A2; tauto.
  - intros c H1 H2 H3. rewrite RX. destruct (i_dead0 c H1 H2 H3) as [A1 [A2 [A3|A3]]]; auto. destruct k; cbn in KO, A3; tauto.
  - intros c H1 H2 H3. rewrite <- KF. auto.
Qed.

(** One more variable number. *)
Definition grow (s : st) : st := mkS (s_vars s) (S (s_vn s)) (s_blk s) (s_bn s) (s_arena s) (s_free s) (s_cap s) (s_stack s) (s_log s) (s_un s).
Lemma grow_inv : forall s, Inv s -> Inv (grow s) /\ s_vars s (s_vn s) = None.
Proof.
  intros s I. assert (N0 : s_vars s (s_vn s) = None).
  { destruct (s_vars s (s_vn s)) eqn:E; auto. exfalso. assert (s_vn s < s_vn s) by (apply (i_dom s I); congruence). lia. }
  split; [|auto]. assert (RX : forall k b, refs (s_vars s) (S (s_vn s)) k b = refs (s_vars s) (s_vn s) k b) by (intros; cbn [refs]; rewrite N0; cbn; lia).
  destruct I. unfold grow. constructor; cbn [s_vars s_vn s_blk s_bn s_arena s_free s_cap s_stack s_log s_un]; auto; intros; rewrite ?RX; auto. pose proof (i_dom0 v H). lia.
Qed.

(** A pointer to nothing. *)
Lemma null_inv : forall s v k o, Inv s -> v < s_vn s -> s_vars s v = None -> Inv (set_var s v (Some (mkV k None false o))).
Proof.
  intros s v k o I DV V. assert (RX : forall kk c, refs (vset (s_vars s) v (Some (mkV k None false o))) (s_vn s) kk c = refs (s_vars s) (s_vn s) kk c).
  { intros kk c. pose proof (refs_set (s_vn s) (s_vars s) v (Some (mkV k None false o)) kk c DV) as H. rewrite V in H. assert (X : ind (Some (mkV k None false o)) kk c = 0) by (unfold ind; cbn; now rewrite andb_false_r). change (ind None kk c) with 0 in H. lia. }
  destruct I. constructor; proj; auto.
  - intros w H. destruct (Nat.eq_dec w v) as [->|NE]; auto. rewrite vset_ne in H by auto. auto.
  - intros w z c H1 H2. destruct (Nat.eq_dec w v) as [->|NE]; [rewrite vset_eq in H1; injection H1 as <-; discriminate|]. rewrite vset_ne in H1 by auto. eauto.
  - intros w. rewrite i_stale0. destruct (Nat.eq_dec w v) as [->|NE]; [|rewrite vset_ne by auto; tauto]. rewrite vset_eq, V. split; intros [z [Z1 Z2]]; [discriminate|]. injection Z1 as <-. discriminate.
  - intros t w c IN HT. destruct (i_tvb0 t w c IN HT) as [z Z]. destruct (Nat.eq_dec w v) as [->|NE]; [rewrite V in Z; destruct Z; discriminate|]. rewrite vset_ne by auto. eauto.
  - intros c H1 H2. rewrite RX. auto.
  - intros c H1 H2 H3. rewrite RX. auto.
  - intros c H1 H2 H3. rewrite RX. auto.
Qed.

(** A pointer that shares a block. *)
Lemma share_inv : forall s v k b o, Inv s -> rest (s_stack s) -> v < s_vn s -> s_vars s v = None -> b < s_bn s -> b_rel (s_blk s b) = false -> (k = Strong -> b_obj (s_blk s b) = true) ->
  Inv (set_var (bump s k b 1) v (Some (mkV k (Some b) false o))).
Proof.
  intros s v k b o I RS DV V B1 B2 OB.
  assert (RX : forall kk c, refs (vset (s_vars s) v (Some (mkV k (Some b) false o))) (s_vn s) kk c = refs (s_vars s) (s_vn s) kk c + if (kind_eqb k kk && Nat.eqb b c)%bool then 1 else 0).
  { intros kk c. pose proof (refs_set (s_vn s) (s_vars s) v (Some (mkV k (Some b) false o)) kk c DV) as H. rewrite V in H. change (ind None kk c) with 0 in H. unfold ind in H. cbn [x_stale x_kind x_ref negb] in H.
    change ((true && kind_eqb k kk && Nat.eqb b c)%bool) with ((kind_eqb k kk && Nat.eqb b c)%bool) in H. lia. }
  pose proof (rest_hd (s_stack s)) as RH.
  unfold set_var, bump, set_blk. proj.
  assert (NB : forall c, let z := bset (s_blk s) b (match k with Strong => with_cnt (s_blk s b) (b_cnt (s_blk s b) + 1) | Weak => with_wp (s_blk s b) (b_wp (s_blk s b) + 1) end) c in
     b_heap z = b_heap (s_blk s c) /\ b_p z = b_p (s_blk s c) /\ b_obj z = b_obj (s_blk s c) /\ b_rel z = b_rel (s_blk s c) /\ b_uid z = b_uid (s_blk s c) /\
     b_cnt z = (b_cnt (s_blk s c) + if (kind_eqb k Strong && Nat.eqb b c)%bool then 1 else 0)%Z /\ b_wp z = (b_wp (s_blk s c) + if (kind_eqb k Weak && Nat.eqb b c)%bool then 1 else 0)%Z).
  { intros c. cbv zeta. destruct (Nat.eq_dec c b) as [->|NE].
    - rewrite bset_eq, Nat.eqb_refl. destruct k; cbn; repeat split; auto; lia.
    - rewrite bset_ne by auto. destruct (Nat.eqb_spec b c); [congruence|]. rewrite !andb_false_r. repeat split; lia. }
  remember (bset (s_blk s) b (match k with Strong => with_cnt (s_blk s b) (b_cnt (s_blk s b) + 1) | Weak => with_wp (s_blk s b) (b_wp (s_blk s b) + 1) end)) as nb eqn:E0. clear E0.
  assert (C1 : forall c, b_heap (nb c) = b_heap (s_blk s c)) by apply NB. assert (C2 : forall c, b_p (nb c) = b_p (s_blk s c)) by apply NB.
  assert (C3 : forall c, b_obj (nb c) = b_obj (s_blk s c)) by apply NB. assert (C4 : forall c, b_rel (nb c) = b_rel (s_blk s c)) by apply NB.
  assert (C5 : forall c, b_uid (nb c) = b_uid (s_blk s c)) by apply NB.
  assert (C6 : forall c, b_cnt (nb c) = (b_cnt (s_blk s c) + if (kind_eqb k Strong && Nat.eqb b c)%bool then 1 else 0)%Z) by apply NB.
  assert (C7 : forall c, b_wp (nb c) = (b_wp (s_blk s c) + if (kind_eqb k Weak && Nat.eqb b c)%bool then 1 else 0)%Z) by apply NB. clear NB.
  destruct I. constructor; proj.
  - intros w H. destruct (Nat.eq_dec w v) as [->|NE]; auto. rewrite vset_ne in H by auto. auto.
  - intros w z c H1 H2. rewrite C4. destruct (Nat.eq_dec w v) as [->|NE]; [rewrite vset_eq in H1; injection H1 as <-; cbn in H2; injection H2 as <-; auto|]. rewrite vset_ne in H1 by auto. eauto.
  - intros w. rewrite i_stale0. destruct (Nat.eq_dec w v) as [->|NE]; [|rewrite vset_ne by auto; tauto]. rewrite vset_eq, V. split; intros [z [Z1 Z2]]; [discriminate|]. injection Z1 as <-. discriminate.
  - auto.
  - auto.
  - intros t w c IN HT. destruct (i_tvb0 t w c IN HT) as [z Z]. destruct (Nat.eq_dec w v) as [->|NE]; [rewrite V in Z; destruct Z; discriminate|]. rewrite vset_ne by auto. eauto.
  - intros w c IN. rewrite C3. eauto.
  - intros c H1 H2. rewrite C4 in H2. rewrite C7, RX, (i_wp0 c H1 H2). destruct (kind_eqb k Weak && Nat.eqb b c)%bool; lia.
  - intros c H1 H2 H3. rewrite C4 in H2. rewrite C3 in H3. rewrite C6, RX. destruct (i_cnt0 c H1 H2 H3) as [A1 [A2|A2]]; [|now apply RH in A2]. destruct (kind_eqb k Strong && Nat.eqb b c)%bool; split; try lia.
  - intros c H1 H2 H3. rewrite C4 in H2. rewrite C3 in H3. rewrite C6, C7, RX. destruct (i_dead0 c H1 H2 H3) as [A1 [A2 [A3|A3]]]; [|now apply RH in A3].
    assert (X : (kind_eqb k Strong && Nat.eqb b c)%bool = false).
    { destruct k; auto. destruct (Nat.eqb_spec b c) as [->|]; auto. rewrite OB in H3 by auto. discriminate. }
    rewrite X. split; [lia|]. split; [lia|]. left. destruct (kind_eqb k Weak && Nat.eqb b c)%bool; lia.
  - intros c H1 H2. rewrite C4 in H2. rewrite C3, C7. destruct (i_rel0 c H1 H2) as [A1 A2]. destruct (Nat.eqb_spec b c); [congruence|]. rewrite andb_false_r. split; [lia|auto].
  - intros c. rewrite C1. auto.
  - auto.
  - auto.
  - intros c. rewrite C4. auto.
  - auto.
  - intros c H1 H2. rewrite C1, C3 in H2. rewrite C2. auto.
  - intros c H1 H2 H3. rewrite C3 in H2. rewrite C1 in H3. rewrite C2. auto.
  - intros c d H1 H2. rewrite !C5. auto.
  - intros c. rewrite C5. auto.
  - intros c. rewrite C5, C3, C4. auto.
  - intros u H. destruct (i_past0 u H) as [[c [A1 A2]]|A]; auto. left. exists c. rewrite C5. auto.
  - auto.
Qed.

(** A moved pointer. *)
Lemma move_inv : forall s v w x o, Inv s -> v < s_vn s -> s_vars s v = None -> v <> w -> s_vars s w = Some x -> x_stale x = false ->
  Inv (set_var (set_var s w (Some (mkV (x_kind x) None (x_stale x) (x_own x)))) v (Some (mkV (x_kind x) (x_ref x) false o))).
Proof.
  intros s v w x o I DV V NE W SX. assert (DW : w < s_vn s) by (apply (i_dom s I); congruence).
  assert (RX : forall kk c, refs (vset (vset (s_vars s) w (Some (mkV (x_kind x) None (x_stale x) (x_own x)))) v (Some (mkV (x_kind x) (x_ref x) false o))) (s_vn s) kk c = refs (s_vars s) (s_vn s) kk c).
  { intros kk c. pose proof (refs_set (s_vn s) (vset (s_vars s) w (Some (mkV (x_kind x) None (x_stale x) (x_own x)))) v (Some (mkV (x_kind x) (x_ref x) false o)) kk c DV) as H.
    pose proof (refs_set (s_vn s) (s_vars s) w (Some (mkV (x_kind x) None (x_stale x) (x_own x))) kk c DW) as H2. rewrite vset_ne in H by auto. rewrite V in H. rewrite W in H2.
    assert (X1 : ind (Some (mkV (x_kind x) None (x_stale x) (x_own x))) kk c = 0) by (unfold ind; cbn; now rewrite andb_false_r).
    assert (X2 : ind (Some (mkV (x_kind x) (x_ref x) false o)) kk c = ind (Some x) kk c) by (unfold ind; cbn [x_stale x_kind x_ref]; now rewrite SX). change (ind None kk c) with 0 in H. lia. }
  assert (NS : forall t c, In t (s_stack s) -> tvb t = Some (w, c) -> In w (kvars (s_stack s))).
  { intros t c IN HT. pose proof (i_top s I) as T.
    assert (G : forall l, rest l -> In t l -> In w (kvars l)).
    { intros l. remember (length l) as n eqn:LN. assert (LE : length l <= n) by lia. clear LN. revert l LE. induction n as [|n IH]; intros l LE R IT.
      { destruct l; [destruct IT|cbn in LE; lia]. }
      destruct l as [|u l]; [destruct IT|]. cbn [length] in LE. destruct u; cbn [rest] in R; try tauto.
      - destruct IT as [<-|IT]; [discriminate|]. apply IH in IT; auto. lia.
      - destruct l as [|k' l]; [destruct R|]. cbn [length] in LE. destruct R as [R1 R2]. destruct (kok_facts _ _ _ R1) as (KV' & KT' & _).
        unfold kvars in *. cbn [flat_map kv app]. rewrite KV'. destruct IT as [<-|[<-|IT]]; [cbn in HT; injection HT as <- <-; left; auto|congruence|].
        right. apply IH; auto. lia. }
    destruct (s_stack s) as [|u l]; [destruct IN|].
    assert (H2 : forall k q v' c', u = TRel k v' c' \/ u = TChk v' c' -> kok q v' (tl l) -> rest (tl l) -> l = q :: tl l -> In w (kvars (u :: l))).
    { intros k q v' c' HU K R L. rewrite L. destruct (kok_facts _ _ _ K) as (KV' & KT' & _). assert (EU : kvars (u :: q :: tl l) = v' :: kvars (tl l)) by (unfold kvars; destruct HU as [->| ->]; cbn [flat_map kv app]; rewrite KV'; auto).
      rewrite EU. rewrite L in IN. destruct IN as [<-|[<-|IN]].
      - destruct HU as [->| ->]; cbn in HT; injection HT as <- <-; left; auto.
      - congruence.
      - right. apply G; auto. }
    destruct u; cbn [top] in T.
    - apply G; auto.
    - destruct l as [|q l]; [destruct T|]. destruct T. eapply (H2 k q v0 b); auto.
    - apply G; auto.
    - destruct l as [|q l]; [destruct T|]. destruct T. eapply (H2 Strong q v0 b); auto.
    - destruct T as [T1 T2]. destruct IN as [<-|IN]; [discriminate|]. unfold kvars. cbn [flat_map kv app]. right. apply G; auto.
    - destruct T as [T1 T2]. destruct IN as [<-|IN]; [discriminate|]. unfold kvars. cbn [flat_map kv app]. right. apply G; auto. }
  destruct I. constructor; proj; auto.
  - intros y H. destruct (Nat.eq_dec y v) as [->|N1]; auto. rewrite vset_ne in H by auto. destruct (Nat.eq_dec y w) as [->|N2]; auto. rewrite vset_ne in H by auto. auto.
  - intros y z c H1 H2. destruct (Nat.eq_dec y v) as [->|N1]; [rewrite vset_eq in H1; injection H1 as <-; cbn in H2; eauto|]. rewrite vset_ne in H1 by auto.
    destruct (Nat.eq_dec y w) as [->|N2]; [rewrite vset_eq in H1; injection H1 as <-; discriminate|]. rewrite vset_ne in H1 by auto. eauto.
  - intros y. rewrite i_stale0. destruct (Nat.eq_dec y v) as [->|N1]; [rewrite vset_eq, V; split; intros [z [Z1 Z2]]; [discriminate|]; injection Z1 as <-; discriminate|].
    rewrite (vset_ne _ v) by auto. destruct (Nat.eq_dec y w) as [->|N2]; [|rewrite vset_ne by auto; tauto].
    rewrite vset_eq, W. split; intros [z [Z1 Z2]]; injection Z1 as <-; cbn in Z2; congruence.
  - intros t y c IN HT. destruct (i_tvb0 t y c IN HT) as [z Z]. destruct (Nat.eq_dec y v) as [->|N1]; [rewrite V in Z; destruct Z; discriminate|]. rewrite vset_ne by auto.
    destruct (Nat.eq_dec y w) as [->|N2]; [|rewrite vset_ne by auto; eauto]. exfalso. pose proof (NS t c IN HT) as NK. apply i_stale0 in NK. destruct NK as [z' [Z1 Z2]]. congruence.
  - intros c H1 H2. rewrite RX. auto.
  - intros c H1 H2 H3. rewrite RX. auto.
  - intros c H1 H2 H3. rewrite RX. auto.
Qed.

(** A new object in a new block, or in a block taken from the free list. *)
Lemma fresh_inv : forall s v b o heap (reuse : bool) ar fr, Inv s -> rest (s_stack s) -> v < s_vn s -> s_vars s v = None ->
  (if reuse then s_free s = b :: fr /\ heap = false /\ ar = s_arena s
   else b = s_bn s /\ fr = s_free s /\ (if heap : bool then ar = s_arena s else ar = s_arena s ++ [b] /\ length (s_arena s) < s_cap s)) ->
  Inv (mkS (vset (s_vars s) v (Some (mkV Strong (Some b) false o))) (s_vn s) (bset (s_blk s) b (mkB heap 1 0 true true false (s_un s) []))
    (if reuse then s_bn s else S (s_bn s)) ar fr (s_cap s) (s_stack s) (ONew (s_un s) b :: s_log s) (S (s_un s))).
Proof.
  intros s v b o heap reuse ar fr I RS DV V HR. pose proof (rest_hd (s_stack s)) as RH.
  assert (FB : (reuse = true -> In b (s_arena s) /\ b < s_bn s /\ b_rel (s_blk s b) = true) /\ (reuse = false -> b = s_bn s)).
  { destruct reuse; split; try discriminate; try tauto; intros _. destruct HR as [F _]. assert (IF : In b (s_free s)) by (rewrite F; left; auto). apply (i_free s I) in IF. destruct IF as [A R]. split; auto. split; auto. apply (i_ar s I) in A. tauto. }
  destruct FB as [FB1 FB2].
  assert (BL : forall c, c < (if reuse then s_bn s else S (s_bn s)) -> c <> b -> c < s_bn s) by (intros c H1 H2; destruct reuse; auto; rewrite (FB2 eq_refl) in H2; lia).
  assert (BU : forall c, c < s_bn s -> c < (if reuse then s_bn s else S (s_bn s))) by (intros c H1; destruct reuse; lia).
  assert (NR : forall w z, s_vars s w = Some z -> x_ref z <> Some b).
  { intros w z W X. destruct (i_ref s I w z b W X) as [X1 X2]. destruct reuse; [destruct (FB1 eq_refl) as (_ & _ & R); congruence|rewrite (FB2 eq_refl) in X1; lia]. }
  assert (R0 : forall kk, refs (s_vars s) (s_vn s) kk b = 0).
  { intros kk. destruct (refs (s_vars s) (s_vn s) kk b) eqn:E; auto. destruct (refs_pos (s_vn s) (s_vars s) kk b) as [w [_ W]]; [lia|]. apply ind_iff in W. destruct W as [oo W]. exfalso. eapply NR; eauto. }
  assert (F0 : fins b (s_stack s) = 0).
  { destruct (fins b (s_stack s)) eqn:E; auto. destruct (fins_pos b (s_stack s)) as [w W]; [lia|]. destruct (i_tvb s I _ w b W eq_refl) as [z [Z1 [Z2 _]]]. exfalso. eapply NR; eauto. }
  assert (RX : forall kk c, refs (vset (s_vars s) v (Some (mkV Strong (Some b) false o))) (s_vn s) kk c = refs (s_vars s) (s_vn s) kk c + if (kind_eqb Strong kk && Nat.eqb b c)%bool then 1 else 0).
  { intros kk c. pose proof (refs_set (s_vn s) (s_vars s) v (Some (mkV Strong (Some b) false o)) kk c DV) as H. rewrite V in H. change (ind None kk c) with 0 in H. unfold ind in H. cbn [x_stale x_kind x_ref negb] in H.
    change ((true && kind_eqb Strong kk && Nat.eqb b c)%bool) with ((kind_eqb Strong kk && Nat.eqb b c)%bool) in H. lia. }
  set (nb := mkB heap 1 0 true true false (s_un s) []).
  pose proof I as J. destruct J. constructor; proj.
  - intros w H. destruct (Nat.eq_dec w v) as [->|NE]; auto. rewrite vset_ne in H by auto. auto.
  - intros w z c H1 H2. destruct (Nat.eq_dec w v) as [->|NE].
    + rewrite vset_eq in H1. injection H1 as <-. cbn in H2. injection H2 as <-. rewrite bset_eq. split; auto. destruct reuse; [apply FB1; auto|rewrite (FB2 eq_refl); auto].
    + rewrite vset_ne in H1 by auto. destruct (i_ref0 w z c H1 H2) as [A1 A2]. rewrite bset_ne; auto. intros ->. eapply NR; eauto.
  - intros w. rewrite i_stale0. destruct (Nat.eq_dec w v) as [->|NE]; [|rewrite vset_ne by auto; tauto]. rewrite vset_eq, V. split; intros [z [Z1 Z2]]; [discriminate|]. injection Z1 as <-. discriminate.
  - auto.
  - auto.
  - intros t w c IN HT. destruct (i_tvb0 t w c IN HT) as [z Z]. destruct (Nat.eq_dec w v) as [->|NE]; [rewrite V in Z; destruct Z; discriminate|]. rewrite vset_ne by auto. eauto.
  - intros w c IN. destruct (Nat.eq_dec c b) as [->|NE]; [apply fins_in in IN; lia|]. rewrite bset_ne by auto. eauto.
  - intros c H1 H2. rewrite RX. cbn [kind_eqb andb]. destruct (Nat.eq_dec c b) as [->|NE]; [rewrite bset_eq; cbn [b_wp nb]; rewrite R0; lia|]. rewrite bset_ne in * by auto. rewrite i_wp0 by auto. lia.
  - intros c H1 H2 H3. rewrite RX. cbn [kind_eqb andb]. destruct (Nat.eq_dec c b) as [->|NE]; [rewrite bset_eq; cbn [b_cnt nb]; rewrite R0, Nat.eqb_refl; split; [lia|left; lia]|]. rewrite bset_ne in * by auto.
    destruct (Nat.eqb_spec b c); [congruence|]. destruct (i_cnt0 c) as [A1 [A2|A2]]; auto; [|now apply RH in A2]. split; [lia|auto].
  - intros c H1 H2 H3. rewrite RX. cbn [kind_eqb andb]. destruct (Nat.eq_dec c b) as [->|NE]; [rewrite bset_eq in H3; discriminate|]. rewrite bset_ne in * by auto.
    destruct (Nat.eqb_spec b c); [congruence|]. destruct (i_dead0 c) as [A1 [A2 [A3|A3]]]; auto; [|now apply RH in A3]. split; [auto|]. split; [lia|auto].
  - intros c H1 H2. destruct (Nat.eq_dec c b) as [->|NE]; [rewrite bset_eq in H2; discriminate|]. rewrite bset_ne in * by auto. auto.
  - intros c. destruct reuse.
    + destruct HR as (_ & -> & ->). destruct (Nat.eq_dec c b) as [->|NE]; [rewrite bset_eq; cbn; destruct (FB1 eq_refl) as (A & B & _); tauto|]. rewrite bset_ne by auto. auto.
    + rewrite (FB2 eq_refl). destruct HR as (_ & _ & HR). destruct (Nat.eq_dec c (s_bn s)) as [->|NE].
      * rewrite bset_eq. cbn [b_heap nb]. destruct heap.
        -- subst ar. rewrite i_ar0. split; [intros [H _]; lia|intros [_ H]; discriminate].
        -- destruct HR as [-> _]. split; [intros _; split; [lia|auto]|intros _; apply in_or_app; right; left; auto].
      * rewrite bset_ne by auto. assert (X : In c ar <-> In c (s_arena s)).
        { destruct heap; [now subst|]. destruct HR as [-> _]. rewrite in_app_iff. cbn. split; [intros [H|[H|[]]]; [auto|]|auto]. exfalso. apply NE. rewrite <- H. apply FB2. reflexivity. }
        rewrite X, i_ar0. split; intros [H1 H2]; split; auto; lia.
  - destruct reuse; [destruct HR as (_ & _ & ->); auto|]. destruct HR as (_ & _ & HR). destruct heap; [now subst|]. destruct HR as [-> _].
    rewrite (FB2 eq_refl). apply NoDup_rev in i_arnd0. rewrite <- (rev_involutive (s_arena s ++ [s_bn s])). apply NoDup_rev. rewrite rev_app_distr. cbn. constructor; auto.
    rewrite <- in_rev, i_ar0. lia.
  - destruct reuse; [destruct HR as (_ & _ & ->); auto|]. destruct HR as (_ & _ & HR). destruct heap; [now subst|]. destruct HR as [-> L]. rewrite app_length. cbn. lia.
  - intros c. destruct reuse.
    + destruct HR as (F & -> & ->). rewrite F in i_fnd0. inversion i_fnd0 as [|? ? NI ND]; subst. destruct (Nat.eq_dec c b) as [->|NE].
      * rewrite bset_eq. cbn. split; [tauto|intros [_ H]; discriminate].
      * rewrite bset_ne by auto. rewrite <- i_free0, F. cbn. split; [auto|intros [H|H]; [congruence|auto]].
    + rewrite (FB2 eq_refl). destruct HR as (_ & -> & HR). rewrite i_free0. destruct (Nat.eq_dec c (s_bn s)) as [->|NE].
      * rewrite bset_eq. cbn. rewrite i_ar0. split; [intros [[H _] _]; lia|intros [_ H]; discriminate].
      * rewrite bset_ne by auto. assert (X : In c ar <-> In c (s_arena s)).
        { destruct heap; [now subst|]. destruct HR as [-> _]. rewrite in_app_iff. cbn. split; [intros [H|[H|[]]]; [auto|]|auto]. exfalso. apply NE. rewrite <- H. apply FB2. reflexivity. }
        rewrite X. tauto.
  - destruct reuse; [destruct HR as (F & _ & _); rewrite F in i_fnd0; inversion i_fnd0; auto|]. destruct HR as (_ & -> & _). auto.
  - intros c H1 H2. destruct (Nat.eq_dec c b) as [->|NE]; [rewrite bset_eq; auto|]. rewrite bset_ne in * by auto. auto.
  - intros c H1 H2 H3 H4. destruct (Nat.eq_dec c b) as [->|NE]; [rewrite bset_eq in H2; discriminate|]. rewrite bset_ne in * by auto. auto.
  - intros c d H1 H2. unfold bset. destruct (Nat.eqb_spec c b), (Nat.eqb_spec d b); cbn [b_uid nb]; intros H; subst; auto.
    + exfalso. pose proof (i_un0 d ltac:(auto)). lia.
    + exfalso. pose proof (i_un0 c ltac:(auto)). lia.
  - intros c H1. destruct (Nat.eq_dec c b) as [->|NE]; [rewrite bset_eq; cbn; lia|]. rewrite bset_ne by auto. pose proof (i_un0 c ltac:(auto)). lia.
  - intros c H1. destruct (n_cons (b_uid (bset (s_blk s) b nb c)) (ONew (s_un s) b) (s_log s)) as [-> ->]. destruct (Nat.eq_dec c b) as [->|NE].
    + rewrite bset_eq. cbn. apply i_new0. lia.
    + rewrite bset_ne by auto. apply i_log0. auto.
  - intros u H. destruct (n_cons u (ONew (s_un s) b) (s_log s)) as [-> ->]. destruct (Nat.eq_dec u (s_un s)) as [->|NE].
    + left. exists b. rewrite bset_eq. split; auto. destruct reuse; [apply FB1; auto|rewrite (FB2 eq_refl); auto].
    + destruct (i_past0 u ltac:(lia)) as [[c [A1 A2]]|A]; [|auto]. destruct (Nat.eq_dec c b) as [->|NE2].
      * right. destruct reuse; [|rewrite (FB2 eq_refl) in A1; lia]. destruct (FB1 eq_refl) as (_ & _ & R). destruct (i_log0 b A1) as [L1 L2]. destruct (i_rel0 b A1 R) as [_ O]. rewrite A2, O in L1. rewrite A2, R in L2. auto.
      * left. exists c. rewrite bset_ne by auto. auto.
  - intros u H. destruct (n_cons u (ONew (s_un s) b) (s_log s)) as [-> ->]. apply i_new0. lia.
Qed.

Lemma mem_inv : forall s b l, Inv s -> Inv (set_blk s b (with_mem (s_blk s b) l)).
Proof.
  intros s b l I. assert (NB : forall c, let z := bset (s_blk s) b (with_mem (s_blk s b) l) c in b_heap z = b_heap (s_blk s c) /\ b_p z = b_p (s_blk s c) /\ b_obj z = b_obj (s_blk s c) /\ b_rel z = b_rel (s_blk s c) /\ b_uid z = b_uid (s_blk s c) /\ b_cnt z = b_cnt (s_blk s c) /\ b_wp z = b_wp (s_blk s c)).
  { intros c. cbv zeta. unfold bset. destruct (Nat.eqb_spec c b) as [->|]; cbn; repeat split. }
  unfold set_blk. remember (bset (s_blk s) b (with_mem (s_blk s b) l)) as nb eqn:E0. clear E0.
  assert (C1 : forall c, b_heap (nb c) = b_heap (s_blk s c)) by apply NB. assert (C2 : forall c, b_p (nb c) = b_p (s_blk s c)) by apply NB.
  assert (C3 : forall c, b_obj (nb c) = b_obj (s_blk s c)) by apply NB. assert (C4 : forall c, b_rel (nb c) = b_rel (s_blk s c)) by apply NB.
  assert (C5 : forall c, b_uid (nb c) = b_uid (s_blk s c)) by apply NB. assert (C6 : forall c, b_cnt (nb c) = b_cnt (s_blk s c)) by apply NB. assert (C7 : forall c, b_wp (nb c) = b_wp (s_blk s c)) by apply NB. clear NB.
  destruct I. constructor; proj; auto.
  - intros w z c H1 H2. rewrite C4. eauto.
  - intros w c H. rewrite C3. eauto.
  - intros c H1 H2. rewrite C4 in H2. rewrite C7. auto.
  - intros c H1 H2 H3. rewrite C4 in H2. rewrite C3 in H3. rewrite C6. auto.
  - intros c H1 H2 H3. rewrite C4 in H2. rewrite C3 in H3. rewrite C6, C7. auto.
  - intros c H1 H2. rewrite C4 in H2. rewrite C7, C3. auto.
  - intros c. rewrite C1. auto.
  - intros c. rewrite C4. auto.
  - intros c H1 H2. rewrite C1, C3 in H2. rewrite C2. auto.
  - intros c H1 H2 H3. rewrite C3 in H2. rewrite C1 in H3. rewrite C2. auto.
  - intros c d H1 H2. rewrite !C5. auto.
  - intros c. rewrite C5. auto.
  - intros c. rewrite C5, C3, C4. auto.
  - intros u H. destruct (i_past0 u H) as [[c [A1 A2]]|A]; auto. left. exists c. rewrite C5. auto.
Qed.

(** The operands of the assignment at the bottom of the stack. *)
Definition kgood (f : nat -> option var) (v : nat) (x : var) (g : src) : Prop :=
  match g with
  | FHeap => x_kind x = Strong
  | FCopy w | FMove w => (x_kind x = Strong -> w <> v) /\ (forall y, f w = Some y -> x_kind y = x_kind x)
  | _ => True
  end.
Definition KI (s : st) : Prop := forall v f x, In (TSet v f) (s_stack s) -> s_vars s v = Some x -> kgood (s_vars s) v x f.
Lemma KI_back : forall s s', KI s -> (forall v f, In (TSet v f) (s_stack s') -> In (TSet v f) (s_stack s)) ->
  (forall w y, s_vars s' w = Some y -> exists z, s_vars s w = Some z /\ x_kind z = x_kind y) -> KI s'.
Proof.
  intros s s' K HS HV v f x IN V. destruct (HV v x V) as [z [Z1 Z2]]. pose proof (K v f z (HS v f IN) Z1) as G. unfold kgood in *. destruct f; auto.
  - congruence.
  - destruct G as [G1 G2]. split; [intros; apply G1; congruence|]. intros y Y. destruct (HV w y Y) as [u [U1 U2]]. rewrite <- U2, <- Z2. auto.
  - destruct G as [G1 G2]. split; [intros; apply G1; congruence|]. intros y Y. destruct (HV w y Y) as [u [U1 U2]]. rewrite <- U2, <- Z2. auto.
Qed.
Lemma back_set : forall s v x y, s_vars s v = Some x -> x_kind y = x_kind x -> forall w z, vset (s_vars s) v (Some y) w = Some z -> exists u, s_vars s w = Some u /\ x_kind u = x_kind z.
Proof. intros s v x y V K w z H. destruct (Nat.eq_dec w v) as [->|NE]; [rewrite vset_eq in H; injection H as <-; eauto|]. rewrite vset_ne in H by auto. eauto. Qed.
Lemma unlink_KI : forall s v t s', KI s -> unlink s v t = Some s' -> (forall a f, t <> TSet a f) -> KI s'.
Proof.
  intros s v t s' K U NT. unfold unlink in U. destruct (s_vars s v) as [x|] eqn:V; [|discriminate]. destruct (x_stale x); [discriminate|].
  assert (B := back_set s v x (mkV (x_kind x) (x_ref x) true (x_own x)) V eq_refl).
  destruct (x_ref x) as [b|].
  - destruct (gone s b); [discriminate|]. apply Some_inj' in U. subst s'. apply (KI_back s); auto; intros w f; proj; cbn [In].
    + intros [H|[H|H]]; [discriminate|exfalso; eapply NT; eauto|auto].
  - apply Some_inj' in U. subst s'. apply (KI_back s); auto; intros w f; proj; cbn [In].
    + intros [H|H]; [exfalso; eapply NT; eauto|auto].
Qed.

Lemma strong_live : forall s v b o, Inv s -> s_vars s v = Some (mkV Strong (Some b) false o) -> b_obj (s_blk s b) = true.
Proof.
  intros s v b o I V. destruct (i_ref s I v _ b V eq_refl) as [B1 B2]. assert (DV : v < s_vn s) by (apply (i_dom s I); congruence).
  pose proof (refs_ge (s_vn s) (s_vars s) v Strong b DV) as R. assert (ind (s_vars s v) Strong b = 1) by (apply ind_iff; eauto).
  destruct (b_obj (s_blk s b)) eqn:E; auto. destruct (i_dead s I b B1 B2 E) as [_ [R0 _]]. lia.
Qed.

Lemma take_stack : forall s f s1 k r, take s f = Some (Some (s1, k, r)) -> s_stack s1 = s_stack s.
Proof.
  intros s f s1 k r. destruct f; cbn [take]; try (destruct (s_vars s w) as [x|]; [|discriminate]; destruct (x_ref x) as [b|]; try (destruct (gone s b); [discriminate|]); intros H; injection H as <- _ _; auto; fail).
  - intros H. injection H as <- _ _. auto.
  - intros H. injection H as <- _ _. auto.
  - unfold allocate. destruct (s_free s) as [|b l].
    + destruct (Nat.leb _ _); [discriminate|]. intros H. injection H as <- _ _. auto.
    + destruct (b_p _); [|discriminate]. intros H. injection H as <- _ _. auto.
Qed.
Lemma take_throw : forall s f, take s f = Some None -> f = FArena.
Proof. intros s f. destruct f; cbn [take]; auto; try discriminate; destruct (s_vars s w) as [x|]; try discriminate; destruct (x_ref x) as [b|]; try destruct (gone s b); discriminate. Qed.

Lemma step_inv : forall s s', Inv s -> KI s -> step s = Some s' -> Inv s' /\ KI s'.
Proof.
  intros s s' I K ST. unfold step in ST. destruct (s_stack s) as [|t r] eqn:E; [apply Some_inj' in ST; subst; auto|]. destruct t.
  - destruct (pop_des s v r I E) as [I1 R1]. split; [eapply unlink_inv; eauto; reflexivity|].
    eapply unlink_KI; [|apply ST|discriminate]. apply (KI_back s); auto; proj; [rewrite E; right; auto|eauto].
  - destruct (gone s b) eqn:G; [discriminate|]. destruct (Z.eqb_spec (b_cnt (s_blk s b)) 0).
    + destruct (rel_destroy s k v b r I E e) as (-> & O1 & O2 & I'). rewrite O2 in ST. rewrite andb_false_r in ST. apply Some_inj' in ST. subst s'. rewrite O2 in I'. split; [exact I'|].
      apply (KI_back s); auto; proj; [|eauto]. intros w f H. rewrite E. right. apply in_app_or in H. destruct H as [H|H]; auto.
      exfalso. apply in_app_or in H. destruct H as [H|[H|[]]]; [|discriminate]. apply in_map_iff in H. destruct H as [? [H _]]. discriminate.
    + apply Some_inj' in ST. subst s'. split; [eapply rel_skip; eauto|]. apply (KI_back s); auto; proj; [|eauto]. intros w f [H|H]; [discriminate|]. rewrite E. right. auto.
  - destruct (gone s b) eqn:G; [discriminate|]. apply Some_inj' in ST. subst s'. split; [apply fin_inv; auto|]. apply (KI_back s); auto; proj; [|eauto]. intros w f [H|H]; [discriminate|]. rewrite E. right. auto.
  - destruct (gone s b) eqn:G; [discriminate|]. destruct ((b_cnt (s_blk s b) <=? 0) && (b_wp (s_blk s b) =? 0))%Z eqn:C.
    + destruct (s_vars s v) as [y|] eqn:Y; [|discriminate]. destruct (chk_free s v b r y I E C Y) as [F1 F2].
      assert (B := back_set s v y (mkV (x_kind y) None (x_stale y) (x_own y)) Y eq_refl).
      assert (T : forall w f, In (TSet w f) r -> In (TSet w f) (s_stack s)) by (intros; rewrite E; right; auto).
      destruct (b_heap (s_blk s b)) eqn:H.
      * apply Some_inj' in ST. subst s'. split; [apply F1; auto|]. apply (KI_back s); auto.
      * destruct (F2 eq_refl) as [L I']. apply Nat.ltb_lt in L. rewrite L in ST. apply Some_inj' in ST. subst s'. split; [exact I'|]. apply (KI_back s); auto.
    + apply Some_inj' in ST. subst s'. split; [eapply chk_keep; eauto|]. apply (KI_back s); auto; proj; [|eauto]. intros w f H. rewrite E. right. auto.
  - destruct (s_vars s v) as [y|] eqn:Y; [|discriminate]. apply Some_inj' in ST. subst s'. destruct (kill_inv s (TKill v) v r I E eq_refl) as [I' _]. split; auto.
    apply (KI_back s); auto; proj; [intros w f H; rewrite E; right; auto|]. intros w z H. destruct (Nat.eq_dec w v) as [->|NE]; [rewrite vset_eq in H; discriminate|]. rewrite vset_ne in H by auto. eauto.
  - destruct (s_vars s v) as [y|] eqn:Y; [|discriminate]. pose proof (i_top s I) as T. rewrite E in T. cbn [top] in T. destruct T as [KO RR]. pose proof KO as KO'. cbn [kok] in KO. destruct KO as (_ & -> & FF).
    destruct (kill_inv s (TSet v f) v [] I E KO') as [I' _].
    assert (KG : kgood (s_vars s) v y f) by (apply K; auto; rewrite E; left; auto).
    assert (DV : v < s_vn s) by (apply (i_dom s I); congruence).
    assert (ND : forall w z, s_vars s w = Some z -> w <> v -> x_stale z = false).
    { intros w z Z NE. destruct (x_stale z) eqn:SZ; auto. assert (H : In w (kvars (s_stack s))) by (apply (i_stale s I); eauto). rewrite E in H. unfold kvars in H. cbn in H. destruct H as [H|[]]; congruence. }
    assert (GV : forall g, g = vset (s_vars s) v None -> g v = None) by (intros g ->; apply vset_eq).
    split.
    + destruct f; cbn [take] in ST; try tauto.
      * cbn [set_stack s_vars] in ST. rewrite Y in ST. apply Some_inj' in ST. subst s'.
        eapply inv_ext; [apply (null_inv _ v (x_kind y) (x_own y) I')|..]; auto; proj; auto.
        -- intros w. unfold vset. destruct (Nat.eqb_spec w v); auto.
      * cbn [new_blk s_vars set_stack] in ST. rewrite Y in ST. apply Some_inj' in ST. subst s'. cbn [kgood] in KG. rewrite KG.
        eapply inv_ext; [apply (fresh_inv _ v (s_bn s) (x_own y) true false (s_arena s) (s_free s) I')|..]; auto; proj; auto.
        -- intros w. unfold vset. destruct (Nat.eqb_spec w v); auto.
      * cbn [set_stack s_vars] in ST. destruct (s_vars s w) as [x|] eqn:W; [|discriminate]. cbn [kgood] in KG. destruct KG as [KG1 KG2]. pose proof (KG2 x W) as KX.
        destruct (x_ref x) as [b|] eqn:XR.
        -- match type of ST with context[gone ?a b] => destruct (gone a b) end; [discriminate|]. cbn [bump set_blk s_vars set_stack] in ST. rewrite Y in ST. apply Some_inj' in ST. subst s'.
           destruct (i_ref s I w x b W XR) as [B1 B2].
           rewrite KX. eapply inv_ext; [apply (share_inv _ v (x_kind y) b (x_own y) I')|..]; auto; unfold bump; proj; auto.
           ++ intros SK. destruct x as [xk xr xs xo]. cbn in *. subst. eapply (strong_live s w b xo I). rewrite W. f_equal. f_equal; [congruence|]. apply (ND w _ W); auto.
           ++ destruct (x_kind y); cbn; intros z; unfold vset; destruct (Nat.eqb_spec z v); auto.
        -- cbn [set_stack s_vars] in ST. rewrite Y in ST. apply Some_inj' in ST. subst s'.
           eapply inv_ext; [apply (null_inv _ v (x_kind y) (x_own y) I')|..]; auto; proj; auto.
           ++ intros z. unfold vset. destruct (Nat.eqb_spec z v); auto.
      * cbn [set_stack s_vars] in ST. destruct (s_vars s w) as [x|] eqn:W; [|discriminate]. cbn [kgood] in KG. destruct KG as [KG1 KG2]. pose proof (KG2 x W) as KX.
        cbn [set_var s_vars] in ST. destruct (Nat.eqb_spec w v) as [->|NE].
        -- rewrite vset_eq in ST. apply Some_inj' in ST. subst s'.
           eapply inv_ext; [apply (null_inv _ v (x_kind x) (x_own x) I')|..]; auto; proj; auto.
           ++ intros z. unfold vset. destruct (Nat.eqb_spec z v); auto.
        -- rewrite vset_ne in ST by auto. cbn [set_stack s_vars] in ST. rewrite Y in ST. apply Some_inj' in ST. subst s'. rewrite <- KX.
           eapply inv_ext; [apply (move_inv _ v w x (x_own y) I')|..]; auto; proj; auto.
           ++ rewrite vset_ne; auto.
           ++ eapply ND; eauto.
           ++ intros z. unfold vset. destruct (Nat.eqb_spec z v); auto.
    + assert (SE : s_stack s' = []).
      { destruct (take (set_stack s []) f) as [[[[s1 k1] rf]|]|] eqn:TK; [| |discriminate].
        - apply take_stack in TK. cbn [set_stack s_stack] in TK. destruct (s_vars s1 v); [|discriminate]. apply Some_inj' in ST. subst s'. auto.
        - apply take_throw in TK. subst f. destruct FF. }
      intros a g x IN. rewrite SE in IN. destruct IN.
Qed.

(** lock() is only called on weak pointers that have not expired (or that are empty). *)
Definition lock_ok (s : st) (o : sop) : Prop :=
  match o with New _ (FLock w) _ => forall x, s_vars s w = Some x -> x_ref x <> None -> expired s w = false | _ => True end.

Lemma own_inv : forall s v k rf ob, Inv s -> Inv (set_var s v (Some (mkV k rf false ob))) ->
  Inv (match ob with Some b => set_blk (set_var s v (Some (mkV k rf false ob))) b (with_mem (s_blk (set_var s v (Some (mkV k rf false ob))) b) (v :: b_mem (s_blk (set_var s v (Some (mkV k rf false ob))) b))) | None => set_var s v (Some (mkV k rf false ob)) end).
Proof. intros s v k rf ob _ I. destruct ob; auto. apply mem_inv. auto. Qed.

Lemma take_inv : forall s f s1 k rf k' ob, Inv s -> s_stack s = [] -> fits s k' f = true -> lock_ok s (New k' f None) -> take s f = Some (Some (s1, k, rf)) ->
  s_vn s1 = s_vn s /\ Inv (set_var (grow s1) (s_vn s) (Some (mkV k' rf false ob))).
Proof.
  intros s f s1 k rf k' ob I E FT LK TK. destruct (grow_inv s I) as [IG V0].
  assert (DV : s_vn s < s_vn (grow s)) by (cbn; lia).
  assert (RS : rest (s_stack (grow s))) by (cbn; rewrite E; exact Logic.I).
  assert (NS : forall w z, s_vars s w = Some z -> x_stale z = false).
  { intros w z Z. destruct (x_stale z) eqn:SZ; auto. assert (H : In w (kvars (s_stack s))) by (apply (i_stale s I); eauto). rewrite E in H. destruct H. }
  assert (VW : forall w z, s_vars s w = Some z -> s_vn s <> w) by (intros w z Z H; subst w; congruence).
  destruct f; cbn [take] in TK.
  - injection TK as <- <- <-. split; auto. apply null_inv; auto.
  - cbn [fits] in FT. apply kind_eqb_eq in FT. subst k'. cbn [new_blk] in TK. injection TK as <- <- <-. split; auto.
    exact (fresh_inv (grow s) (s_vn s) (s_bn s) ob true false (s_arena s) (s_free s) IG RS DV V0 (conj eq_refl (conj eq_refl eq_refl))).
  - cbn [fits] in FT. apply kind_eqb_eq in FT. subst k'. unfold allocate in TK. destruct (s_free s) as [|b r] eqn:F.
    + destruct (Nat.leb_spec (s_cap s) (length (s_arena s))); [discriminate|]. cbn [new_blk] in TK. injection TK as <- <- <-. split; auto.
      exact (fresh_inv (grow s) (s_vn s) (s_bn s) ob false false (s_arena s ++ [s_bn s]) (s_free s) IG RS DV V0 (conj eq_refl (conj eq_refl (conj eq_refl H)))).
    + destruct (b_p (s_blk s b)); [|discriminate]. injection TK as <- <- <-. split; auto.
      assert (IF : In b (s_free s)) by (rewrite F; left; auto). apply (i_free s I) in IF. destruct IF as [A R]. apply (i_ar s I) in A. destruct A as [A1 A2]. destruct (i_rel s I b A1 R) as [W0 _]. rewrite A2, W0.
      exact (fresh_inv (grow s) (s_vn s) b ob false true (s_arena s) r IG RS DV V0 (conj F (conj eq_refl eq_refl))).
  - cbn [fits has_kind] in FT. unfold has_kind in FT. destruct (s_vars s w) as [x|] eqn:W; [|discriminate]. apply kind_eqb_eq in FT. subst k'. destruct (x_ref x) as [b|] eqn:XR.
    + destruct (gone s b); [discriminate|]. injection TK as <- <- <-. split; [unfold bump; destruct (x_kind x); auto|]. destruct (i_ref s I w x b W XR) as [B1 B2].
      apply (share_inv (grow s) (s_vn s) (x_kind x) b ob IG RS DV V0 B1 B2). intros SK. destruct x as [xk xr xs xo]. cbn in *. subst. apply (strong_live s w b xo I). rewrite W. do 2 f_equal. apply (NS _ _ W).
    + injection TK as <- <- <-. split; auto. apply null_inv; auto.
  - cbn [fits] in FT. unfold has_kind in FT. destruct (s_vars s w) as [x|] eqn:W; [|discriminate]. apply kind_eqb_eq in FT. subst k'. injection TK as <- <- <-. split; auto.
    apply (move_inv (grow s) (s_vn s) w x ob IG DV V0); auto. apply (VW _ _ W). apply (NS _ _ W).
  - cbn [fits] in FT. apply andb_true_iff in FT. destruct FT as [F1 F2]. apply kind_eqb_eq in F1. subst k'. destruct (s_vars s w) as [x|] eqn:W; [|discriminate]. destruct (x_ref x) as [b|] eqn:XR.
    + destruct (gone s b); [discriminate|]. injection TK as <- <- <-. split; auto. destruct (i_ref s I w x b W XR) as [B1 B2].
      apply (share_inv (grow s) (s_vn s) Weak b ob IG RS DV V0 B1 B2). discriminate.
    + injection TK as <- <- <-. split; auto. apply null_inv; auto.
  - cbn [fits] in FT. apply andb_true_iff in FT. destruct FT as [F1 F2]. apply kind_eqb_eq in F1. subst k'. cbn [lock_ok] in LK. destruct (s_vars s w) as [x|] eqn:W; [|discriminate]. specialize (LK x eq_refl). destruct (x_ref x) as [b|] eqn:XR.
    + destruct (gone s b); [discriminate|]. injection TK as <- <- <-. split; auto. destruct (i_ref s I w x b W XR) as [B1 B2].
      apply (share_inv (grow s) (s_vn s) Strong b ob IG RS DV V0 B1 B2). intros _. specialize (LK ltac:(congruence)). unfold expired in LK. rewrite W, XR in LK. apply Z.leb_gt in LK.
      cbn [grow s_blk]. destruct (b_obj (s_blk s b)) eqn:OB; auto. destruct (i_dead s I b B1 B2 OB). lia.
    + injection TK as <- <- <-. split; auto. apply null_inv; auto.
Qed.

Lemma unlink_call : forall s v k s', Inv s -> s_stack s = [] -> kok k v [] -> unlink s v k = Some s' -> match k with TSet _ f => forall x, s_vars s v = Some x -> kgood (s_vars s) v x f | _ => True end -> Inv s' /\ KI s'.
Proof.
  intros s v k s' I E KO U KG. split; [eapply unlink_inv; eauto; rewrite E; auto; exact Logic.I|].
  unfold unlink in U. destruct (s_vars s v) as [x|] eqn:V; [|discriminate]. destruct (x_stale x); [discriminate|].
  assert (G : forall s2, KI s2 <-> KI s2) by tauto.
  set (sk := mkS (s_vars s) (s_vn s) (s_blk s) (s_bn s) (s_arena s) (s_free s) (s_cap s) [k] (s_log s) (s_un s)).
  assert (K0 : KI sk). { intros a f y [H|[]] Y. subst k. cbn [kok] in KO. destruct KO as [-> _]. cbn [sk s_vars] in *. apply KG. congruence. }
  assert (B := back_set s v x (mkV (x_kind x) (x_ref x) true (x_own x)) V eq_refl).
  destruct (x_ref x) as [b|].
  - destruct (gone s b); [discriminate|]. apply Some_inj' in U. subst s'. apply (KI_back sk); auto; proj; rewrite E; cbn [In]. intros w f [H|H]; [discriminate|auto].
  - apply Some_inj' in U. subst s'. apply (KI_back sk); auto; proj; rewrite E; auto.
Qed.

Lemma call_inv : forall s o s', Inv s -> KI s -> lock_ok s o -> call s o = Some s' -> Inv s' /\ KI s'.
Proof.
  intros s o s' I K LK CL. unfold call in CL. destruct (s_stack s) as [|t r] eqn:E; [|apply Some_inj' in CL; subst; auto].
  assert (SAME : Some s = Some s' -> Inv s' /\ KI s') by (intros H; apply Some_inj' in H; subst; auto).
  destruct o.
  - assert (H : (exists ob, (if fits s k f then match take s f with None => None | Some None => Some s | Some (Some (s1, _, rf)) =>
       Some (match ob with Some b => set_blk (set_var (grow s1) (s_vn s1) (Some (mkV k rf false ob))) b (with_mem (s_blk (set_var (grow s1) (s_vn s1) (Some (mkV k rf false ob))) b) (s_vn s1 :: b_mem (s_blk (set_var (grow s1) (s_vn s1) (Some (mkV k rf false ob))) b))) | None => set_var (grow s1) (s_vn s1) (Some (mkV k rf false ob)) end) end else Some s) = Some s') \/ Some s = Some s').
    { destruct o as [u|]; [destruct (target s u) as [b|]|]; [left; exists (Some b); exact CL|right; exact CL|left; exists None; exact CL]. }
    destruct H as [[ob H]|H]; [|auto]. destruct (fits s k f) eqn:FT; [|auto]. destruct (take s f) as [[[[s1 k1] rf]|]|] eqn:TK; [|auto|discriminate].
    assert (LK' : lock_ok s (New k f None)) by (destruct f; auto).
    destruct (take_inv s f s1 k1 rf k ob I E FT LK' TK) as [EV I']. apply take_stack in TK. rewrite E in TK. apply Some_inj' in H. rewrite EV in H.
    assert (ST : s_stack s' = []) by (subst s'; destruct ob; auto).
    split; [|intros a g x IN; rewrite ST in IN; destruct IN]. subst s'. destruct ob; auto. apply mem_inv. auto.
  - destruct (s_vars s v) as [x|] eqn:V; [|auto]. destruct (x_own x); [auto|]. eapply unlink_call; eauto. reflexivity.
  - destruct (has_kind s Strong v); [|auto]. eapply unlink_call; eauto. cbn; auto. cbn; auto.
  - destruct (has_kind s Strong v) eqn:HK; [|auto]. eapply unlink_call; eauto. cbn; auto. intros x V. unfold has_kind in HK. rewrite V in HK. apply kind_eqb_eq in HK. auto.
  - assert (GD : forall k, has_kind s k v = true -> has_kind s k w = true -> (k = Strong -> v <> w) -> unlink s v (TSet v (FCopy w)) = Some s' -> Inv s' /\ KI s').
    { intros k H1 H2 H3 U. eapply unlink_call; eauto; [cbn; auto|]. intros x V. unfold has_kind in *. rewrite V in H1. apply kind_eqb_eq in H1. cbn [kgood]. split; [intros X; intros ->; apply H3; congruence|].
      intros y Y. rewrite Y in H2. apply kind_eqb_eq in H2. congruence. }
    destruct (has_kind s Strong v && has_kind s Strong w)%bool eqn:HS.
    + apply andb_true_iff in HS. destruct HS. destruct (Nat.eqb_spec v w); auto. apply (GD Strong); auto.
    + destruct (has_kind s Weak v && has_kind s Weak w)%bool eqn:HW; [|auto]. apply andb_true_iff in HW. destruct HW. apply (GD Weak); auto. discriminate.
  - assert (GD : forall k, has_kind s k v = true -> has_kind s k w = true -> (k = Strong -> v <> w) -> unlink s v (TSet v (FMove w)) = Some s' -> Inv s' /\ KI s').
    { intros k H1 H2 H3 U. eapply unlink_call; eauto; [cbn; auto|]. intros x V. unfold has_kind in *. rewrite V in H1. apply kind_eqb_eq in H1. cbn [kgood]. split; [intros X; intros ->; apply H3; congruence|].
      intros y Y. rewrite Y in H2. apply kind_eqb_eq in H2. congruence. }
    destruct (has_kind s Strong v && has_kind s Strong w)%bool eqn:HS.
    + apply andb_true_iff in HS. destruct HS. destruct (Nat.eqb_spec v w); auto. apply (GD Strong); auto.
    + destruct (has_kind s Weak v && has_kind s Weak w)%bool eqn:HW; [|auto]. apply andb_true_iff in HW. destruct HW. apply (GD Weak); auto. discriminate.
Qed.
