(** C35: shared pointers. *)
From Coq Require Import List ZArith Arith Bool Lia.
From Verif Require Import SharedPtrModel SharedPtrProofs SharedPtrSafety.
Import ListNotations.

(** Executions in which lock() is never called on an expired, non-empty weak pointer. *)
Fixpoint legal (s : st) (l : list act) : Prop :=
  match l with
  | [] => True
  | a :: r => match a with Call o => lock_ok s o | Step => True end /\ match do1 s a with Some s' => legal s' r | None => True end
  end.
(** Moreover, the calls that give up a reference (reset, assignments) have local variables as operands. *)
Fixpoint local (s : st) (l : list act) : Prop :=
  match l with
  | [] => True
  | a :: r => match a with Call o => local_ok s o | Step => True end /\ match do1 s a with Some s' => local s' r | None => True end
  end.
(** Pointer [v] of kind [k] refers to the object number [u]. *)
Definition refers (s : st) (k : kind) (v u : nat) : Prop :=
  exists x b, s_vars s v = Some x /\ x_kind x = k /\ x_ref x = Some b /\ b_uid (s_blk s b) = u.
(** How many strong pointers share the control block of [v]. *)
Definition sharers (s : st) (v : nat) : nat :=
  length (filter (fun w => match s_vars s w, s_vars s v with
    | Some y, Some x => match x_kind y, x_ref y, x_ref x with Strong, Some b, Some c => Nat.eqb b c | _, _, _ => false end
    | _, _ => false end) (seq 0 (s_vn s))).

Lemma run_inv : forall l s s', Inv s -> KI s -> legal s l -> run s l = Some s' -> Inv s' /\ KI s'.
Proof.
  induction l as [|a l IH]; cbn [run legal]; intros s s' I K L R; [apply Some_inj' in R; subst; auto|]. destruct L as [L1 L2]. destruct (do1 s a) as [s1|] eqn:D; [|discriminate].
  assert (H : Inv s1 /\ KI s1) by (destruct a; cbn [do1] in D; [eapply call_inv; eauto|eapply step_inv; eauto]). destruct H. eapply IH; eauto.
Qed.
Lemma init_KI : forall cap, KI (sp_init cap). Proof. intros cap v f x []. Qed.
Lemma idle_ns : forall s, Inv s -> s_stack s = [] -> forall w z, s_vars s w = Some z -> x_stale z = false.
Proof. intros s I E w z Z. destruct (x_stale z) eqn:SZ; auto. assert (H : In w (kvars (s_stack s))) by (apply (i_stale s I); eauto). rewrite E in H. destruct H. Qed.
Lemma refs_refers : forall s k b, 0 < refs (s_vars s) (s_vn s) k b -> exists v, refers s k v (b_uid (s_blk s b)).
Proof. intros s k b H. destruct (refs_pos _ _ _ _ H) as [v [_ V]]. apply ind_iff in V. destruct V as [o V]. exists v. eexists. exists b. rewrite V. split; [reflexivity|]. auto. Qed.
Lemma refers_refs : forall s k v x b, Inv s -> s_stack s = [] -> s_vars s v = Some x -> x_kind x = k -> x_ref x = Some b -> 0 < refs (s_vars s) (s_vn s) k b.
Proof.
  intros s k v x b I E V XK XR. assert (DV : v < s_vn s) by (apply (i_dom s I); congruence). pose proof (refs_ge (s_vn s) (s_vars s) v k b DV) as R.
  assert (ind (s_vars s v) k b = 1); [|lia]. apply ind_iff. pose proof (idle_ns s I E v x V). destruct x as [xk xr xs xo]; cbn in *; subst. eauto.
Qed.

(** Partial: lock() must not be called on an expired pointer (refuted below). An object is destroyed at most once and its
    control block released at most once, in this order; whenever no call is running, the object has been destroyed
    exactly if no strong pointer refers to it, and the control block released exactly if no pointer does. *)
Theorem C35_destroyed_once_partial : forall cap l s u, legal (sp_init cap) l -> run (sp_init cap) l = Some s -> u < s_un s ->
  n_des u (s_log s) <= 1 /\ n_rel u (s_log s) <= n_des u (s_log s) /\
  (s_stack s = [] -> (n_des u (s_log s) = 0 <-> exists v, refers s Strong v u) /\ (n_rel u (s_log s) = 0 <-> exists k v, refers s k v u)).
Proof.
  intros cap l s u L R U. destruct (run_inv l (sp_init cap) s (init_inv cap) (init_KI cap) L R) as [I K].
  assert (AB : forall b, b < s_bn s -> b_rel (s_blk s b) = true -> b_obj (s_blk s b) = false) by (intros b B1 B2; apply (i_rel s I b B1 B2)).
  assert (ST : forall v, s_stack s = [] -> refers s Strong v u -> n_des u (s_log s) = 0).
  { intros v E (x & b & V & XK & XR & UB). destruct (i_ref s I v x b V XR) as [B1 B2]. destruct (i_log s I b B1) as [L1 L2]. rewrite UB in L1. rewrite L1.
    rewrite (strong_live s v b (x_own x) I); auto. rewrite V. pose proof (idle_ns s I E v x V). destruct x; cbn in *; subst; auto. }
  assert (WK : forall k v, refers s k v u -> n_rel u (s_log s) = 0).
  { intros k v (x & b & V & XK & XR & UB). destruct (i_ref s I v x b V XR) as [B1 B2]. destruct (i_log s I b B1) as [L1 L2]. rewrite UB in L2. rewrite L2, B2. auto. }
  destruct (i_past s I u U) as [[b [B1 B2]]|[P1 P2]].
  - destruct (i_log s I b B1) as [L1 L2]. rewrite B2 in L1, L2. pose proof (AB b B1) as AB1. rewrite L1, L2.
    split; [destruct (b_obj (s_blk s b)); lia|]. split; [destruct (b_rel (s_blk s b)); [rewrite (AB1 eq_refl); auto|lia]|]. intros E. rewrite <- L1, <- L2. split; split.
    + intros H. rewrite L1 in H. destruct (b_obj (s_blk s b)) eqn:OB; [|lia]. destruct (b_rel (s_blk s b)) eqn:RB; [specialize (AB1 eq_refl); congruence|].
      destruct (i_cnt s I b B1 RB OB) as [C1 [C2|C2]]; [|rewrite E in C2; destruct C2]. destruct (refs_refers s Strong b ltac:(lia)) as [v V]. exists v. rewrite B2 in V. auto.
    + intros [v V]. eauto.
    + intros H. rewrite L2 in H. destruct (b_rel (s_blk s b)) eqn:RB; [lia|]. destruct (b_obj (s_blk s b)) eqn:OB.
      * destruct (i_cnt s I b B1 RB OB) as [C1 [C2|C2]]; [|rewrite E in C2; destruct C2]. destruct (refs_refers s Strong b ltac:(lia)) as [v V]. exists Strong, v. rewrite B2 in V. auto.
      * destruct (i_dead s I b B1 RB OB) as [_ [_ [C2|C2]]]; [|rewrite E in C2; destruct C2]. pose proof (i_wp s I b B1 RB) as W. rewrite E in W. cbn [fins filter length] in W. unfold fins in W. cbn in W.
        destruct (refs_refers s Weak b ltac:(lia)) as [v V]. exists Weak, v. rewrite B2 in V. auto.
    + intros [k [v V]]. eauto.
  - rewrite P1, P2. split; auto. split; auto. intros E. split; split; try discriminate.
    + intros [v V]. apply ST in V; auto. lia.
    + intros [k [v V]]. apply WK in V. lia.
Qed.

(** Partial, as above. get() of a strong pointer that refers to something is an object that has not been destroyed;
    use_count() is the number of strong pointers sharing it; a weak pointer is expired exactly if no strong pointer
    refers to its object. *)
Theorem C35_get_partial : forall cap l s v x b, legal (sp_init cap) l -> run (sp_init cap) l = Some s -> s_stack s = [] -> s_vars s v = Some x -> x_ref x = Some b ->
  (x_kind x = Strong -> get s v = Some (b_uid (s_blk s b)) /\ n_des (b_uid (s_blk s b)) (s_log s) = 0 /\ use_count s v = Z.of_nat (sharers s v)) /\
  (expired s v = false <-> exists w, refers s Strong w (b_uid (s_blk s b))).
Proof.
  intros cap l s v x b L R E V XR. destruct (run_inv l (sp_init cap) s (init_inv cap) (init_KI cap) L R) as [I K]. destruct (i_ref s I v x b V XR) as [B1 B2]. split.
  - intros XK. assert (OB : b_obj (s_blk s b) = true) by (eapply (strong_live s v b (x_own x) I); rewrite V; pose proof (idle_ns s I E v x V); destruct x; cbn in *; subst; auto).
    unfold get, use_count. rewrite V, XR, (i_p s I b B1 (or_introl OB)). split; auto. destruct (i_log s I b B1) as [L1 _]. rewrite OB in L1. split; auto.
    destruct (i_cnt s I b B1 B2 OB) as [C1 _]. rewrite C1. f_equal. unfold sharers. rewrite V, XR.
    assert (G : forall n, refs (s_vars s) n Strong b = length (filter (fun w => match s_vars s w with Some y => match x_kind y, x_ref y with Strong, Some c => Nat.eqb c b | _, _ => false end | None => false end) (seq 0 n))).
    { induction n as [|n IH]; auto. rewrite seq_S, filter_app, app_length, <- IH. cbn [refs filter plus]. f_equal. unfold ind. destruct (s_vars s n) as [y|] eqn:Y; auto. rewrite (idle_ns s I E n y Y). destruct (x_kind y); cbn; auto. destruct (x_ref y) as [c|]; auto. destruct (Nat.eqb c b); auto. }
    rewrite G. reflexivity.
  - unfold expired. rewrite V, XR. split.
    + intros H. apply Z.leb_gt in H. destruct (b_obj (s_blk s b)) eqn:OB; [|destruct (i_dead s I b B1 B2 OB); lia]. destruct (i_cnt s I b B1 B2 OB) as [C1 _]. apply refs_refers. lia.
    + intros [w (y & c & W & YK & YR & UC)]. destruct (i_ref s I w y c W YR) as [C1 C2]. assert (c = b) by (apply (i_uid s I); auto). subst c. pose proof (refers_refs s Strong w y b I E W YK YR) as P.
      destruct (b_obj (s_blk s b)) eqn:OB; [|destruct (i_dead s I b B1 B2 OB) as [_ [Z0 _]]; lia]. destruct (i_cnt s I b B1 B2 OB) as [D1 _]. apply Z.leb_gt. lia.
Qed.
(** Partial, as above. For every strong pointer variable: get() is its object, or null exactly if it refers to none, and
    then use_count() is 0. For every weak one: expired() is false exactly if a strong pointer refers to the same object. *)
Theorem C35_empty_partial : forall cap l s v x, legal (sp_init cap) l -> run (sp_init cap) l = Some s -> s_stack s = [] -> s_vars s v = Some x ->
  (x_kind x = Strong -> (forall u, get s v = Some u <-> refers s Strong v u) /\ (get s v = None -> use_count s v = 0%Z)) /\
  (x_kind x = Weak -> (expired s v = false <-> exists u w, refers s Weak v u /\ refers s Strong w u)).
Proof.
  intros cap l s v x L R E V. destruct (x_ref x) as [b|] eqn:XR.
  - destruct (C35_get_partial cap l s v x b L R E V XR) as [G1 G2]. split.
    + intros XK. destruct (G1 XK) as (A1 & A2 & A3). split; [|congruence]. intros u. rewrite A1. split.
      * intros H. injection H as <-. exists x, b. auto.
      * intros (y & c & Y1 & Y2 & Y3 & Y4). congruence.
    + intros XK. rewrite G2. split.
      * intros [w W]. exists (b_uid (s_blk s b)), w. split; [exists x, b; auto|exact W].
      * intros (u & w & (y & c & Y1 & Y2 & Y3 & Y4) & W). exists w. replace (b_uid (s_blk s b)) with u by congruence. exact W.
  - unfold get, use_count, expired. rewrite V, XR. split; intros XK.
    + split; [|reflexivity]. intros u. split; [discriminate|]. intros (y & c & Y1 & Y2 & Y3 & Y4). congruence.
    + split; [discriminate|]. intros (u & w & (y & c & Y1 & Y2 & Y3 & Y4) & W). congruence.
Qed.

(** Partial, as above. lock() of a weak pointer that has not expired gives a strong pointer to the same object, which
    has not been destroyed; lock() of an empty one gives an empty pointer. *)
Theorem C35_lock_partial : forall cap l s w x, legal (sp_init cap) l -> run (sp_init cap) l = Some s -> s_stack s = [] -> s_vars s w = Some x -> x_kind x = Weak ->
  x_ref x = None \/ expired s w = false -> exists s', call s (New Strong (FLock w) None) = Some s' /\ s_stack s' = [] /\ s_log s' = s_log s /\
  match x_ref x with
  | None => get s' (s_vn s) = None
  | Some b => get s' (s_vn s) = Some (b_uid (s_blk s b)) /\ n_des (b_uid (s_blk s b)) (s_log s') = 0
  end.
Proof.
  intros cap l s w x L R E W XK LK. destruct (run_inv l (sp_init cap) s (init_inv cap) (init_KI cap) L R) as [I K].
  unfold call. rewrite E. cbn [fits]. unfold has_kind. rewrite W, XK. cbn [kind_eqb andb take]. rewrite W. destruct (x_ref x) as [b|] eqn:XR.
  - destruct (i_ref s I w x b W XR) as [B1 B2]. rewrite gone_false by auto. eexists. split; [reflexivity|]. split; [auto|]. split; [auto|].
    destruct LK as [LK|LK]; [discriminate|]. unfold expired in LK. rewrite W, XR in LK. apply Z.leb_gt in LK. destruct (b_obj (s_blk s b)) eqn:OB; [|destruct (i_dead s I b B1 B2 OB); lia].
    unfold get, bump. proj. rewrite vset_eq. cbn [x_ref]. rewrite bset_eq. cbn [b_p with_cnt b_uid]. rewrite (i_p s I b B1 (or_introl OB)). split; auto. destruct (i_log s I b B1) as [L1 _]. rewrite OB in L1. auto.
  - eexists. split; [reflexivity|]. split; [auto|]. split; [auto|]. unfold get. proj. rewrite vset_eq. auto.
Qed.

Lemma local_run : forall l s, Inv s -> KI s -> OI s -> legal s l -> local s l -> exists s', run s l = Some s' /\ Inv s' /\ KI s' /\ OI s'.
Proof.
  induction l as [|a l IH]; cbn [run legal local]; intros s I K J L O; [eauto|]. destruct L as [L1 L2], O as [O1 O2].
  assert (H : exists s1, do1 s a = Some s1 /\ OI s1) by (destruct a; cbn [do1]; [eapply call_safe; eauto|eapply step_safe; eauto]). destruct H as [s1 [D J1]]. rewrite D in *.
  assert (H : Inv s1 /\ KI s1) by (destruct a; cbn [do1] in D; [eapply call_inv; eauto|eapply step_inv; eauto]). destruct H. eapply IH; eauto.
Qed.

(** Partial: lock() as above, and reset and assignments with local variables only (refuted otherwise). Nothing undefined
    happens and no assertion of the allocator fails, however the objects' members refer to each other, and a running
    call returns after finitely many pieces of work. *)
Theorem C35_no_undefined_partial : forall cap l, legal (sp_init cap) l -> local (sp_init cap) l ->
  exists s, run (sp_init cap) l = Some s /\ exists m s', run s (repeat Step m) = Some s' /\ s_stack s' = [].
Proof.
  intros cap l L O. destruct (local_run l (sp_init cap) (init_inv cap) (init_KI cap) (init_OI cap) L O) as (s & R & I & K & J). exists s. split; auto.
  destruct (finish (measure s) s (le_n _) I K J) as (m & s' & A & B & _). eauto.
Qed.

(** Partial, as above. The allocator: it never hands out more blocks than its capacity; blocks are outstanding exactly if
    some pointer refers to an object made by it; making an object fails only if all its blocks are still referred to. *)
Theorem C35_allocator_partial : forall cap l s, legal (sp_init cap) l -> run (sp_init cap) l = Some s -> s_stack s = [] ->
  length (s_arena s) <= cap /\
  (outstanding_objects s = true <-> exists v x b, s_vars s v = Some x /\ x_ref x = Some b /\ In b (s_arena s)) /\
  (take s FArena = Some None -> length (s_arena s) = cap /\ forall b, In b (s_arena s) -> exists v x, s_vars s v = Some x /\ x_ref x = Some b).
Proof.
  intros cap l s L R E. destruct (run_inv l (sp_init cap) s (init_inv cap) (init_KI cap) L R) as [I K].
  assert (EC : s_cap s = cap).
  { assert (G : forall l s s', run s l = Some s' -> s_cap s' = s_cap s).
    { clear. assert (UL : forall s v k s', unlink s v k = Some s' -> s_cap s' = s_cap s).
      { intros s v k s' U. unfold unlink in U. destruct (s_vars s v) as [x|]; [|discriminate]. destruct (x_stale x); [discriminate|]. destruct (x_ref x); [destruct (gone s n); [discriminate|]|]; apply Some_inj' in U; subst; auto. }
      assert (TL : forall s f s1 k r, take s f = Some (Some (s1, k, r)) -> s_cap s1 = s_cap s).
      { intros s f s1 k r. destruct f; cbn [take]; try (destruct (s_vars s w) as [x|]; [|discriminate]; destruct (x_ref x) as [b|]; try (destruct (gone s b); [discriminate|]); intros H; injection H as <- _ _; auto; fail).
        - intros H. injection H as <- _ _. auto.
        - intros H. injection H as <- _ _. auto.
        - unfold allocate. destruct (s_free s) as [|b l]; [destruct (Nat.leb _ _); [discriminate|]|destruct (b_p _); [|discriminate]]; intros H; injection H as <- _ _; auto. }
      induction l as [|a l IH]; cbn [run]; intros s s' R; [apply Some_inj' in R; subst; auto|]. destruct (do1 s a) as [s1|] eqn:D; [|discriminate]. rewrite (IH _ _ R). clear IH R. destruct a; cbn [do1] in D.
      - unfold call in D. assert (SAME : Some s = Some s1 -> s_cap s1 = s_cap s) by (intros H; apply Some_inj' in H; subst; auto). destruct (s_stack s); [|auto]. destruct o.
        + assert (H : (exists ob, (if fits s k f then match take s f with None => None | Some None => Some s | Some (Some (s1, _, rf)) =>
            Some (match ob with Some b => set_blk (set_var (grow s1) (s_vn s1) (Some (mkV k rf false ob))) b (with_mem (s_blk (set_var (grow s1) (s_vn s1) (Some (mkV k rf false ob))) b) (s_vn s1 :: b_mem (s_blk (set_var (grow s1) (s_vn s1) (Some (mkV k rf false ob))) b))) | None => set_var (grow s1) (s_vn s1) (Some (mkV k rf false ob)) end) end else Some s) = Some s1) \/ Some s = Some s1).
          { destruct o as [u|]; [destruct (target s u) as [b|]|]; [left; exists (Some b); exact D|right; exact D|left; exists None; exact D]. }
          destruct H as [[ob H]|H]; [|auto]. destruct (fits s k f); [|auto]. destruct (take s f) as [[[[s2 k1] rf]|]|] eqn:TK; [|auto|discriminate]. apply TL in TK. apply Some_inj' in H. subst s1. destruct ob; auto.
        + destruct (s_vars s v) as [x|]; [|auto]. destruct (x_own x); [auto|eauto].
        + destruct (has_kind s Strong v); eauto.
        + destruct (has_kind s Strong v); eauto.
        + destruct (has_kind s Strong v && has_kind s Strong w)%bool; [destruct (Nat.eqb v w); eauto|]. destruct (has_kind s Weak v && has_kind s Weak w)%bool; eauto.
        + destruct (has_kind s Strong v && has_kind s Strong w)%bool; [destruct (Nat.eqb v w); eauto|]. destruct (has_kind s Weak v && has_kind s Weak w)%bool; eauto.
      - unfold step in D. destruct (s_stack s) as [|t r]; [apply Some_inj' in D; subst; auto|]. destruct t.
        + apply UL in D. auto.
        + destruct (gone s b); [discriminate|]. destruct (_ =? _)%Z; apply Some_inj' in D; subst s1; auto. destruct (_ && _)%bool; auto.
        + destruct (gone s b); [discriminate|]. apply Some_inj' in D; subst s1; auto.
        + destruct (gone s b); [discriminate|]. destruct (_ && _)%Z; [destruct (s_vars s v); [|discriminate]; destruct (b_heap _); [|destruct (Nat.ltb _ _); [|discriminate]]|]; apply Some_inj' in D; subst s1; auto.
        + destruct (s_vars s v); [|discriminate]. apply Some_inj' in D; subst s1; auto.
        + destruct (s_vars s v); [|discriminate]. destruct (take (set_stack s r) f) as [[[[s2 k1] rf]|]|] eqn:TK; [|apply Some_inj' in D; subst; auto|discriminate]. apply TL in TK. destruct (s_vars s2 v); [|discriminate]. apply Some_inj' in D; subst s1; auto. }
    rewrite (G l _ _ R). auto. }
  assert (REFD : forall b, In b (s_arena s) -> b_rel (s_blk s b) = false -> exists v x, s_vars s v = Some x /\ x_ref x = Some b).
  { intros b A RB. apply (i_ar s I) in A. destruct A as [B1 _]. assert (GG : forall k, 0 < refs (s_vars s) (s_vn s) k b -> exists v x, s_vars s v = Some x /\ x_ref x = Some b).
    { intros k H. destruct (refs_pos _ _ _ _ H) as [v [_ V]]. apply ind_iff in V. destruct V as [o V]. exists v. eexists. split; [exact V|auto]. }
    destruct (b_obj (s_blk s b)) eqn:OB.
    - destruct (i_cnt s I b B1 RB OB) as [C1 [C2|C2]]; [|rewrite E in C2; destruct C2]. apply (GG Strong). lia.
    - destruct (i_dead s I b B1 RB OB) as [_ [_ [C2|C2]]]; [|rewrite E in C2; destruct C2]. pose proof (i_wp s I b B1 RB) as W. rewrite E in W. unfold fins in W. cbn in W. apply (GG Weak). lia. }
  assert (SUBF : incl (s_free s) (s_arena s)) by (intros b H; apply (i_free s I) in H; tauto).
  split; [rewrite <- EC; apply (i_cap s I)|]. split.
  - unfold outstanding_objects. split.
    + intros H. apply negb_true_iff, Nat.eqb_neq in H. pose proof (NoDup_incl_length (i_fnd s I) SUBF) as LE.
      destruct (existsb (fun b => negb (b_rel (s_blk s b))) (s_arena s)) eqn:EX.
      * apply existsb_exists in EX. destruct EX as [b [B1 B2]]. apply negb_true_iff in B2. destruct (REFD b B1 B2) as (v & x & V & XR). exists v, x, b. auto.
      * exfalso. assert (incl (s_arena s) (s_free s)).
        { intros b B. apply (i_free s I). split; auto. destruct (b_rel (s_blk s b)) eqn:RB; auto. assert (X : existsb (fun b => negb (b_rel (s_blk s b))) (s_arena s) = true) by (apply existsb_exists; exists b; rewrite RB; auto). congruence. }
        pose proof (NoDup_incl_length (i_arnd s I) H0). lia.
    + intros (v & x & b & V & XR & A). destruct (i_ref s I v x b V XR) as [B1 B2]. apply negb_true_iff, Nat.eqb_neq. intros EQ.
      assert (incl (s_arena s) (s_free s)) by (apply NoDup_length_incl; [apply (i_fnd s I)|lia|auto]). apply H in A. apply (i_free s I) in A. destruct A. congruence.
  - cbn [take]. unfold allocate. destruct (s_free s) as [|f r] eqn:F.
    + destruct (Nat.leb_spec (s_cap s) (length (s_arena s))); [|discriminate]. intros _. split; [pose proof (i_cap s I); lia|]. intros b B. apply REFD; auto. destruct (b_rel (s_blk s b)) eqn:RB; auto.
      assert (X : In b (s_free s)) by (apply (i_free s I); auto). rewrite F in X. destruct X.
    + destruct (b_p (s_blk s f)); discriminate.
Qed.

(** A call together with all its work. *)
Fixpoint go (l : list sop) : list act := match l with [] => [] | o :: r => Call o :: repeat Step 40 ++ go r end.
(** An owner, a member that points back weakly, a copy, a lock, and the deaths in the middle of other calls. *)
Definition busy : list sop :=
  [New Strong FArena None; New Weak (FWeak 0) (Some 0); New Strong FHeap (Some 0); New Weak (FWeak 0) None; New Strong (FLock 3) None; New Strong FArena None; Destroy 0].
Fixpoint legalb (s : st) (l : list act) : bool :=
  match l with
  | [] => true
  | a :: r =>
      match a with
      | Call (New _ (FLock w) _) => match s_vars s w with Some x => match x_ref x with None => true | Some _ => negb (expired s w) end | None => true end
      | _ => true
      end && match do1 s a with Some s' => legalb s' r | None => true end
  end.
Lemma legalb_ok : forall l s, legalb s l = true -> legal s l.
Proof.
  induction l as [|a l IH]; cbn [legal legalb]; intros s H; auto. apply andb_true_iff in H. destruct H as [H1 H2]. split.
  - destruct a; auto. destruct o; cbn [lock_ok]; auto. destruct f; auto. intros x X XR. rewrite X in H1. destruct (x_ref x); [|congruence]. now apply negb_true_iff in H1.
  - destruct (do1 s a); auto.
Qed.
Fixpoint localb (s : st) (l : list act) : bool :=
  let loc v := match s_vars s v with Some x => match x_own x with None => true | Some _ => false end | None => true end in
  match l with
  | [] => true
  | a :: r => match a with Call (Reset v) | Call (ResetNew v) => loc v | Call (Assign v w) | Call (MoveAssign v w) => loc v && loc w | _ => true end &&
              match do1 s a with Some s' => localb s' r | None => true end
  end.
Lemma localb_ok : forall l s, localb s l = true -> local s l.
Proof.
  induction l as [|a l IH]; cbn [local localb]; intros s H; auto. apply andb_true_iff in H. destruct H as [H1 H2]. split.
  - assert (G : forall v, match s_vars s v with Some x => match x_own x with None => true | Some _ => false end | None => true end = true -> is_local s v) by (intros v V x X; rewrite X in V; destruct (x_own x); [discriminate|auto]).
    destruct a; auto. destruct o; cbn [local_ok]; auto; apply andb_true_iff in H1; destruct H1; auto.
  - destruct (do1 s a); auto.
Qed.

Example C35_destroyed_once_partial_ex : exists s, legal (sp_init 3) (go busy) /\ run (sp_init 3) (go busy) = Some s /\ s_stack s = [] /\ s_un s = 3 /\ map (fun u => n_des u (s_log s)) [0; 1; 2] = [0; 0; 0] /\
  exists s', run s (go [Destroy 4]) = Some s' /\ map (fun u => n_des u (s_log s')) [0; 1; 2] = [1; 1; 0] /\ map (fun u => n_rel u (s_log s')) [0; 1; 2] = [0; 1; 0] /\
  exists s'', run s' (go [Destroy 3]) = Some s'' /\ map (fun u => n_rel u (s_log s'')) [0; 1; 2] = [1; 1; 0].
Proof.
  eexists. split; [apply legalb_ok; vm_compute; reflexivity|]. split; [vm_compute; reflexivity|]. split; [vm_compute; reflexivity|]. split; [vm_compute; reflexivity|]. split; [vm_compute; reflexivity|].
  eexists. split; [vm_compute; reflexivity|]. split; [vm_compute; reflexivity|]. split; [vm_compute; reflexivity|]. eexists. split; vm_compute; reflexivity.
Qed.
Example C35_get_partial_ex : exists s, legal (sp_init 3) (go busy) /\ run (sp_init 3) (go busy) = Some s /\ s_stack s = [] /\ get s 4 = Some 0 /\ use_count s 4 = 1%Z /\ expired s 3 = false.
Proof. eexists. split; [apply legalb_ok; vm_compute; reflexivity|]. split; [vm_compute; reflexivity|]. repeat split; vm_compute; reflexivity. Qed.
(** A weak pointer made empty. *)
Example C35_empty_partial_ex : exists s, legal (sp_init 3) (go (busy ++ [New Weak FNull None])) /\ run (sp_init 3) (go (busy ++ [New Weak FNull None])) = Some s /\ s_stack s = [] /\
  get s 4 = Some 0 /\ expired s 3 = false /\ expired s 6 = true.
Proof. eexists. split; [apply legalb_ok; vm_compute; reflexivity|]. split; [vm_compute; reflexivity|]. repeat split; vm_compute; reflexivity. Qed.
Example C35_lock_partial_ex : exists s x, legal (sp_init 3) (go busy) /\ run (sp_init 3) (go busy) = Some s /\ s_stack s = [] /\ s_vars s 3 = Some x /\ x_kind x = Weak /\ x_ref x = Some 0 /\ expired s 3 = false.
Proof. eexists. eexists. split; [apply legalb_ok; vm_compute; reflexivity|]. split; [vm_compute; reflexivity|]. repeat split; vm_compute; reflexivity. Qed.
Example C35_no_undefined_partial_ex : legal (sp_init 3) (go busy) /\ local (sp_init 3) (go (busy ++ [Reset 4; Assign 4 5; MoveAssign 5 4; ResetNew 5; Assign 3 3])).
Proof. split; [apply legalb_ok; vm_compute; reflexivity|apply localb_ok; vm_compute; reflexivity]. Qed.
Example C35_allocator_partial_ex : exists s, legal (sp_init 2) (go busy) /\ run (sp_init 2) (go busy) = Some s /\ s_stack s = [] /\ outstanding_objects s = true /\ take s FArena = Some None /\
  exists s', run s (go [Destroy 4; Destroy 3; Destroy 5]) = Some s' /\ outstanding_objects s' = false.
Proof. eexists. split; [apply legalb_ok; vm_compute; reflexivity|]. split; [vm_compute; reflexivity|]. split; [vm_compute; reflexivity|]. split; [vm_compute; reflexivity|]. split; [vm_compute; reflexivity|]. eexists. split; vm_compute; reflexivity. Qed.

(** lock() of an expired weak pointer to an object made by the allocator gives a non-null pointer to the destroyed
    object, and with two such locks the object is destroyed a second time. *)
Theorem C35_lock_expired_refuted : exists l s u, run (sp_init 2) l = Some s /\ s_stack s = [] /\ expired s 1 = true /\ n_des u (s_log s) = 1 /\
  (exists s1 v, run s (go [New Strong (FLock 1) None]) = Some s1 /\ get s1 v = Some u) /\
  (exists s2, run s (go [New Strong (FLock 1) None; New Strong (FLock 1) None; Destroy 3]) = Some s2 /\ n_des u (s_log s2) = 2).
Proof.
  exists (go [New Strong FArena None; New Weak (FWeak 0) None; Destroy 0]). eexists. exists 0. split; [vm_compute; reflexivity|]. split; [vm_compute; reflexivity|]. split; [vm_compute; reflexivity|]. split; [vm_compute; reflexivity|]. split.
  - eexists. exists 2. split; vm_compute; reflexivity.
  - eexists. split; vm_compute; reflexivity.
Qed.
(** Also on the heap: the control block is deleted while the locked pointer still uses it. *)
Theorem C35_lock_dangling_refuted : exists l s, run (sp_init 2) l = Some s /\ s_stack s = [] /\ expired s 1 = true /\
  run s (go [New Strong (FLock 1) None; Destroy 1; Destroy 2]) = None.
Proof. exists (go [New Strong FHeap None; New Weak (FWeak 0) None; Destroy 0]). eexists. split; [vm_compute; reflexivity|]. split; [vm_compute; reflexivity|]. split; vm_compute; reflexivity. Qed.
(** [p = p->next] where [p] is the only owner of its object: the operand dies before it is read. *)
Theorem C35_assign_from_member_refuted : exists l s, legal (sp_init 2) l /\ run (sp_init 2) l = Some s /\ s_stack s = [] /\ run s (go [Assign 0 1]) = None /\ run s (go [MoveAssign 0 1]) = None.
Proof. exists (go [New Strong FHeap None; New Strong FHeap (Some 0)]). eexists. split; [apply legalb_ok; vm_compute; reflexivity|]. split; [vm_compute; reflexivity|]. split; [vm_compute; reflexivity|]. split; vm_compute; reflexivity. Qed.
(** An object that owns itself and is released by [x->self.reset()]. *)
Theorem C35_reset_member_refuted : exists l s, legal (sp_init 2) l /\ run (sp_init 2) l = Some s /\ s_stack s = [] /\ run s (go [Reset 1]) = None.
Proof. exists (go [New Strong FHeap None; New Strong (FCopy 0) (Some 0); Destroy 0]). eexists. split; [apply legalb_ok; vm_compute; reflexivity|]. split; [vm_compute; reflexivity|]. split; vm_compute; reflexivity. Qed.

Print Assumptions C35_destroyed_once_partial.
Print Assumptions C35_get_partial.
Print Assumptions C35_empty_partial.
Print Assumptions C35_lock_partial.
Print Assumptions C35_no_undefined_partial.
Print Assumptions C35_allocator_partial.
Print Assumptions C35_lock_expired_refuted.
Print Assumptions C35_lock_dangling_refuted.
Print Assumptions C35_assign_from_member_refuted.
Print Assumptions C35_reset_member_refuted.
