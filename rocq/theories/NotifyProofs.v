(** The history of a device tree with notifications, read off the operations
    alone, and the invariant that ties the model to it. *)
From Coq Require Import NArith Bool String Ascii Arith List Lia Permutation.
From Verif Require Import SharedPtrSafety NotifyModel.
Import ListNotations.
Open Scope nat_scope.
Open Scope list_scope.

(** ** The history, without the model *)

(** The observers registered and not deregistered, oldest first, after the
    operations that went through. *)
Definition live (l : list op) : list reg :=
  fold_left (fun L o =>
    match o with
    | Reg r _ => L ++ [r]
    | Dereg r => filter (fun x => negb (reg_eqb r x)) L
    | _ => L
    end) l [].

(** [p] was made the parent of [c]. *)
Definition parent (l : list op) (c p : nat) : Prop :=
  In (NewChild c p) l \/ (exists ty nm, In (NewSource c p ty nm) l)
  \/ In (Attach c p) l.

(** [c] is [a] or was put below it, directly or not. *)
Inductive below (l : list op) : nat -> nat -> Prop :=
| below_self : forall c, below l c c
| below_up : forall c p a, parent l c p -> below l p a -> below l c a.

(** [i] was made a source of notifications [nm] with data of type [ty]. *)
Definition source (l : list op) (i ty : nat) (nm : string) : Prop :=
  exists p, In (NewSource i p ty nm) l.

(** How often [i] posted. *)
Definition posts (l : list op) (i : nat) : nat :=
  length (filter (fun o => match o with Post j _ => j =? i | _ => false end) l).

(** The observation state callbacks installed on [i], oldest first. *)
Definition cbs (l : list op) (i : nat) : list (change * nat) :=
  flat_map (fun o => match o with
                     | AddCb j c cb => if j =? i then [(c, cb)] else []
                     | _ => []
                     end) l.

(** The nodes made. *)
Definition made (l : list op) (i : nat) : Prop :=
  i = 0 \/ (exists p, In (NewNode i p) l) \/ (exists p, In (NewChild i p) l)
  \/ (exists p ty nm, In (NewSource i p ty nm) l).

(** ** Small facts *)

Lemma reg_eqb_eq : forall a b, reg_eqb a b = true <-> a = b.
Proof.
  intros [a1 a2 a3 a4] [b1 b2 b3 b4]. unfold reg_eqb. cbn.
  rewrite !andb_true_iff, !Nat.eqb_eq, String.eqb_eq. split.
  - now intros [[[-> ->] ->] ->].
  - intros E. injection E as -> -> -> ->. auto.
Qed.

Lemma reg_eqb_neq : forall a b, reg_eqb a b = false <-> a <> b.
Proof.
  intros a b. rewrite <- reg_eqb_eq. destruct (reg_eqb a b); split; congruence.
Qed.

Lemma reg_eqb_refl : forall a, reg_eqb a a = true.
Proof. intros a. now apply reg_eqb_eq. Qed.

Lemma existsb_reg : forall r l, existsb (reg_eqb r) l = true <-> In r l.
Proof.
  intros r l. rewrite existsb_exists. split.
  - intros (x & I & E). apply reg_eqb_eq in E. now subst.
  - intros I. exists r. split; auto using reg_eqb_refl.
Qed.

Lemma existsb_nat : forall r l, existsb (Nat.eqb r) l = true <-> In r l.
Proof.
  intros r l. rewrite existsb_exists. split.
  - intros (x & I & E). apply Nat.eqb_eq in E. now subst.
  - intros I. exists r. split; auto using Nat.eqb_refl.
Qed.

Lemma live_snoc : forall l o, live (l ++ [o]) =
  match o with
  | Reg r _ => live l ++ [r]
  | Dereg r => filter (fun x => negb (reg_eqb r x)) (live l)
  | _ => live l
  end.
Proof. intros l o. unfold live. rewrite fold_left_app. reflexivity. Qed.

Lemma posts_snoc : forall l o i, posts (l ++ [o]) i =
  posts l i + match o with Post j _ => if j =? i then 1 else 0 | _ => 0 end.
Proof.
  intros l o i. unfold posts. rewrite filter_app, app_length. cbn.
  destruct o; cbn; auto. destruct (i0 =? i); reflexivity.
Qed.

Lemma cbs_snoc : forall l o i, cbs (l ++ [o]) i =
  cbs l i ++ match o with
             | AddCb j c cb => if j =? i then [(c, cb)] else []
             | _ => []
             end.
Proof.
  intros l o i. unfold cbs. rewrite flat_map_app. cbn. now rewrite app_nil_r.
Qed.

Lemma Permutation_filter : forall A (f : A -> bool) l1 l2,
  Permutation l1 l2 -> Permutation (filter f l1) (filter f l2).
Proof.
  intros A f l1 l2 P. induction P; cbn.
  - constructor.
  - destruct (f x); auto.
  - destruct (f x), (f y); auto using perm_swap.
  - eauto using perm_trans.
Qed.

Lemma filter_comm : forall A (f g : A -> bool) l,
  filter f (filter g l) = filter g (filter f l).
Proof.
  intros A f g l. induction l as [|x l IH]; cbn; auto.
  destruct (g x) eqn:G, (f x) eqn:F; cbn; rewrite ?F, ?G; congruence.
Qed.

Lemma filter_false : forall A (f : A -> bool) l,
  (forall x, In x l -> f x = false) -> filter f l = [].
Proof.
  intros A f l H. induction l as [|x l IH]; cbn; auto.
  rewrite (H x) by (now left). apply IH. intros; apply H. now right.
Qed.

Lemma erase_perm : forall r l, In r l ->
  Permutation l (r :: erase (reg_eqb r) l).
Proof.
  intros r l. induction l as [|x l IH]; cbn; [tauto|]. intros I.
  destruct (reg_eqb r x) eqn:E.
  - apply reg_eqb_eq in E. now subst.
  - destruct I as [->|I]; [now rewrite reg_eqb_refl in E|].
    eapply perm_trans; [apply perm_skip, IH, I|apply perm_swap].
Qed.

Lemma erase_out : forall A (f : A -> bool) l,
  existsb f l = false -> erase f l = l.
Proof.
  intros A f l. induction l as [|x l IH]; cbn; auto.
  destruct (f x); cbn; [discriminate|]. intros E. now rewrite IH.
Qed.

Lemma erase_filter : forall r l, NoDup l ->
  erase (reg_eqb r) l = filter (fun x => negb (reg_eqb r x)) l.
Proof.
  intros r l N. induction N as [|x l I N IH]; cbn; auto.
  destruct (reg_eqb r x) eqn:E; cbn; [|now rewrite IH].
  apply reg_eqb_eq in E. subst x. clear -I. induction l as [|y l IH]; cbn; auto.
  destruct (reg_eqb r y) eqn:E; cbn.
  - apply reg_eqb_eq in E. subst. exfalso. apply I. now left.
  - rewrite <- IH; auto. intros J. apply I. now right.
Qed.

Lemma filter_erase_out : forall (keep : reg -> bool) r l, keep r = false ->
  filter keep (erase (reg_eqb r) l) = filter keep l.
Proof.
  intros keep r l K. induction l as [|x l IH]; cbn; auto.
  destruct (reg_eqb r x) eqn:E; cbn.
  - apply reg_eqb_eq in E. subst. now rewrite K.
  - destruct (keep x); congruence.
Qed.

(** ** Observers along a path *)

(** The observers of [L] at one node. *)
Definition at_ (L : list reg) (i : nat) : list reg :=
  filter (fun r => r_at r =? i) L.

(** The observers of [L] at the nodes of a path. *)
Definition along (L : list reg) (ids : list nat) : list reg :=
  flat_map (at_ L) ids.

Lemma at_snoc : forall L r i, at_ (L ++ [r]) i =
  at_ L i ++ (if r_at r =? i then [r] else []).
Proof.
  intros L r i. unfold at_. rewrite filter_app. cbn.
  now destruct (r_at r =? i).
Qed.

Lemma along_snoc_out : forall L r ids, ~ In (r_at r) ids ->
  along (L ++ [r]) ids = along L ids.
Proof.
  intros L r ids. unfold along. induction ids as [|i ids IH]; cbn; auto.
  intros N. rewrite at_snoc.
  destruct (Nat.eqb_spec (r_at r) i); [exfalso; auto|].
  rewrite app_nil_r, IH; auto.
Qed.

Lemma along_snoc_in : forall L r ids, NoDup ids -> In (r_at r) ids ->
  Permutation (along (L ++ [r]) ids) (r :: along L ids).
Proof.
  intros L r ids N. unfold along. induction N as [|i ids O N IH]; cbn; [tauto|].
  rewrite at_snoc. intros I.
  destruct (Nat.eqb_spec (r_at r) i).
  - subst i. change (flat_map (at_ (L ++ [r])) ids) with (along (L ++ [r]) ids).
    rewrite along_snoc_out; auto. rewrite <- app_assoc. cbn.
    apply Permutation_sym, Permutation_middle.
  - destruct I as [->|I]; [congruence|]. rewrite app_nil_r.
    eapply perm_trans; [apply Permutation_app_head, IH, I|].
    apply Permutation_sym, Permutation_middle.
Qed.

Lemma at_drop : forall L r i, r_at r <> i ->
  at_ (filter (fun x => negb (reg_eqb r x)) L) i = at_ L i.
Proof.
  intros L r i N. unfold at_. induction L as [|x L IH]; cbn; auto.
  destruct (reg_eqb r x) eqn:E; cbn.
  - apply reg_eqb_eq in E. subst x.
    destruct (Nat.eqb_spec (r_at r) i); [congruence|auto].
  - destruct (r_at x =? i); congruence.
Qed.

Lemma at_drop_in : forall L r, NoDup L -> In r L ->
  Permutation (at_ L (r_at r))
    (r :: at_ (filter (fun x => negb (reg_eqb r x)) L) (r_at r)).
Proof.
  intros L r N I. unfold at_. rewrite <- erase_filter by auto.
  eapply perm_trans; [apply Permutation_filter, erase_perm, I|].
  cbn. rewrite Nat.eqb_refl. apply Permutation_refl.
Qed.

Lemma along_drop_out : forall L r ids, ~ In (r_at r) ids ->
  along (filter (fun x => negb (reg_eqb r x)) L) ids = along L ids.
Proof.
  intros L r ids. unfold along. induction ids as [|i ids IH]; cbn; auto.
  intros N. rewrite at_drop, IH; auto.
Qed.

Lemma along_drop_in : forall L r ids, NoDup L -> In r L -> NoDup ids ->
  In (r_at r) ids ->
  Permutation (along L ids)
    (r :: along (filter (fun x => negb (reg_eqb r x)) L) ids).
Proof.
  intros L r ids NL IL N. induction N as [|i ids O N IH]; cbn; [tauto|].
  intros [->|I].
  - unfold along in *. cbn. fold (along L ids).
    rewrite <- (along_drop_out L r ids) by auto.
    apply (Permutation_app_tail _ (at_drop_in L r NL IL)).
  - unfold along in *. cbn. rewrite at_drop by (intros E; subst; auto).
    eapply perm_trans; [apply Permutation_app_head, IH, I|].
    apply Permutation_sym, Permutation_middle.
Qed.

Lemma in_along : forall L ids r, In r (along L ids) <-> In r L /\ In (r_at r) ids.
Proof.
  intros L ids r. unfold along. rewrite in_flat_map. unfold at_. split.
  - intros (i & I & J). apply filter_In in J as [J E].
    apply Nat.eqb_eq in E. now subst.
  - intros [I J]. exists (r_at r). split; auto. apply filter_In.
    split; auto. apply Nat.eqb_refl.
Qed.

Lemma NoDup_along : forall L ids, NoDup L -> NoDup ids -> NoDup (along L ids).
Proof.
  intros L ids NL N. induction N as [|i ids O N IH]; cbn; [constructor|].
  unfold along in *. cbn. apply NoDup_app_iff'. repeat split; auto.
  - now apply NoDup_filter.
  - intros x I J. apply in_along in J as [_ J].
    apply filter_In in I as [_ E]. apply Nat.eqb_eq in E. now subst.
Qed.

(** ** Trees *)

Lemma node_ind' : forall P : node -> Prop,
  (forall i p o s ks, Forall P ks -> P (Nd i p o s ks)) ->
  forall n, P n.
Proof.
  intros P H. fix IH 1. intros [i p o s ks]. apply H.
  induction ks as [|k ks IHk]; constructor; [apply IH|exact IHk].
Qed.

(** The numbers of the nodes of a tree. *)
Fixpoint ids (n : node) : list nat :=
  let 'Nd i _ _ _ ks := n in i :: flat_map ids ks.

(** [Q] holds of every node of a tree; it is told the ancestors, nearest
    first. *)
Fixpoint every (Q : list nat -> nat -> bool -> list reg -> option src -> Prop)
  (ups : list nat) (n : node) : Prop :=
  let 'Nd i p o s ks := n in
  Q ups i p o s /\ fold_right (fun k r => every Q (i :: ups) k /\ r) True ks.

Lemma fold_and : forall A (P : A -> Prop) l,
  fold_right (fun k r => P k /\ r) True l <-> Forall P l.
Proof.
  intros A P l. induction l as [|x l IH]; cbn.
  - split; auto.
  - rewrite IH. split; [intros []; auto|]. intros F. inversion F; auto.
Qed.

Lemma every_eq : forall Q ups i p o s ks,
  every Q ups (Nd i p o s ks) <-> Q ups i p o s /\ Forall (every Q (i :: ups)) ks.
Proof. intros. cbn. now rewrite fold_and. Qed.

Lemma every_impl : forall (Q Q' : list nat -> nat -> bool -> list reg -> option src -> Prop) n ups,
  (forall ups' i p o s, In i (ids n) ->
     (forall a, In a ups' -> In a ups \/ In a (ids n)) ->
     Q ups' i p o s -> Q' ups' i p o s) ->
  every Q ups n -> every Q' ups n.
Proof.
  intros Q Q'. induction n as [i p o s ks F] using node_ind'. intros ups H E.
  apply every_eq in E as [E1 E2]. apply every_eq. split.
  - apply H; auto. now left.
  - rewrite Forall_forall in *. intros k I. apply F; auto.
    intros ups' j p' o' s' J A. apply H.
    + cbn. right. apply in_flat_map. eauto.
    + intros a Ia. specialize (A a Ia). cbn.
      destruct A as [[<-|A]|A]; auto. right. right. apply in_flat_map. eauto.
Qed.

Section Change.
Variable i0 : nat.
Variable g : node -> node * list event.

Lemma change_out : forall n, ~ In i0 (ids n) -> change_node i0 g n = (n, []).
Proof.
  induction n as [i p o s ks F] using node_ind'. cbn. intros N.
  destruct (Nat.eqb_spec i0 i); [exfalso; auto|].
  assert (E : map (change_node i0 g) ks = map (fun k => (k, [])) ks).
  { apply map_ext_in. intros k I. rewrite Forall_forall in F. apply F; auto.
    intros J. apply N. right. apply in_flat_map. eauto. }
  rewrite E, !map_map. cbn. rewrite map_id. f_equal.
  clear. induction ks; cbn; auto.
Qed.

Lemma change_in_out : forall l, ~ In i0 (flat_map ids l) ->
  change_in i0 g l = (l, []).
Proof.
  intros l N. unfold change_in.
  assert (E : map (change_node i0 g) l = map (fun k => (k, [])) l).
  { apply map_ext_in. intros k I. apply change_out.
    intros J. apply N. apply in_flat_map. eauto. }
  rewrite E, !map_map. cbn. rewrite map_id. f_equal.
  clear. induction l; cbn; auto.
Qed.

Lemma change_ids : (forall m, ids (fst (g m)) = ids m) ->
  forall n, ids (fst (change_node i0 g n)) = ids n.
Proof.
  intros G. induction n as [i p o s ks F] using node_ind'. cbn.
  destruct (Nat.eqb_spec i0 i); [apply G|]. cbn. f_equal.
  rewrite map_map. rewrite Forall_forall in F.
  induction ks as [|k ks IH]; cbn; auto.
  rewrite F by (now left). rewrite IH; auto. intros; apply F; now right.
Qed.

Lemma change_id : (forall m, n_id (fst (g m)) = n_id m) ->
  forall n, n_id (fst (change_node i0 g n)) = n_id n.
Proof.
  intros G [i p o s ks]. cbn. destruct (i0 =? i); [apply G|reflexivity].
Qed.

Lemma every_change : forall (Q Q' : list nat -> nat -> bool -> list reg -> option src -> Prop),
  (forall ups i p o s, i <> i0 -> ~ In i0 ups -> Q ups i p o s -> Q' ups i p o s) ->
  (forall ups m, n_id m = i0 -> ~ In i0 ups -> every Q ups m ->
                 every Q' ups (fst (g m))) ->
  forall n ups, ~ In i0 ups -> every Q ups n ->
  every Q' ups (fst (change_node i0 g n)).
Proof.
  intros Q Q' H1 H2. induction n as [i p o s ks F] using node_ind'.
  intros ups N E. cbn [change_node].
  destruct (Nat.eqb_spec i0 i); [subst; apply H2; auto|].
  apply every_eq in E as [E1 E2]. cbn [fst]. apply every_eq. split; auto.
  rewrite map_map. rewrite Forall_forall in *. intros k I.
  apply in_map_iff in I as (k0 & <- & I). apply F; auto.
  intros [->|J]; auto.
Qed.

Lemma chain_has : forall n c, chain_node i0 n = Some c ->
  In i0 (ids n) /\ c <> [].
Proof.
  induction n as [i p o s ks F] using node_ind'. intros c. cbn.
  destruct (Nat.eqb_spec i0 i).
  - subst i. intros E. injection E as <-. split; [now left|discriminate].
  - intros E. destruct (fold_right _ None ks) as [c'|] eqn:FR; [|discriminate].
    injection E as <-. split; [|destruct c'; discriminate]. right.
    clear n. revert c' FR. induction ks as [|k ks IH]; cbn; [discriminate|].
    inversion F as [|? ? F1 F2]; subst. intros c'.
    rewrite in_app_iff.
    destruct (chain_node i0 k) as [c0|] eqn:C.
    + left. eapply F1; eauto.
    + right. eauto.
Qed.

Lemma chain_none : forall n, chain_node i0 n = None -> ~ In i0 (ids n).
Proof.
  induction n as [i p o s ks F] using node_ind'. cbn.
  destruct (Nat.eqb_spec i0 i); [discriminate|].
  destruct (fold_right _ None ks) eqn:FR; [discriminate|]. intros _.
  intros [->|J]; [congruence|].
  induction ks as [|k ks IH]; cbn in *; [tauto|].
  inversion F as [|? ? F1 F2]; subst.
  destruct (chain_node i0 k) eqn:C1; [discriminate|].
  apply in_app_or in J as [J|J]; [now apply F1|auto].
Qed.

Lemma every_change_at : forall (Q Q' : list nat -> nat -> bool -> list reg -> option src -> Prop) c,
  (forall ups i p o s, Q ups i p o s -> Q' ups i p o s) ->
  forall n ups, NoDup (ids n) -> chain_node i0 n = Some c ->
  (forall m, n_id m = i0 -> every Q (tl (map fst c) ++ ups) m ->
     every Q' (tl (map fst c) ++ ups) (fst (g m))) ->
  every Q ups n ->
  every Q' ups (fst (change_node i0 g n)).
Proof.
  intros Q Q' c H1 n. revert c.
  induction n as [i p o s ks F] using node_ind'.
  intros c ups N C H2 E. cbn [change_node chain_node] in *.
  destruct (Nat.eqb_spec i0 i).
  - injection C as <-. cbn in H2. now apply H2.
  - destruct (fold_right _ None ks) as [c'|] eqn:FR; [|discriminate].
    injection C as <-.
    apply every_eq in E as [E1 E2]. cbn [fst]. apply every_eq. split; auto.
    rewrite map_map. cbn [ids] in N. inversion N as [|? ? N1 N2]; subst.
    clear N N1 E1.
    induction ks as [|k ks IH]; cbn in FR |- *; [constructor|].
    inversion F as [|? ? F1 F2]; subst. inversion E2 as [|? ? E3 E4]; subst.
    cbn in N2. apply NoDup_app_iff' in N2 as (N3 & N4 & N5).
    destruct (chain_node i0 k) as [c0|] eqn:Ck.
    + injection FR as <-. destruct (chain_has _ _ Ck) as [Ik Ck'].
      assert (T : tl (map fst (c0 ++ [(i, o)])) ++ ups = tl (map fst c0) ++ i :: ups).
      { rewrite map_app. destruct c0 as [|x c0]; [congruence|]. cbn.
        rewrite <- app_assoc. reflexivity. }
      rewrite T in H2. constructor.
      * apply (F1 c0); auto.
      * rewrite Forall_forall in *. intros k1 I1.
        apply in_map_iff in I1 as (k0 & <- & I0).
        rewrite change_out; [|intros J; apply (N5 i0); auto; apply in_flat_map; eauto].
        cbn [fst]. eapply every_impl; [|apply E4, I0]. intros; auto.
    + constructor.
      * rewrite change_out.
        -- cbn [fst]. eapply every_impl; [|apply E3]. intros; auto.
        -- now apply chain_none.
      * apply IH; auto.
Qed.

End Change.

Section AddKid.
Variable p0 : nat.
Variable k0 : node.

Lemma add_kid_ids : forall n, NoDup (ids n) -> In p0 (ids n) ->
  Permutation (ids (fst (change_node p0 (add_kid k0) n))) (ids n ++ ids k0).
Proof.
  induction n as [i p o s ks F] using node_ind'. intros N I.
  cbn [change_node]. destruct (Nat.eqb_spec p0 i).
  - cbn. apply perm_skip. rewrite flat_map_app. cbn. now rewrite app_nil_r.
  - cbn in I |- *. destruct I as [->|I]; [congruence|]. apply perm_skip.
    rewrite map_map. cbn in N. apply NoDup_cons_iff in N as [_ N].
    revert F N I. clear. induction ks as [|k ks IH]; cbn; [tauto|].
    intros F N I. inversion F as [|? ? F1 F2]; subst.
    apply NoDup_app_iff' in N as (N1 & N2 & N3).
    rewrite in_app_iff in I. destruct (in_dec Nat.eq_dec p0 (ids k)) as [J|J].
    + assert (E : map (fun x => fst (change_node p0 (add_kid k0) x)) ks = ks).
      { rewrite <- (map_id ks) at 2. apply map_ext_in. intros x X.
        rewrite change_out; auto. intros Y. apply (N3 p0 J).
        apply in_flat_map. eauto. }
      rewrite E. rewrite <- app_assoc.
      eapply perm_trans; [apply Permutation_app_tail, F1; auto|].
      rewrite <- app_assoc. apply Permutation_app_head, Permutation_app_comm.
    + rewrite change_out by auto. cbn [fst]. rewrite <- app_assoc.
      apply Permutation_app_head, IH; tauto.
Qed.

Lemma add_kid_ids_in : forall l, NoDup (flat_map ids l) ->
  In p0 (flat_map ids l) ->
  Permutation (flat_map ids (fst (change_in p0 (add_kid k0) l)))
              (flat_map ids l ++ ids k0).
Proof.
  intros l N I. unfold change_in. cbn [fst]. rewrite map_map.
  induction l as [|k l IH]; cbn in *; [tauto|].
  apply NoDup_app_iff' in N as (N1 & N2 & N3).
  rewrite in_app_iff in I. destruct (in_dec Nat.eq_dec p0 (ids k)) as [J|J].
  - assert (E : map (fun x => fst (change_node p0 (add_kid k0) x)) l = l).
    { rewrite <- (map_id l) at 2. apply map_ext_in. intros x X.
      rewrite change_out; auto. intros Y. apply (N3 p0 J).
      apply in_flat_map. eauto. }
    rewrite E. rewrite <- app_assoc.
    eapply perm_trans; [apply Permutation_app_tail, add_kid_ids; auto|].
    rewrite <- app_assoc. apply Permutation_app_head, Permutation_app_comm.
  - rewrite change_out by auto. cbn [fst]. rewrite <- app_assoc.
    apply Permutation_app_head, IH; tauto.
Qed.

Lemma add_kid_id : forall n, n_id (fst (change_node p0 (add_kid k0) n)) = n_id n.
Proof. apply change_id. now intros [i p o s ks]. Qed.

End AddKid.

(** ** The invariant *)

Section Inv.

Variable glob : string -> string -> bool.
(** The observers the statement is about. *)
Variable keep : reg -> bool.

(** The source is one an observer asks for: same data type, matching name. *)
Definition wants (x : src) (r : reg) : bool :=
  (r_type r =? s_type x) && cat_match glob (r_name r) (s_name x).

(** A path upwards as the history has it. *)
Fixpoint linked (l : list op) (path : list nat) : Prop :=
  match path with
  | [] => True
  | i :: r => (forall q, parent l i q <-> hd_error r = Some q) /\ linked l r
  end.

(** The cached members of a source agree with its list of delegates. *)
Definition tidy (x : src) : Prop :=
  s_seen x = negb (length (s_dels x) =? 0) /\ NoDup (s_pts x) /\
  forall n, In n (s_pts x) <-> exists r, In r (s_dels x) /\ r_at r = n.

(** The number of posts as the counter has it. *)
Definition posted (l : list op) (i : nat) : N :=
  (N.of_nat (posts l i) mod 2 ^ 64)%N.

(** Source [i] with ancestors [ups]: its observers are those of [Ld] that ask
    for it and sit on its path. *)
Definition src_ok (Ld : list reg) (l : list op) (ups : list nat) (i : nat)
  (x : src) : Prop :=
  (forall ty nm, source l i ty nm <-> ty = s_type x /\ nm = s_name x) /\
  Permutation (filter keep (s_dels x))
              (filter keep (filter (wants x) (along Ld (i :: ups ++ [0])))) /\
  tidy x /\ s_posts x = posted l i /\ s_cbs x = cbs l i.

(** One node agrees with the history. *)
Definition fits (Lo Ld : list reg) (l : list op) (ups : list nat) (i : nat)
  (p : bool) (o : list reg) (s : option src) : Prop :=
  p = false /\ NoDup (i :: ups ++ [0]) /\ o = at_ Lo i /\ linked l (i :: ups) /\
  match s with
  | Some x => src_ok Ld l ups i x
  | None => forall ty nm, ~ source l i ty nm
  end.

(** What the history says of one node. *)
Definition same (l l' : list op) (i : nat) : Prop :=
  (forall q, parent l i q <-> parent l' i q) /\
  (forall ty nm, source l i ty nm <-> source l' i ty nm) /\
  posts l i = posts l' i /\ cbs l i = cbs l' i.

Lemma linked_same : forall l l' path,
  (forall i, In i path -> same l l' i) -> linked l path -> linked l' path.
Proof.
  intros l l' path. induction path as [|i path IH]; cbn; auto.
  intros H [A B]. split; [|apply IH; auto].
  intros q. rewrite <- A. symmetry. apply H. now left.
Qed.

Lemma fits_same : forall Lo Ld Lo' Ld' l l' ups i p o s,
  (forall j, In j (i :: ups) -> same l l' j) ->
  at_ Lo i = at_ Lo' i ->
  Permutation (filter keep (along Ld (i :: ups ++ [0])))
              (filter keep (along Ld' (i :: ups ++ [0]))) ->
  fits Lo Ld l ups i p o s -> fits Lo' Ld' l' ups i p o s.
Proof.
  intros Lo Ld Lo' Ld' l l' ups i p o s S A L (F1 & F2 & F3 & F4 & F5).
  assert (Si : same l l' i) by (apply S; now left).
  destruct Si as (S1 & S2 & S3 & S4).
  repeat split; auto.
  - congruence.
  - eapply (linked_same l l' (i :: ups)); eauto.
  - eapply (linked_same l l' (i :: ups)); eauto.
  - eapply (linked_same l l' (i :: ups)) in F4; eauto. apply F4.
  - destruct s as [x|].
    + destruct F5 as (G1 & G2 & G3 & G4 & G5).
      split; [|split; [|split; [|split]]]; auto.
      * intros ty nm. now rewrite <- S2.
      * rewrite filter_comm. eapply perm_trans; [exact G2|].
        rewrite filter_comm. now apply Permutation_filter.
      * unfold posted in *. now rewrite <- S3.
      * now rewrite <- S4.
    + intros ty nm. now rewrite <- S2.
Qed.

(** *** Determining the observers afresh *)

Definition pr (L : list reg) (j : nat) : nat * list reg := (j, at_ L j).

Lemma filter_filter : forall A (f g : A -> bool) l,
  filter f (filter g l) = filter (fun x => g x && f x) l.
Proof.
  intros A f g l. induction l as [|x l IH]; cbn; auto.
  destruct (g x); cbn; [destruct (f x)|]; congruence.
Qed.

Lemma delegates_for_at : forall x L j,
  delegates_for glob (s_type x) (s_name x) (pr L j) = filter (wants x) (at_ L j).
Proof.
  intros x L j. unfold delegates_for, pr, at_, observes, wants. cbn.
  rewrite !filter_filter. apply filter_ext. intros r.
  destruct (r_at r =? j), (r_type r =? s_type x); reflexivity.
Qed.

Lemma filter_flat_map : forall A B (f : B -> bool) (g : A -> list B) l,
  filter f (flat_map g l) = flat_map (fun x => filter f (g x)) l.
Proof.
  intros A B f g l. induction l as [|x l IH]; cbn; auto.
  now rewrite filter_app, IH.
Qed.

Lemma flat_map_map : forall A B C (f : B -> list C) (g : A -> B) l,
  flat_map f (map g l) = flat_map (fun x => f (g x)) l.
Proof. intros A B C f g l. induction l; cbn; congruence. Qed.

Lemma determine_dels : forall L path x,
  s_dels (determine glob (map (pr L) path) (at_ L 0) x) =
  filter (wants x) (along L (path ++ [0])).
Proof.
  intros L path x. unfold determine. cbn [s_dels].
  change [(0, at_ L 0)] with (map (pr L) [0]).
  rewrite <- map_app, flat_map_map. unfold along. rewrite filter_flat_map.
  apply flat_map_ext. intros j. apply delegates_for_at.
Qed.

Lemma has_observers_at : forall x L j,
  has_observers glob (s_type x) (s_name x) (pr L j) = true <->
  exists r, In r (filter (wants x) (at_ L j)).
Proof.
  intros x L j. rewrite <- delegates_for_at. unfold has_observers, delegates_for.
  rewrite existsb_exists. split; intros (r & H); exists r.
  - apply filter_In, H.
  - now apply filter_In in H.
Qed.

Lemma determine_tidy : forall L path x, NoDup (path ++ [0]) ->
  tidy (determine glob (map (pr L) path) (at_ L 0) x).
Proof.
  intros L path x N. split; [reflexivity|]. rewrite determine_dels.
  unfold determine. cbn [s_pts s_dels].
  change [(0, at_ L 0)] with (map (pr L) [0]). rewrite <- map_app.
  set (P := path ++ [0]) in *.
  assert (E : map fst (filter (has_observers glob (s_type x) (s_name x))
                         (map (pr L) P)) =
              filter (fun j => has_observers glob (s_type x) (s_name x) (pr L j)) P).
  { clear. induction P as [|j P IH]; cbn [map filter]; auto.
    destruct (has_observers glob (s_type x) (s_name x) (pr L j));
      cbn [map fst pr]; now rewrite IH. }
  rewrite E. split; [now apply NoDup_filter|].
  intros n. rewrite filter_In, has_observers_at. split.
  - intros (I & r & J). exists r. apply filter_In in J as [J W].
    unfold at_ in J. apply filter_In in J as [J R]. apply Nat.eqb_eq in R.
    subst n. split; auto. apply filter_In. split; auto. now apply in_along.
  - intros (r & J & <-). apply filter_In in J as [J W].
    apply in_along in J as [J K]. split; auto. exists r.
    apply filter_In. split; auto. apply filter_In. split; auto.
    apply Nat.eqb_refl.
Qed.

Lemma every_inform : forall (Qa Qb : list nat -> nat -> bool -> list reg -> option src -> Prop)
    L path z D n ups,
  every Qa ups n -> last (n_id n :: ups) 0 = z ->
  (forall j, In j (ids n) -> In j D) -> (forall j, In j ups -> In j D) ->
  (forall ups' j p o s, In j (ids n) -> (forall a, In a ups' -> In a D) ->
     last (j :: ups') 0 = z -> Qa ups' j p o s ->
     o = at_ L j /\
     Qb (ups' ++ path) j p o
        (option_map (determine glob (map (pr L) (j :: ups' ++ path)) (at_ L 0)) s)) ->
  every Qb (ups ++ path) (inform glob (map (pr L) (ups ++ path)) (at_ L 0) n).
Proof.
  intros Qa Qb L path z D.
  induction n as [i p o s ks F] using node_ind'. intros ups E Z D1 D2 H.
  apply every_eq in E as [E1 E2]. cbn [inform].
  destruct (H ups i p o s) as [-> Hi]; auto; [now left|].
  apply every_eq. split; [exact Hi|].
  rewrite Forall_forall in *. intros k I.
  apply in_map_iff in I as (k0 & <- & I).
  change ((i, at_ L i) :: map (pr L) (ups ++ path))
    with (map (pr L) ((i :: ups) ++ path)).
  change (i :: ups ++ path) with ((i :: ups) ++ path).
  assert (SUB : forall j, In j (ids k0) -> In j (ids (Nd i p (at_ L i) s ks))).
  { intros j J. cbn. right. apply in_flat_map. eauto. }
  apply F; auto.
  - intros j [<-|J]; auto. apply D1. now left.
Qed.

Lemma inform_ids : forall up g n, ids (inform glob up g n) = ids n.
Proof.
  intros up g n. revert up. induction n as [i p o s ks F] using node_ind'.
  intros up. cbn. f_equal. rewrite flat_map_map. clear -F.
  induction F as [|k ks Hk F IH]; cbn; auto. now rewrite Hk, IH.
Qed.

Lemma inform_id : forall up g n, n_id (inform glob up g n) = n_id n.
Proof. now intros up g [i p o s ks]. Qed.

(** *** The chain of a node *)

Lemma chain_fits : forall L Ld l p0 n ups c,
  every (fits L Ld l) ups n -> chain_node p0 n = Some c ->
  exists t, c = map (pr L) (p0 :: t) /\ In p0 (ids n) /\
    (forall j, In j t -> In j (ids n)) /\
    exists p o s, fits L Ld l (t ++ ups) p0 p o s.
Proof.
  intros L Ld l p0. induction n as [i p o s ks F] using node_ind'.
  intros ups c E C. cbn [chain_node] in C.
  apply every_eq in E as [E1 E2].
  destruct (Nat.eqb_spec p0 i).
  - subst i. injection C as <-. exists []. cbn.
    split; [|split; [now left|split; [tauto|exists p, o, s; exact E1]]].
    destruct E1 as (A1 & A2 & A3 & A4). unfold pr. now rewrite <- A3.
  - destruct (fold_right _ None ks) as [c'|] eqn:FR; [|discriminate].
    injection C as <-.
    assert (K : exists k, In k ks /\ chain_node p0 k = Some c').
    { clear -FR. induction ks as [|k ks IH]; cbn in FR; [discriminate|].
      destruct (chain_node p0 k) eqn:C.
      - exists k. split; [now left|congruence].
      - destruct (IH FR) as (k1 & I & D). exists k1. split; auto. now right. }
    destruct K as (k & I & Ck). rewrite Forall_forall in F, E2.
    destruct (F k I (i :: ups) c' (E2 k I) Ck) as (t & -> & T1 & T2 & T3).
    exists (t ++ [i]). split; [|split; [|split]].
    + cbn. rewrite map_app. cbn. f_equal. f_equal. f_equal.
      unfold pr. f_equal. apply E1.
    + cbn. right. apply in_flat_map. eauto.
    + intros j J. apply in_app_or in J as [J|[<-|[]]]; [|now left].
      cbn. right. apply in_flat_map. eauto.
    + rewrite <- app_assoc. exact T3.
Qed.

(** *** Telling the subtree *)

Lemma every_broadcast : forall (Qa Qb : list nat -> nat -> bool -> list reg -> option src -> Prop)
    ty names h n0,
  (forall ups i p o s, Qa ups i p o s -> p = false) ->
  (forall ups i p o, In n0 (i :: ups ++ [0]) -> Qa ups i p o None -> Qb ups i p o None) ->
  (forall ups i p o x, In n0 (i :: ups ++ [0]) -> Qa ups i p o (Some x) ->
     Qb ups i p o (Some (if existsb (fun q => can_gen glob ty q x) names
                         then fst (h i x) else x))) ->
  forall n ups, In n0 (n_id n :: ups ++ [0]) -> every Qa ups n ->
  every Qb ups (fst (broadcast glob ty names h n)).
Proof.
  intros Qa Qb ty names h n0 HP HN HS.
  induction n as [i p o s ks F] using node_ind'. intros ups I E.
  apply every_eq in E as [E1 E2].
  assert (G : fst (broadcast glob ty names h (Nd i p o s ks)) =
    Nd i p o
      match s with
      | Some x => Some (if existsb (fun q => can_gen glob ty q x) names
                        then fst (h i x) else x)
      | None => None
      end
      (map (fun k => if n_priv k then k else fst (broadcast glob ty names h k)) ks)).
  { cbn [broadcast]. destruct s as [x|].
    - destruct (existsb _ names).
      + destruct (h i x) as [y e]. cbn [fst]. f_equal. rewrite map_map.
        apply map_ext. intros k. now destruct (n_priv k).
      + cbn [fst]. f_equal. rewrite map_map.
        apply map_ext. intros k. now destruct (n_priv k).
    - cbn [fst]. f_equal. rewrite map_map.
      apply map_ext. intros k. now destruct (n_priv k). }
  rewrite G. apply every_eq. split.
  - destruct s as [x|]; auto.
  - rewrite Forall_forall in *. intros k J.
    apply in_map_iff in J as (k0 & <- & J).
    assert (K : n_priv k0 = false).
    { specialize (E2 k0 J). destruct k0 as [j p' o' s' ks'].
      apply every_eq in E2 as [E2 _]. eapply HP; eauto. }
    rewrite K. apply F; auto. cbn. cbn in I. tauto.
Qed.

Lemma broadcast_ids : forall ty names h n,
  ids (fst (broadcast glob ty names h n)) = ids n.
Proof.
  intros ty names h. induction n as [i p o s ks F] using node_ind'.
  cbn [broadcast].
  destruct (match s with Some x => _ | None => _ end) as [s' e].
  cbn. f_equal. rewrite map_map, flat_map_map. clear -F.
  induction F as [|k ks Hk F IH]; cbn; auto.
  rewrite IH. destruct (n_priv k); cbn; congruence.
Qed.

Lemma broadcast_id : forall ty names h n,
  n_id (fst (broadcast glob ty names h n)) = n_id n.
Proof.
  intros ty names h [i p o s ks]. cbn [broadcast].
  destruct (match s with Some x => _ | None => _ end) as [s' e]. reflexivity.
Qed.

Lemma can_gen_wants : forall r x, can_gen glob (r_type r) (r_name r) x = wants x r.
Proof.
  intros r x. unfold can_gen, wants. now rewrite Nat.eqb_sym.
Qed.

Lemma added_tidy : forall r i x, tidy x -> tidy (fst (added r i x)).
Proof.
  intros r i x (G3 & G3' & G3''). unfold added. cbn [fst].
  repeat split; cbn [s_seen s_dels s_pts].
  - rewrite app_length. cbn.
        destruct (length (s_dels x) + 1) eqn:LE; [lia|reflexivity].
  - destruct (existsb (Nat.eqb (r_at r)) (s_pts x)) eqn:X; auto.
        apply NoDup_app_iff'. repeat split; auto; [repeat constructor; tauto|].
        intros y Y [<-|[]]. apply existsb_nat in Y. congruence.
  - intros J.
        assert (J' : In n (s_pts x) \/ n = r_at r).
        { destruct (existsb (Nat.eqb (r_at r)) (s_pts x)); auto.
          apply in_app_or in J as [J|[<-|[]]]; auto. }
        destruct J' as [J'| ->].
    + apply G3'' in J' as (r' & R1 & R2). exists r'. split; auto.
           apply in_or_app. auto.
    + exists r. split; auto. apply in_or_app. right. now left.
  - intros (r' & R1 & <-). apply in_app_or in R1 as [R1|[<-|[]]].
    + assert (In (r_at r') (s_pts x)) by (apply G3''; eauto).
           destruct (existsb (Nat.eqb (r_at r)) (s_pts x)); auto.
           apply in_or_app. auto.
    + destruct (existsb (Nat.eqb (r_at r)) (s_pts x)) eqn:X.
      * now apply existsb_nat.
      * apply in_or_app. right. now left.
Qed.

(** A source learns of a new observer. *)
Lemma added_fits : forall Lo L l r ups i p o x,
  In (r_at r) (i :: ups ++ [0]) ->
  fits Lo L l ups i p o (Some x) ->
  fits Lo (L ++ [r]) l ups i p o
    (Some (if wants x r then fst (added r i x) else x)).
Proof.
  intros Lo L l r ups i p o x I (F1 & F2 & F3 & F4 & F5).
  split; [exact F1|split; [exact F2|split; [exact F3|split; [exact F4|]]]].
  destruct F5 as (G1 & G2 & G3 & G4 & G5).
  pose proof (along_snoc_in L r (i :: ups ++ [0]) F2 I) as A.
  apply (Permutation_filter _ (wants x)) in A. cbn [filter] in A.
  destruct (wants x r) eqn:W.
  - unfold added. cbn [fst]. split; [|split; [|split; [|split]]]; auto.
    + cbn [s_dels]. apply (Permutation_filter _ keep) in A. cbn [filter] in A.
      apply Permutation_sym. eapply perm_trans; [exact A|].
      rewrite filter_app. cbn [filter].
      destruct (keep r).
      * eapply perm_trans; [apply perm_skip, Permutation_sym, G2|].
        apply Permutation_cons_append.
      * rewrite app_nil_r. apply Permutation_sym, G2.
    + exact (added_tidy r i x G3).
  - split; [|split; [|split; [|split]]]; auto.
    eapply perm_trans; [exact G2|]. apply Permutation_filter.
    now apply Permutation_sym.
Qed.

Lemma erase_nat_in : forall a l n, NoDup l ->
  (In n (erase (Nat.eqb a) l) <-> In n l /\ n <> a).
Proof.
  intros a l n N. induction N as [|x l I N IH]; cbn; [tauto|].
  destruct (Nat.eqb_spec a x).
  - subst x. split.
    + intros J. split; auto. intros ->. auto.
    + intros [[->|J] K]; [congruence|auto].
  - cbn. rewrite IH. split.
    + intros [->|[J K]]; auto.
    + intros [[->|J] K]; auto.
Qed.

Lemma erase_nat_nodup : forall a l, NoDup l -> NoDup (erase (Nat.eqb a) l).
Proof.
  intros a l N. induction N as [|x l I N IH]; cbn; [constructor|].
  destruct (a =? x); auto. constructor; auto.
  intros J. apply erase_nat_in in J; tauto.
Qed.

Lemma erase_incl : forall r l x, In x (erase (reg_eqb r) l) -> In x l.
Proof.
  intros r l x. induction l as [|y l IH]; cbn; auto.
  destruct (reg_eqb r y); cbn; auto. intros [->|I]; auto.
Qed.

Lemma erase_in_other : forall r l x, x <> r ->
  In x l -> In x (erase (reg_eqb r) l).
Proof.
  intros r l x N. induction l as [|y l IH]; cbn; auto.
  destruct (reg_eqb r y) eqn:E; cbn.
  - apply reg_eqb_eq in E. subst y. intros [->|I]; [congruence|auto].
  - tauto.
Qed.

(** A source that has the observer loses it. *)
Lemma removed_tidy : forall r i x, In r (s_dels x) -> tidy x ->
  tidy (fst (removed r i x)).
Proof.
  intros r i x I (G3 & G3' & G3''). unfold removed. cbn [fst].
  repeat split; cbn [s_seen s_dels s_pts].
  - destruct (existsb (fun d => r_at d =? r_at r) _); auto.
    now apply erase_nat_nodup.
  - destruct (existsb (fun d => r_at d =? r_at r) _) eqn:X; intros J.
    + apply existsb_exists in X as (d & D1 & D2). apply Nat.eqb_eq in D2.
      apply G3'' in J as (r' & R1 & <-).
      destruct (reg_eqb r r') eqn:E.
      * apply reg_eqb_eq in E. subst r'. eauto.
      * apply reg_eqb_neq in E. exists r'. split; auto.
        apply erase_in_other; auto.
    + apply erase_nat_in in J as [J K]; auto.
      apply G3'' in J as (r' & R1 & <-). exists r'. split; auto.
      apply erase_in_other; auto. intros ->. auto.
  - intros (r' & R1 & <-).
    assert (In (r_at r') (s_pts x)).
    { apply G3''. exists r'. split; auto. eapply erase_incl; eauto. }
    destruct (existsb (fun d => r_at d =? r_at r) _) eqn:X; auto.
    apply erase_nat_in; auto. split; auto. intros E.
    assert (existsb (fun d => r_at d =? r_at r) (erase (reg_eqb r) (s_dels x)) = true).
    { apply existsb_exists. exists r'. split; auto. now apply Nat.eqb_eq. }
    congruence.
Qed.

Lemma removed_tidy_out : forall r i x, ~ In r (s_dels x) -> tidy x ->
  tidy (fst (removed r i x)).
Proof.
  intros r i x I (G3 & G3' & G3'').
  assert (E : erase (reg_eqb r) (s_dels x) = s_dels x).
  { apply erase_out. destruct (existsb (reg_eqb r) (s_dels x)) eqn:X; auto.
    apply existsb_reg in X. tauto. }
  unfold removed. cbn [fst]. repeat split; cbn [s_seen s_dels s_pts]; rewrite E.
  - destruct (existsb (fun d => r_at d =? r_at r) _); auto.
    now apply erase_nat_nodup.
  - destruct (existsb (fun d => r_at d =? r_at r) _) eqn:X; intros J.
    + now apply G3''.
    + apply erase_nat_in in J as [J K]; auto. now apply G3''.
  - intros J. destruct (existsb (fun d => r_at d =? r_at r) _) eqn:X.
    + now apply G3''.
    + apply erase_nat_in; auto. split; [now apply G3''|].
      destruct J as (r' & R1 & <-). intros K.
      assert (existsb (fun d => r_at d =? r_at r) (s_dels x) = true).
      { apply existsb_exists. exists r'. split; auto. now apply Nat.eqb_eq. }
      congruence.
Qed.

Lemma removed_fits : forall Lo L l r ups i p o x,
  NoDup L -> In r L ->
  In (r_at r) (i :: ups ++ [0]) ->
  fits Lo L l ups i p o (Some x) ->
  fits Lo (filter (fun x => negb (reg_eqb r x)) L) l ups i p o
    (Some (if wants x r then fst (removed r i x) else x)).
Proof.
  intros Lo L l r ups i p o x NL IL I (F1 & F2 & F3 & F4 & F5).
  split; [exact F1|split; [exact F2|split; [exact F3|split; [exact F4|]]]].
  destruct F5 as (G1 & G2 & G3 & G4 & G5).
  pose proof (along_drop_in L r (i :: ups ++ [0]) NL IL F2 I) as A.
  apply (Permutation_filter _ (wants x)) in A. cbn [filter] in A.
  destruct (wants x r) eqn:W.
  - assert (T : tidy (fst (removed r i x))).
    { destruct (existsb (reg_eqb r) (s_dels x)) eqn:X.
      - apply existsb_reg in X. now apply removed_tidy.
      - apply removed_tidy_out; auto. intros J. apply existsb_reg in J. congruence. }
    split; [|split; [|split; [|split]]]; auto.
    unfold removed. cbn [fst s_dels].
    apply (Permutation_filter _ keep) in A. cbn [filter] in A.
    pose proof (perm_trans G2 A) as B. unfold wants. cbn [s_type s_name].
    fold (wants x). destruct (keep r) eqn:K.
    + assert (J : In r (s_dels x)).
      { assert (J : In r (filter keep (s_dels x))).
        { eapply Permutation_in; [apply Permutation_sym, B|now left]. }
        now apply filter_In in J. }
      pose proof (Permutation_filter _ keep _ _ (erase_perm r _ J)) as C.
      cbn [filter] in C. rewrite K in C.
      eapply Permutation_cons_inv. eapply perm_trans; [apply Permutation_sym, C|].
      exact B.
    + now rewrite filter_erase_out.
  - split; [|split; [|split; [|split]]]; auto.
    eapply perm_trans; [exact G2|]. now apply Permutation_filter.
Qed.

(** An observer the statement is not about does not matter. *)
Lemma added_fits_out : forall Lo L l r ups i p o x, keep r = false ->
  fits Lo L l ups i p o (Some x) ->
  fits Lo L l ups i p o (Some (fst (added r i x))).
Proof.
  intros Lo L l r ups i p o x K F.
  assert (G : fits Lo (L ++ [r]) l ups i p o
                (Some (fst (added r i x)))).
  { destruct F as (F1 & F2 & F3 & F4 & F5).
    split; [exact F1|split; [exact F2|split; [exact F3|split; [exact F4|]]]].
    destruct F5 as (G1 & G2 & G3 & G4 & G5).
    unfold added. cbn [fst]. split; [|split; [|split; [|split]]]; auto.
    + cbn [s_dels]. rewrite filter_app. cbn [filter]. rewrite K, app_nil_r.
      eapply perm_trans; [exact G2|].
      destruct (in_dec Nat.eq_dec (r_at r) (i :: ups ++ [0])) as [J|J].
      * pose proof (along_snoc_in L r (i :: ups ++ [0]) F2 J) as A.
        apply (Permutation_filter _ (wants x)), (Permutation_filter _ keep) in A.
        cbn [filter] in A. apply Permutation_sym. eapply perm_trans; [exact A|].
        destruct (wants x r); cbn [filter]; rewrite ?K; apply Permutation_refl.
      * rewrite along_snoc_out by auto. apply Permutation_refl.
    + exact (added_tidy r i x G3). }
  eapply fits_same; [| | |exact G]; auto.
  - intros; repeat split; auto.
  - destruct F as (F1 & F2 & _).
    destruct (in_dec Nat.eq_dec (r_at r) (i :: ups ++ [0])) as [J|J].
    + pose proof (along_snoc_in L r (i :: ups ++ [0]) F2 J) as A.
      apply (Permutation_filter _ keep) in A. cbn [filter] in A.
      now rewrite K in A.
    + rewrite along_snoc_out by auto. apply Permutation_refl.
Qed.

Lemma removed_fits_out : forall Lo L l r ups i p o x, keep r = false ->
  fits Lo L l ups i p o (Some x) ->
  fits Lo L l ups i p o (Some (fst (removed r i x))).
Proof.
  intros Lo L l r ups i p o x K (F1 & F2 & F3 & F4 & F5).
  split; [exact F1|split; [exact F2|split; [exact F3|split; [exact F4|]]]].
  destruct F5 as (G1 & G2 & G3 & G4 & G5).
  split; [|split; [|split; [|split]]]; auto.
  - unfold removed. cbn [fst s_dels]. now rewrite filter_erase_out.
  - destruct (existsb (reg_eqb r) (s_dels x)) eqn:X.
    + apply existsb_reg in X. now apply removed_tidy.
    + apply removed_tidy_out; auto. intros J. apply existsb_reg in J. congruence.
Qed.

(** *** The whole forest *)

(** The node an operation is about, if the history of that node changes. *)
Definition subject (o : op) : option nat :=
  match o with
  | NewChild i _ | NewSource i _ _ _ | Attach i _ | AddCb i _ _ | Post i _ => Some i
  | _ => None
  end.

Lemma same_snoc : forall l o i, subject o <> Some i -> same l (l ++ [o]) i.
Proof.
  intros l o i S. repeat split.
  - unfold parent. rewrite !in_app_iff. intros [H|[(ty & nm & H)|H]]; auto.
    right. left. exists ty, nm. apply in_or_app. auto.
  - unfold parent. rewrite !in_app_iff.
    intros [[H|[->|[]]]|[(ty & nm & H)|[H|[->|[]]]]]; auto;
      try (exfalso; apply S; reflexivity).
    apply in_app_or in H as [H|[->|[]]]; [right; left; eauto|].
    exfalso; apply S; reflexivity.
  - intros (p & H). exists p. apply in_or_app. auto.
  - intros (p & H). apply in_app_or in H as [H|[->|[]]]; [exists p; auto|].
    exfalso; apply S; reflexivity.
  - rewrite posts_snoc. destruct o; auto. cbn in S.
    destruct (Nat.eqb_spec i0 i); [congruence|auto].
  - rewrite cbs_snoc. destruct o; rewrite ?app_nil_r; auto. cbn in S.
    destruct (Nat.eqb_spec i0 i); [congruence|now rewrite app_nil_r].
Qed.

Lemma made_snoc : forall l o i, made (l ++ [o]) i <->
  made l i \/ match o with
              | NewNode j _ | NewChild j _ | NewSource j _ _ _ => j = i
              | _ => False
              end.
Proof.
  intros l o i. unfold made. split.
  - intros [->|[(p & H)|[(p & H)|(p & ty & nm & H)]]]; auto;
      apply in_app_or in H as [H|[->|[]]]; auto;
      left; right; eauto 6.
  - intros [[->|[(p & H)|[(p & H)|(p & ty & nm & H)]]]|H]; auto.
    + right. left. exists p. apply in_or_app. auto.
    + right. right. left. exists p. apply in_or_app. auto.
    + right. right. right. exists p, ty, nm. apply in_or_app. auto.
    + destruct o; try tauto; subst; right.
      * left. exists priv. apply in_or_app. cbn. auto.
      * right. left. exists parent0. apply in_or_app. cbn. auto.
      * right. right. exists parent0, ty, name. apply in_or_app. cbn. auto.
Qed.

Lemma parent_snoc : forall l o c p, parent (l ++ [o]) c p <->
  parent l c p \/ match o with
                  | NewChild j q | NewSource j q _ _ | Attach j q => j = c /\ q = p
                  | _ => False
                  end.
Proof.
  intros l o c p. unfold parent. split.
  - intros [H|[(ty & nm & H)|H]]; apply in_app_or in H as [H|[->|[]]]; auto.
    left. right. left. eauto.
  - intros [[H|[(ty & nm & H)|H]]|H].
    + left. apply in_or_app. auto.
    + right. left. exists ty, nm. apply in_or_app. auto.
    + right. right. apply in_or_app. auto.
    + destruct o; try tauto; destruct H as [-> ->].
      * left. apply in_or_app. cbn. auto.
      * right. left. exists ty, name. apply in_or_app. cbn. auto.
      * right. right. apply in_or_app. cbn. auto.
Qed.

Lemma source_snoc : forall l o i ty nm, source (l ++ [o]) i ty nm <->
  source l i ty nm \/ match o with
                      | NewSource j _ ty' nm' => j = i /\ ty' = ty /\ nm' = nm
                      | _ => False
                      end.
Proof.
  intros l o i ty nm. unfold source. split.
  - intros (p & H). apply in_app_or in H as [H|[->|[]]]; eauto.
  - intros [(p & H)|H].
    + exists p. apply in_or_app. auto.
    + destruct o; try tauto. destruct H as (-> & -> & ->).
      exists parent0. apply in_or_app. cbn. auto.
Qed.

Record inv (l : list op) (f : forest) : Prop := mkInv {
  v_kids : f_kids f = [];
  v_nodup : NoDup (flat_map ids (f_roots f));
  v_every : Forall (every (fits (live l) (live l) l) []) (f_roots f);
  v_obs : f_obs f = at_ (live l) 0;
  v_live : NoDup (live l);
  v_at : forall r, In r (live l) -> made l (r_at r);
  v_made : forall i, made l i <-> i = 0 \/ In i (flat_map ids (f_roots f));
  v_parent : forall c p, parent l c p -> made l c;
  v_zero : forall p, ~ parent l 0 p;
  v_fresh : forall i, ~ made l i -> posts l i = 0 /\ cbs l i = [];
  v_tracked : (forall r, keep r = true -> r_at r <> 0) \/
              f_tracked f = map n_id (f_roots f)
}.

(** Uses of the interface for which the statement is proved. *)
Definition clean (o : op) : Prop :=
  match o with
  | NewNode _ p => p = false
  | NewChild _ p | NewSource _ p _ _ | Attach _ p => p <> 0
  | Reg r _ | Dereg r => names_in (r_name r) = Some [r_name r]
  | _ => True
  end.

Lemma find_node_some : forall i n m, find_node i n = Some m ->
  n_id m = i /\ In i (ids n).
Proof.
  intros i. induction n as [j p o s ks F] using node_ind'. intros m. cbn.
  destruct (Nat.eqb_spec i j).
  - intros E. injection E as <-. cbn. auto.
  - intros E. cut (n_id m = i /\ In i (flat_map ids ks)); [tauto|].
    revert E F. clear. induction ks as [|k ks IH]; cbn; [discriminate|].
    intros E F. inversion F as [|? ? F1 F2]; subst. rewrite in_app_iff.
    destruct (find_node i k) as [x|] eqn:K.
    + injection E as ->. destruct (F1 m eq_refl). auto.
    + destruct (IH E F2). auto.
Qed.

Lemma find_node_none : forall i n, find_node i n = None -> ~ In i (ids n).
Proof.
  intros i. induction n as [j p o s ks F] using node_ind'. cbn.
  destruct (Nat.eqb_spec i j); [discriminate|].
  intros E [->|I]; [congruence|]. revert E F I. clear.
  induction ks as [|k ks IH]; cbn; [tauto|].
  intros E F I. inversion F as [|? ? F1 F2]; subst. rewrite in_app_iff in I.
  destruct (find_node i k) as [x|] eqn:K; [discriminate|].
  destruct I as [I|I]; [now apply F1|auto].
Qed.

Lemma find_in_some : forall i l m, find_in i l = Some m ->
  exists n, In n l /\ find_node i n = Some m.
Proof.
  intros i l m. induction l as [|n l IH]; cbn; [discriminate|].
  destruct (find_node i n) as [x|] eqn:E.
  - intros X. injection X as ->. exists n. auto.
  - intros X. destruct (IH X) as (n' & I & J). exists n'. auto.
Qed.

Lemma find_in_none : forall i l, find_in i l = None -> ~ In i (flat_map ids l).
Proof.
  intros i l. induction l as [|n l IH]; cbn; auto.
  destruct (find_node i n) as [x|] eqn:E; [discriminate|].
  intros X. rewrite in_app_iff. apply find_node_none in E. intuition.
Qed.

Lemma find_every : forall Q i n ups m, every Q ups n -> find_node i n = Some m ->
  exists t, every Q (t ++ ups) m.
Proof.
  intros Q i. induction n as [j p o s ks F] using node_ind'. intros ups m E X.
  cbn in X. destruct (Nat.eqb_spec i j).
  - injection X as <-. exists []. exact E.
  - apply every_eq in E as [_ E].
    assert (K : exists k, In k ks /\ find_node i k = Some m).
    { revert X. clear. induction ks as [|k ks IH]; cbn; [discriminate|].
      destruct (find_node i k) as [x|] eqn:K; intros X.
      - injection X as ->. exists k. auto.
      - destruct (IH X) as (k' & I & J). exists k'. auto. }
    destruct K as (k & I & K). rewrite Forall_forall in F, E.
    destruct (F k I (j :: ups) m (E k I) K) as (t & T).
    exists (t ++ [j]). now rewrite <- app_assoc.
Qed.

Lemma known_made : forall l f i, inv l f -> (known i f = true <-> made l i).
Proof.
  intros l f i V. rewrite (v_made _ _ V). unfold known, find_all, all_trees.
  rewrite (v_kids _ _ V). cbn [app].
  rewrite orb_true_iff, Nat.eqb_eq.
  destruct (find_in i (f_roots f)) as [m|] eqn:E.
  - split; auto. intros _. right.
    apply find_in_some in E as (n & I & J). apply find_node_some in J as [_ J].
    apply in_flat_map. eauto.
  - apply find_in_none in E. intuition congruence.
Qed.

Lemma known_out : forall l f i, inv l f -> known i f = false -> ~ made l i.
Proof.
  intros l f i V K M. apply (known_made _ _ _ V) in M. congruence.
Qed.

Lemma ids_not_zero : forall l Lo Ld n ups,
  every (fits Lo Ld l) ups n -> ~ In 0 (ids n).
Proof.
  intros l Lo Ld. induction n as [i p o s ks F] using node_ind'.
  intros ups E. apply every_eq in E as [(E0 & E1 & _) E2].
  cbn. intros [->|I].
  - apply NoDup_cons_iff in E1 as [E1 _]. apply E1. apply in_or_app.
    right. now left.
  - apply in_flat_map in I as (k & I & J). rewrite Forall_forall in *.
    eapply F; eauto.
Qed.

Lemma at_out : forall l f i, inv l f -> ~ made l i -> at_ (live l) i = [].
Proof.
  intros l f i V M. unfold at_. apply filter_false. intros r I.
  destruct (Nat.eqb_spec (r_at r) i); auto. exfalso. apply M. subst i.
  eapply v_at; eauto.
Qed.

(** Operations that leave a tree alone. *)
Lemma every_quiet : forall l o n ups,
  (forall i, In i (ids n) \/ In i ups -> subject o <> Some i) ->
  live (l ++ [o]) = live l ->
  every (fits (live l) (live l) l) ups n ->
  every (fits (live (l ++ [o])) (live (l ++ [o])) (l ++ [o])) ups n.
Proof.
  intros l o n ups S L E. rewrite L. eapply every_impl; [|exact E].
  intros ups' i p ob s I A F. eapply fits_same; [| | |exact F]; auto.
  intros j [<-|J]; apply same_snoc, S; auto. destruct (A j J); auto.
Qed.

Lemma step_new : forall l f i priv f' e, inv l f -> clean (NewNode i priv) ->
  step glob f (NewNode i priv) = (f', true, e) -> inv (l ++ [NewNode i priv]) f'.
Proof.
  intros l f i priv f' e V C E. cbn in C. subst priv. cbn [step] in E.
  destruct (known i f) eqn:K; [discriminate|]. injection E as <- <-.
  pose proof (known_out _ _ _ V K) as M.
  assert (I0 : i <> 0) by (intros ->; apply M; now left).
  assert (II : ~ In i (flat_map ids (f_roots f))).
  { intros J. apply M. apply (v_made _ _ V). auto. }
  constructor; cbn [f_kids f_roots f_obs f_tracked].
  - apply V.
  - rewrite flat_map_app. cbn. apply NoDup_app_iff'. repeat split.
    + apply V.
    + repeat constructor; tauto.
    + intros x X [<-|[]]. auto.
  - apply Forall_app. split.
    + pose proof (v_every _ _ V) as W. rewrite Forall_forall in *. intros n N.
      apply every_quiet; auto; [discriminate|now rewrite live_snoc].
    + constructor; [|constructor]. rewrite live_snoc. cbn. split; auto.
      repeat split; auto.
      * constructor; [intros [X|[]]; congruence|].
        constructor; [intros []|constructor].
      * symmetry. eapply at_out; eauto.
      * intros P. apply parent_snoc in P as [P|P]; [|tauto].
        exfalso. apply M. eapply v_parent; eauto.
      * discriminate.
      * intros ty nm S. apply source_snoc in S as [S|S]; [|tauto].
        destruct S as (p & S). apply M. right. right. right. eauto.
  - rewrite live_snoc. apply V.
  - rewrite live_snoc. apply V.
  - rewrite live_snoc. intros r R. apply made_snoc. left. eapply v_at; eauto.
  - intros j. rewrite made_snoc, (v_made _ _ V), flat_map_app, in_app_iff.
    cbn. tauto.
  - intros c p P. apply parent_snoc in P as [P|P]; [|tauto].
    apply made_snoc. left. eapply v_parent; eauto.
  - intros p P. apply parent_snoc in P as [P|P]; [|tauto]. eapply v_zero; eauto.
  - intros j N. rewrite made_snoc in N. rewrite posts_snoc, cbs_snoc, app_nil_r.
    rewrite Nat.add_0_r. apply V. tauto.
  - destruct (v_tracked _ _ V) as [T|T]; auto. right.
    rewrite T, map_app. reflexivity.
Qed.

(** *** Adding children *)

Lemma chain_in_some : forall i l c, chain_in i l = Some c ->
  exists l1 n l2, l = l1 ++ n :: l2 /\ chain_node i n = Some c.
Proof.
  intros i l c. induction l as [|n l IH]; cbn; [discriminate|].
  destruct (chain_node i n) as [x|] eqn:E.
  - intros X. injection X as ->. exists [], n, l. auto.
  - intros X. destruct (IH X) as (l1 & n' & l2 & -> & J).
    exists (n :: l1), n', l2. auto.
Qed.

Lemma last_in : forall (path : list nat), path <> [] -> In (last path 0) path.
Proof.
  intros path. induction path as [|a path IH]; [congruence|]. intros _.
  destruct path as [|b path]; [now left|]. right. apply IH. discriminate.
Qed.

Lemma linked_extend : forall l l' i p t path,
  last path 0 = i -> path <> [] ->
  (forall j, In j path -> j <> i -> same l l' j) ->
  (forall q, parent l' i q <-> q = p) ->
  NoDup path ->
  linked l path -> linked l' (p :: t) ->
  linked l' (path ++ p :: t).
Proof.
  intros l l' i p t path. induction path as [|j path IH]; [congruence|].
  intros La _ S P N L T. cbn in L. destruct L as [L1 L2].
  destruct path as [|j' path].
  - cbn in La. subst j. cbn. split; [|exact T]. intros q. rewrite P.
    split; congruence.
  - change (last (j' :: path) 0 = i) in La. cbn [app linked]. split.
    + intros q. cbn. rewrite <- (L1 q). cbn. symmetry. apply S.
      * now left.
      * intros ->. apply NoDup_cons_iff in N as [N _]. apply N.
        rewrite <- La. now apply last_in.
    + apply IH; auto.
      * discriminate.
      * intros; apply S; auto. now right.
      * now apply NoDup_cons_iff in N.
Qed.

(** [k] has no parent yet, [p] becomes its parent: everything but [k] agrees
    with the new history already, and [k]'s own tree with the old one. *)
Lemma add_child_fits : forall l o L f k p f',
  let l' := l ++ [o] in
  f_kids f = [] -> f_obs f = at_ L 0 ->
  NoDup (flat_map ids (f_roots f) ++ ids k) ->
  Forall (every (fits L L l') []) (f_roots f) ->
  (forall j, In j (ids k) -> j <> n_id k -> same l l' j) ->
  (forall q, parent l' (n_id k) q <-> q = p) ->
  every (fun ups j pv ob s =>
           pv = false /\ NoDup (j :: ups ++ [0]) /\ ob = at_ L j /\
           linked l (j :: ups) /\
           match s with
           | Some x => (forall ty nm, source l' j ty nm <-> ty = s_type x /\ nm = s_name x)
                       /\ s_posts x = posted l' j /\ s_cbs x = cbs l' j
           | None => forall ty nm, ~ source l' j ty nm
           end) [] k ->
  p <> 0 ->
  add_child glob k p f = Some f' ->
  f_kids f' = [] /\ f_obs f' = f_obs f /\
  Permutation (flat_map ids (f_roots f')) (flat_map ids (f_roots f) ++ ids k) /\
  Forall (every (fits L L l') []) (f_roots f') /\
  map n_id (f_roots f') = map n_id (f_roots f) /\
  f_tracked f' = filter (fun j => negb (j =? n_id k)) (f_tracked f) /\
  In p (flat_map ids (f_roots f)).
Proof.
  intros l o L f k p f' l' FK FO ND FE SK PK KE P0 A.
  unfold add_child, chain_all in A. rewrite FK in A. cbn [chain_in] in A.
  destruct (Nat.eqb_spec p 0) as [|_]; [congruence|].
  destruct (chain_in p (f_roots f)) as [up|] eqn:C; [|discriminate].
  apply chain_in_some in C as (l1 & n & l2 & FR & C).
  injection A as <-. unfold change_all, change_in. rewrite FK.
  cbn [map fst f_kids f_roots f_obs f_tracked].
  rewrite FR in FE. apply Forall_app in FE as [FE1 FE2].
  inversion FE2 as [|? ? FE3 FE4]; subst. clear FE2.
  pose proof FE3 as FE3'.
  destruct (chain_fits _ _ _ _ _ _ _ FE3 C) as (t & -> & T1 & T2 & (pv & ob & s & T3)).
  rewrite app_nil_r in T3.
  set (k' := inform glob (map (pr L) (p :: t)) (f_obs f) k).
  assert (IP : In p (flat_map ids (f_roots f))).
  { rewrite FR, flat_map_app. apply in_or_app. right. cbn. apply in_or_app. auto. }
  assert (NDR : NoDup (flat_map ids (f_roots f))).
  { apply NoDup_app_iff' in ND. tauto. }
  assert (K' : every (fits L L l') (p :: t) k').
  { unfold k'. rewrite FO.
    change (p :: t) with ([] ++ (p :: t)).
    apply every_inform with (z := n_id k) (D := ids k)
      (Qa := fun ups j pv ob s =>
           pv = false /\ NoDup (j :: ups ++ [0]) /\ ob = at_ L j /\
           linked l (j :: ups) /\
           match s with
           | Some x => (forall ty nm, source l' j ty nm <-> ty = s_type x /\ nm = s_name x)
                       /\ s_posts x = posted l' j /\ s_cbs x = cbs l' j
           | None => forall ty nm, ~ source l' j ty nm
           end); auto; [intros j []|].
    intros ups' j pv' ob' s' J1 J2 J3 (Q1 & Q2 & Q3 & Q4 & Q5).
    split; auto.
    assert (DJ : forall a, In a (j :: ups') -> In a (ids k)).
    { intros a [<-|X]; auto. }
    assert (NJ : NoDup ((j :: ups') ++ (p :: t) ++ [0])).
    { destruct T3 as (_ & T3 & _).
      change (p :: t ++ [0]) with ((p :: t) ++ [0]) in T3.
      apply NoDup_app_iff'. split; [|split].
      - change (j :: ups' ++ [0]) with ((j :: ups') ++ [0]) in Q2.
        apply NoDup_app_iff' in Q2. tauto.
      - exact T3.
      - intros a X Y. apply in_app_or in Y as [Y|[<-|[]]].
        + apply NoDup_app_iff' in ND as (_ & _ & ND). apply (ND a); auto.
          rewrite FR, flat_map_app. apply in_or_app. right. cbn.
          apply in_or_app. left. destruct Y as [<-|Y]; auto.
        + change (j :: ups' ++ [0]) with ((j :: ups') ++ [0]) in Q2.
          apply NoDup_app_iff' in Q2 as (_ & _ & Q2). apply (Q2 0); auto.
          now left. }
    split; [exact Q1|split; [|split; [exact Q3|split]]].
    - rewrite <- app_assoc. exact NJ.
    - change (j :: ups' ++ p :: t) with ((j :: ups') ++ p :: t).
      eapply linked_extend with (l := l) (i := n_id k); eauto.
      + discriminate.
      + apply NoDup_app_iff' in NJ. tauto.
      + apply T3.
    - destruct s' as [x|]; [|exact Q5]. cbn [option_map].
      destruct Q5 as (R1 & R2 & R3).
      split; [exact R1|split; [|split; [|split]]]; auto.
      + rewrite determine_dels. cbn [app].
        change (filter (wants (determine glob (map (pr L) (j :: ups' ++ p :: t)) (at_ L 0) x)))
          with (filter (wants x)).
        apply Permutation_refl.
      + apply determine_tidy. cbn [app]. rewrite <- app_assoc. exact NJ. }
  assert (G : Forall (every (fits L L l') [])
     (map fst (map (change_node p (add_kid k')) (f_roots f)))).
  { rewrite FR, map_map, map_app. cbn [map].
    assert (OUT : forall x, In x l1 \/ In x l2 ->
              fst (change_node p (add_kid k') x) = x).
    { intros x X. rewrite change_out; auto. intros Y.
      rewrite FR, flat_map_app in NDR. cbn in NDR.
      apply NoDup_app_iff' in NDR as (_ & N2 & N3).
      apply NoDup_app_iff' in N2 as (_ & _ & N2). destruct X as [X|X].
      - apply (N3 p); [apply in_flat_map; eauto|]. apply in_or_app. auto.
      - apply (N2 p); auto. apply in_flat_map. eauto. }
    apply Forall_app. split; [|constructor].
    - rewrite Forall_forall in *. intros x X.
      apply in_map_iff in X as (y & <- & Y). rewrite OUT; auto.
    - eapply every_change_at with (Q := fits L L l') (c := map (pr L) (p :: t)); eauto.
      + rewrite FR, flat_map_app in NDR. cbn in NDR.
        apply NoDup_app_iff' in NDR as (_ & N2 & _).
        apply NoDup_app_iff' in N2. tauto.
      + intros m M E. cbn [map tl fst pr] in *.
        assert (MF : map fst (map (pr L) t) = t).
        { rewrite map_map. cbn. apply map_id. }
        rewrite MF in *. rewrite app_nil_r in *.
        destruct m as [i' p' o' s' ks']. cbn in M. subst i'.
        apply every_eq in E as [E1 E2]. apply every_eq. split; auto.
        apply Forall_app. split; auto.
    - rewrite Forall_forall in *. intros x X.
      apply in_map_iff in X as (y & <- & Y). rewrite OUT; auto. }
  repeat split; auto.
  - pose proof (add_kid_ids_in p k' (f_roots f) NDR IP) as AI.
    unfold change_in in AI. cbn [fst] in AI.
    unfold k' in AI. rewrite inform_ids in AI. exact AI.
  - rewrite !map_map. apply map_ext. intros x. apply add_kid_id.
Qed.

(** The parts of the invariant that speak of numbers only, after a node [k]
    has been put below [p]. *)
Lemma inv_added : forall l o f f' k p,
  inv l f -> n_id k <> 0 -> live (l ++ [o]) = live l -> f_kids f' = [] -> f_obs f' = f_obs f ->
  subject o = Some (n_id k) ->
  match o with NewChild _ q | NewSource _ q _ _ | Attach _ q => q = p | _ => False end ->
  NoDup (flat_map ids (f_roots f')) ->
  (forall i, In i (flat_map ids (f_roots f')) <->
     In i (flat_map ids (f_roots f)) \/
     match o with NewChild _ _ | NewSource _ _ _ _ => i = n_id k | _ => False end) ->
  made (l ++ [o]) (n_id k) ->
  Forall (every (fits (live l) (live l) (l ++ [o])) []) (f_roots f') ->
  ((forall r, keep r = true -> r_at r <> 0) \/ f_tracked f' = map n_id (f_roots f')) ->
  inv (l ++ [o]) f'.
Proof.
  intros l o f f' k p V KZ L K O S P N I M F T.
  constructor; auto; rewrite ?L; try apply V; auto.
  - rewrite O. apply V.
  - intros r R. apply made_snoc. left. eapply v_at; eauto.
  - intros i. rewrite made_snoc, (v_made _ _ V), I.
    destruct o; cbn in S; try discriminate; try tauto; injection S as S; subst; intuition.
  - intros c q Q. apply parent_snoc in Q as [Q|Q].
    + apply made_snoc. left. eapply v_parent; eauto.
    + assert (c = n_id k); [|now subst].
      destruct o; cbn in S; try tauto; injection S as S; destruct Q; congruence.
  - intros q Q. apply parent_snoc in Q as [Q|Q]; [eapply v_zero; eauto|].
    apply KZ. destruct o; cbn in S; try tauto; injection S as S; destruct Q; congruence.
  - intros i X. rewrite made_snoc in X.
    rewrite posts_snoc, cbs_snoc.
    destruct o; try tauto; rewrite Nat.add_0_r, app_nil_r; apply V; tauto.
Qed.

Lemma step_child : forall l f i p f' e, inv l f ->
  clean (NewChild i p) -> (forall r, keep r = true -> r_at r <> 0) ->
  step glob f (NewChild i p) = (f', true, e) -> inv (l ++ [NewChild i p]) f'.
Proof.
  intros l f i p f' e V C KT E. cbn in C. cbn [step] in E.
  destruct (known i f) eqn:K; [discriminate|].
  destruct (add_child glob (Nd i false [] None []) p f) as [f1|] eqn:A; [|discriminate].
  injection E as <- <-.
  pose proof (known_out _ _ _ V K) as M.
  assert (I0 : i <> 0) by (intros ->; apply M; now left).
  assert (II : ~ In i (flat_map ids (f_roots f))).
  { intros J. apply M. apply (v_made _ _ V). auto. }
  set (o := NewChild i p) in *.
  assert (L : live (l ++ [o]) = live l) by now rewrite live_snoc.
  eapply (add_child_fits l o (live l)) in A; cbn [n_id].
  - destruct A as (A1 & A2 & A3 & A4 & A5 & A6 & A7).
    apply (inv_added l o f _ (Nd i false [] None []) p V I0 L); cbn [f_kids f_roots f_obs f_tracked n_id]; auto.
    + reflexivity.
    + eapply Permutation_NoDup; [apply Permutation_sym, A3|]. cbn.
      apply NoDup_app_iff'. repeat split; [apply V|repeat constructor; tauto|].
      intros x X [<-|[]]. auto.
    + intros j. split; intros J.
      * apply (Permutation_in _ A3) in J. apply in_app_or in J as [J|[<-|[]]]; auto.
        now right.
      * apply (Permutation_in _ (Permutation_sym A3)). apply in_or_app.
        destruct J as [J|J]; auto. right. left. now symmetry.
    + apply made_snoc. now right.
  - apply V.
  - apply V.
  - cbn. apply NoDup_app_iff'. repeat split; [apply V|repeat constructor; tauto|].
    intros x X [<-|[]]. auto.
  - pose proof (v_every _ _ V) as W. rewrite Forall_forall in *. intros n N.
    rewrite <- L. apply every_quiet; auto. intros j J X. cbn in X.
    injection X as ->. destruct J as [J|[]]. apply II. apply in_flat_map. eauto.
  - intros j [<-|[]]; cbn; congruence.
  - intros q. rewrite parent_snoc. cbn. split.
    + intros [X|[_ X]]; auto. exfalso. apply M. eapply v_parent; eauto.
    + intros ->. auto.
  - cbn. split; auto. repeat split; auto.
    + constructor; [intros [X|[]]; congruence|].
      constructor; [intros []|constructor].
    + symmetry. eapply at_out; eauto.
    + intros P. exfalso. apply M. eapply v_parent; eauto.
    + discriminate.
    + intros ty nm S. apply source_snoc in S as [S|S]; [|tauto].
      destruct S as (q & S). apply M. right. right. right. eauto.
  - auto.
Qed.

Lemma step_source : forall l f i p ty nm f' e, inv l f ->
  clean (NewSource i p ty nm) ->
  step glob f (NewSource i p ty nm) = (f', true, e) ->
  inv (l ++ [NewSource i p ty nm]) f'.
Proof.
  intros l f i p ty nm f' e V C E. cbn in C. cbn [step] in E.
  destruct (known i f) eqn:K; [discriminate|].
  destruct (add_child glob _ p f) as [f1|] eqn:A; [|discriminate].
  injection E as <- <-.
  pose proof (known_out _ _ _ V K) as M.
  assert (I0 : i <> 0) by (intros ->; apply M; now left).
  assert (II : ~ In i (flat_map ids (f_roots f))).
  { intros J. apply M. apply (v_made _ _ V). auto. }
  set (o := NewSource i p ty nm) in *.
  assert (L : live (l ++ [o]) = live l) by now rewrite live_snoc.
  eapply (add_child_fits l o (live l)) in A; cbn [n_id].
  - destruct A as (A1 & A2 & A3 & A4 & A5 & A6 & A7).
    apply (inv_added l o f _ (Nd i false [] None []) p V I0 L); cbn [f_kids f_roots f_obs f_tracked n_id]; auto.
    + reflexivity.
    + eapply Permutation_NoDup; [apply Permutation_sym, A3|]. cbn.
      apply NoDup_app_iff'. repeat split; [apply V|repeat constructor; tauto|].
      intros x X [<-|[]]. auto.
    + intros j. split; intros J.
      * apply (Permutation_in _ A3) in J. apply in_app_or in J as [J|[<-|[]]]; auto.
        now right.
      * apply (Permutation_in _ (Permutation_sym A3)). apply in_or_app.
        destruct J as [J|J]; auto. right. left. now symmetry.
    + apply made_snoc. now right.
    + destruct (v_tracked _ _ V) as [T|T]; auto. right.
      rewrite A6, A5, T. cbn [n_id].
      assert (Z : forall rs, ~ In i (flat_map ids rs) ->
        filter (fun j => negb (j =? i)) (map n_id rs) = map n_id rs).
      { clear. induction rs as [|[j p o s ks] rs IH]; cbn; auto. intros N.
        destruct (Nat.eqb_spec j i); [exfalso; auto|]. cbn. rewrite IH; auto.
        intros X. apply N. right. apply in_or_app. auto. }
      now apply Z.
  - apply V.
  - apply V.
  - cbn. apply NoDup_app_iff'. repeat split; [apply V|repeat constructor; tauto|].
    intros x X [<-|[]]. auto.
  - pose proof (v_every _ _ V) as W. rewrite Forall_forall in *. intros n N.
    rewrite <- L. apply every_quiet; auto. intros j J X. cbn in X.
    injection X as ->. destruct J as [J|[]]. apply II. apply in_flat_map. eauto.
  - intros j [<-|[]]; cbn; congruence.
  - intros q. rewrite parent_snoc. cbn. split.
    + intros [X|[_ X]]; auto. exfalso. apply M. eapply v_parent; eauto.
    + intros ->. auto.
  - apply every_eq. split; [|constructor]. repeat split; auto.
    + constructor; [intros [X|[]]; congruence|].
      constructor; [intros []|constructor].
    + symmetry. eapply at_out; eauto.
    + intros P. exfalso. apply M. eapply v_parent; eauto.
    + discriminate.
    + cbn. apply source_snoc in H as [S|(_ & S & _)]; auto.
      destruct S as (q & S). exfalso. apply M. right. right. right. eauto.
    + cbn. apply source_snoc in H as [S|(_ & _ & S)]; auto.
      destruct S as (q & S). exfalso. apply M. right. right. right. eauto.
    + cbn. intros [-> ->]. apply source_snoc. right. unfold o. auto.
    + unfold posted. rewrite posts_snoc. cbn.
      destruct (v_fresh _ _ V i M) as [-> _]. reflexivity.
    + rewrite cbs_snoc. cbn. destruct (v_fresh _ _ V i M) as [_ ->]. reflexivity.
  - auto.
Qed.

Lemma filter_ids : forall i rs k, NoDup (flat_map ids rs) ->
  find (fun n => n_id n =? i) rs = Some k ->
  n_id k = i /\ In k rs /\
  Permutation (flat_map ids rs)
    (flat_map ids (filter (fun n => negb (n_id n =? i)) rs) ++ ids k).
Proof.
  intros i rs k. induction rs as [|n rs IH]; cbn; [discriminate|].
  intros N. apply NoDup_app_iff' in N as (N1 & N2 & N3).
  destruct (Nat.eqb_spec (n_id n) i).
  - intros E. injection E as ->. cbn. repeat split; auto.
    assert (Z : filter (fun n => negb (n_id n =? i)) rs = rs).
    { clear IH N1 N2. induction rs as [|m rs IH]; cbn; auto.
      destruct (Nat.eqb_spec (n_id m) i).
      - exfalso. apply (N3 i).
        + rewrite <- e. destruct k. now left.
        + cbn. apply in_or_app. left. rewrite <- e0. destruct m. now left.
      - cbn. rewrite IH; auto. intros x X Y. apply (N3 x); auto. cbn.
        apply in_or_app. auto. }
    rewrite Z. apply Permutation_app_comm.
  - intros E. cbn. destruct (IH N2 E) as (A & B & C). repeat split; auto.
    rewrite <- app_assoc. apply Permutation_app_head, C.
Qed.

Lemma step_attach : forall l f i p f' e, inv l f ->
  clean (Attach i p) ->
  step glob f (Attach i p) = (f', true, e) -> inv (l ++ [Attach i p]) f'.
Proof.
  intros l f i p f' e V C E. cbn in C. cbn [step] in E.
  destruct (find (fun n => n_id n =? i) (f_roots f)) as [k|] eqn:FK; [|discriminate].
  destruct (find_node p k) eqn:FP; [discriminate|].
  destruct (add_child glob k p _) as [f1|] eqn:A; [|discriminate].
  injection E as <- <-.
  destruct (filter_ids i (f_roots f) k (v_nodup _ _ V) FK) as (KI & KR & KP).
  set (o := Attach i p) in *.
  assert (L : live (l ++ [o]) = live l) by now rewrite live_snoc.
  assert (KZ : n_id k <> 0).
  { pose proof (v_every _ _ V) as W. rewrite Forall_forall in W.
    intros Z. apply (ids_not_zero _ _ _ _ _ (W _ KR)). rewrite <- Z.
    destruct k. now left. }
  assert (ND : NoDup (flat_map ids (filter (fun n => negb (n_id n =? i)) (f_roots f)) ++ ids k)).
  { eapply Permutation_NoDup; [exact KP|apply V]. }
  assert (OUT : ~ In i (flat_map ids (filter (fun n => negb (n_id n =? i)) (f_roots f)))).
  { intros J. apply NoDup_app_iff' in ND as (_ & _ & ND). apply (ND i); auto.
    subst i. destruct k. now left. }
  assert (EK : every (fits (live l) (live l) l) [] k).
  { pose proof (v_every _ _ V) as W. rewrite Forall_forall in W. auto. }
  eapply (add_child_fits l o (live l)) in A; cbn [f_kids f_obs f_roots f_tracked] in *.
  - destruct A as (A1 & A2 & A3 & A4 & A5 & A6 & A7).
    apply (inv_added l o f _ k p V KZ L); cbn [f_kids f_roots f_obs f_tracked]; auto.
    + cbn. now rewrite KI.
    + reflexivity.
    + eapply Permutation_NoDup; [apply Permutation_sym, A3|exact ND].
    + intros j. cbn. split; intros J.
      * left. apply (Permutation_in _ A3) in J.
        now apply (Permutation_in _ (Permutation_sym KP)).
      * destruct J as [J|[]]. apply (Permutation_in _ (Permutation_sym A3)).
        now apply (Permutation_in _ KP).
    + apply made_snoc. left. rewrite KI. apply (v_made _ _ V). right.
      apply (Permutation_in _ (Permutation_sym KP)). apply in_or_app. right.
      subst i. destruct k. now left.
    + destruct (v_tracked _ _ V) as [T|T]; auto. right.
      rewrite A6, A5, T, KI. clear.
      induction (f_roots f) as [|n rs IH]; cbn; auto.
      destruct (n_id n =? i); cbn; congruence.
  - apply V.
  - apply V.
  - exact ND.
  - pose proof (v_every _ _ V) as W. rewrite Forall_forall in *. intros n N.
    apply filter_In in N as [N N'].
    rewrite <- L. apply every_quiet; auto. intros j J X. cbn in X.
    injection X as ->. destruct J as [J|[]]. apply OUT. apply in_flat_map.
    exists n. split; auto. apply filter_In. auto.
  - intros j J N. apply same_snoc. cbn. rewrite <- KI. congruence.
  - intros q. rewrite parent_snoc. cbn. split.
    + intros [X|[_ X]]; auto. exfalso.
      destruct k as [i' pv ob s ks]. apply every_eq in EK as [(_ & _ & _ & [EK _] & _) _].
      cbn in X. apply EK in X. discriminate.
    + intros ->. right. now rewrite KI.
  - eapply every_impl; [|exact EK]. intros ups j pv ob s J1 J2 (Q1 & Q2 & Q3 & Q4 & Q5).
    split; [exact Q1|split; [exact Q2|split; [exact Q3|split; [exact Q4|]]]].
    destruct s as [x|].
    + destruct Q5 as (R1 & R2 & R3 & R4 & R5). repeat split.
      * apply source_snoc in H as [H|[]]. now apply R1 in H.
      * apply source_snoc in H as [H|[]]. now apply R1 in H.
      * intros H. apply source_snoc. left. now apply R1.
      * unfold posted in *. rewrite posts_snoc. cbn. now rewrite Nat.add_0_r.
      * rewrite cbs_snoc, app_nil_r. auto.
    + intros ty nm S. apply source_snoc in S as [S|[]]. eapply Q5; eauto.
  - auto.
Qed.

(** ** Steps that change one source or the observers of one node *)

Lemma every_impl_in : forall (Q Q' : list nat -> nat -> bool -> list reg -> option src -> Prop) n ups,
  (forall ups' i p o s, (forall a, In a ups -> In a ups') ->
     Q ups' i p o s -> Q' ups' i p o s) ->
  every Q ups n -> every Q' ups n.
Proof.
  intros Q Q' n. induction n as [i p o s ks F] using node_ind'. intros ups H E.
  apply every_eq in E as [E1 E2]. apply every_eq. split; [apply H; auto|].
  rewrite Forall_forall in *. intros k K. apply F; auto.
  intros ups' j p' o' s' A. apply H. intros a I. apply A. now right.
Qed.

Lemma change_forest : forall i g f, f_kids f = [] ->
  fst (change_all i g f) =
  mkForest (f_obs f) [] (map (fun n => fst (change_node i g n)) (f_roots f))
           (f_tracked f).
Proof.
  intros i g f K. unfold change_all, change_in. rewrite K. cbn.
  now rewrite map_map.
Qed.

Lemma linked_parents : forall l l' path, (forall c q, parent l c q <-> parent l' c q) ->
  linked l path -> linked l' path.
Proof.
  intros l l' path H. induction path as [|i path IH]; cbn; auto.
  intros [A B]. split; auto. intros q. now rewrite <- H.
Qed.

Lemma find_all_in : forall l f i n, inv l f -> find_all i f = Some n ->
  In i (flat_map ids (f_roots f)) /\ n_id n = i.
Proof.
  intros l f i n V E. unfold find_all, all_trees in E. rewrite (v_kids _ _ V) in E.
  cbn in E. apply find_in_some in E as (m & M & E).
  apply find_node_some in E as [E1 E2]. split; auto. apply in_flat_map. eauto.
Qed.

Lemma map_change_ids : forall i g rs, (forall m, ids (fst (g m)) = ids m) ->
  flat_map ids (map (fun n => fst (change_node i g n)) rs) = flat_map ids rs.
Proof.
  intros i g rs H. induction rs as [|n rs IH]; cbn; auto.
  rewrite change_ids, IH; auto.
Qed.

Lemma map_change_id : forall i g rs, (forall m, n_id (fst (g m)) = n_id m) ->
  map n_id (map (fun n => fst (change_node i g n)) rs) = map n_id rs.
Proof.
  intros i g rs H. induction rs as [|n rs IH]; cbn; auto.
  rewrite change_id, IH; auto.
Qed.

Lemma inv_src : forall l f o i g n, inv l f ->
  match o with AddCb j _ _ | Post j _ => j = i | _ => False end ->
  find_all i f = Some n ->
  (forall x, s_type (g x) = s_type x /\ s_name (g x) = s_name x /\
             s_dels (g x) = s_dels x /\ s_pts (g x) = s_pts x /\
             s_seen (g x) = s_seen x) ->
  (forall x, s_posts x = posted l i -> s_posts (g x) = posted (l ++ [o]) i) ->
  (forall x, s_cbs x = cbs l i -> s_cbs (g x) = cbs (l ++ [o]) i) ->
  inv (l ++ [o]) (fst (change_all i (change_src g) f)).
Proof.
  intros l f o i g n V O F G GP GC.
  destruct (find_all_in _ _ _ _ V F) as [FI _].
  rewrite change_forest by apply V.
  assert (I1 : forall m, ids (fst (change_src g m)) = ids m) by now intros [].
  assert (I2 : forall m, n_id (fst (change_src g m)) = n_id m) by now intros [].
  assert (L : live (l ++ [o]) = live l)
    by (rewrite live_snoc; destruct o; tauto).
  assert (P : forall c q, parent l c q <-> parent (l ++ [o]) c q).
  { intros c q. rewrite parent_snoc. destruct o; tauto. }
  assert (Sr : forall c ty nm, source (l ++ [o]) c ty nm <-> source l c ty nm).
  { intros c ty nm. rewrite source_snoc. destruct o; tauto. }
  assert (Po : forall j, j <> i -> posts (l ++ [o]) j = posts l j).
  { intros j J. rewrite posts_snoc. destruct o; try tauto; try lia. subst i0.
    destruct (Nat.eqb_spec i j); [congruence|lia]. }
  assert (Cb : forall j, j <> i -> cbs (l ++ [o]) j = cbs l j).
  { intros j J. rewrite cbs_snoc. destruct o; try tauto; rewrite ?app_nil_r; auto.
    subst i0. destruct (Nat.eqb_spec i j); [congruence|now rewrite app_nil_r]. }
  assert (M : forall j, made (l ++ [o]) j <-> made l j).
  { intros j. rewrite made_snoc. destruct o; tauto. }
  assert (FS : forall ups j p ob s, j <> i -> fits (live l) (live l) l ups j p ob s ->
                 fits (live l) (live l) (l ++ [o]) ups j p ob s).
  { intros ups j p ob s J (Q1 & Q2 & Q3 & Q4 & Q5).
    split; [exact Q1|split; [exact Q2|split; [exact Q3|split]]].
    - eapply linked_parents; [exact P|exact Q4].
    - destruct s as [x|].
      + destruct Q5 as (R1 & R2 & R3 & R4 & R5).
        split; [intros ty nm; rewrite Sr; apply R1|].
        split; [exact R2|split; [exact R3|split]].
        * unfold posted in *. now rewrite Po.
        * now rewrite Cb.
      + intros ty nm. rewrite Sr. apply Q5. }
  constructor; cbn [f_kids f_roots f_obs f_tracked]; rewrite ?L; auto; try apply V.
  - rewrite map_change_ids by auto. apply V.
  - pose proof (v_every _ _ V) as W. rewrite Forall_forall in *. intros n' N.
    apply in_map_iff in N as (m & <- & N).
    apply (every_change _ _ (fits (live l) (live l) l)); auto.
    intros ups [j p ob s ks] E _ Ev. cbn in E. subst j.
    apply every_eq in Ev as [(Q1 & Q2 & Q3 & Q4 & Q5) Ev]. cbn [change_src fst].
    apply every_eq. split.
    + split; [exact Q1|split; [exact Q2|split; [exact Q3|split]]].
      * eapply linked_parents; [exact P|exact Q4].
      * destruct s as [x|]; cbn [option_map].
        -- destruct Q5 as (R1 & R2 & R3 & R4 & R5).
           destruct (G x) as (G1 & G2 & G3 & G4 & G5).
           split; [intros ty nm; rewrite Sr, G1, G2; apply R1|].
           split; [|split; [|split; auto]].
           ++ rewrite G3. eapply perm_trans; [exact R2|].
              assert (Z : forall rs, filter (wants (g x)) rs = filter (wants x) rs).
              { intros rs. apply filter_ext. intros r. unfold wants. now rewrite G1, G2. }
              rewrite Z. auto.
           ++ unfold tidy in *. rewrite G3, G4, G5. exact R3.
        -- intros ty nm. rewrite Sr. apply Q5.
    + rewrite Forall_forall in *. intros k K.
      eapply every_impl_in; [|apply Ev, K].
      intros ups' j p' ob' s' A Q. apply FS; auto.
      destruct Q as (_ & ND & _). intros ->.
      apply NoDup_cons_iff in ND as [ND _]. apply ND. apply in_or_app. left.
      apply A. now left.
  - intros r R. rewrite M. now apply (v_at _ _ V).
  - intros j. rewrite M, map_change_ids by auto. apply V.
  - intros c p Q. rewrite M. apply P in Q. eapply v_parent; eauto.
  - intros p Q. apply P in Q. eapply v_zero; eauto.
  - intros j J. rewrite M in J. assert (j <> i).
    { intros ->. apply J. apply (v_made _ _ V). auto. }
    rewrite Po, Cb by auto. now apply (v_fresh _ _ V).
  - rewrite map_change_id by auto. apply V.
Qed.

Lemma step_cb : forall l f i c cb f' e, inv l f ->
  step glob f (AddCb i c cb) = (f', true, e) -> inv (l ++ [AddCb i c cb]) f'.
Proof.
  intros l f i c cb f' e V E. cbn [step] in E.
  destruct (find_all i f) as [[j p o [s|] ks]|] eqn:F; try discriminate.
  destruct (existsb _ (s_cbs s)); [discriminate|]. injection E as <- <-.
  eapply inv_src; [eauto|reflexivity|exact F|intros x; cbn; auto| |].
  - intros x X. cbn. unfold posted. rewrite posts_snoc, Nat.add_0_r. exact X.
  - intros x X. cbn. rewrite cbs_snoc, Nat.eqb_refl. now rewrite X.
Qed.

Lemma step_post : forall l f i d f' e, inv l f ->
  step glob f (Post i d) = (f', true, e) -> inv (l ++ [Post i d]) f'.
Proof.
  intros l f i d f' e V E. cbn [step] in E. unfold post in E.
  destruct (find_all i f) as [[j p o [s|] ks]|] eqn:F; try discriminate.
  injection E as <- <-.
  eapply inv_src; [eauto|reflexivity|exact F|intros x; cbn; auto| |].
  - intros x X. cbn [s_posts]. rewrite X. unfold posted.
    rewrite posts_snoc, Nat.eqb_refl, Nat2N.inj_add. change (N.of_nat 1) with 1%N.
    rewrite N.add_mod_idemp_l by discriminate. reflexivity.
  - intros x X. cbn. now rewrite cbs_snoc, app_nil_r.
Qed.

(** Broadcasting from the virtual global node when the parentless nodes are
    the roots: every tree is treated once. *)
Lemma fold_roots : forall ty names h rs rs1 ob e tr,
  NoDup (flat_map ids (rs1 ++ rs)) ->
  fold_left (fun acc j =>
     let (f', e) := change_all j (broadcast glob ty names h) (fst acc) in
     (f', (snd acc ++ e)%list))
    (map n_id rs) (mkForest ob [] (rs1 ++ rs) tr, e) =
  (mkForest ob [] (rs1 ++ map (fun n => fst (broadcast glob ty names h n)) rs) tr,
   e ++ List.concat (map (fun n => snd (broadcast glob ty names h n)) rs)).
Proof.
  intros ty names h rs. induction rs as [|n rs IH]; intros rs1 ob e tr ND.
  - cbn. rewrite !app_nil_r. reflexivity.
  - cbn [map fold_left fst snd].
    assert (C : change_all (n_id n) (broadcast glob ty names h)
                  (mkForest ob [] (rs1 ++ n :: rs) tr) =
      (mkForest ob [] ((rs1 ++ [fst (broadcast glob ty names h n)]) ++ rs) tr,
       snd (broadcast glob ty names h n))).
    { rewrite flat_map_app in ND. cbn in ND.
      apply NoDup_app_iff' in ND as (_ & ND & D).
      apply NoDup_app_iff' in ND as (_ & _ & D2).
      assert (IN : In (n_id n) (ids n)) by (destruct n; now left).
      assert (O1 : ~ In (n_id n) (flat_map ids rs1)).
      { intros I. apply (D _ I). apply in_or_app. auto. }
      assert (O2 : ~ In (n_id n) (flat_map ids rs)) by (intros I; apply (D2 _ IN I)).
      unfold change_all. cbn [f_kids f_roots f_obs f_tracked].
      change (change_in (n_id n) (broadcast glob ty names h) []) with
        (@nil node, @nil event). cbn [map].
      pose proof (change_in_out (n_id n) (broadcast glob ty names h) rs1 O1) as C1.
      pose proof (change_in_out (n_id n) (broadcast glob ty names h) rs O2) as C2.
      unfold change_in in *. rewrite !map_app. cbn [map].
      injection C1 as C1 C1'. injection C2 as C2 C2'.
      rewrite concat_app. cbn [List.concat].
      rewrite C1, C1', C2, C2'. cbn.
      assert (Z : change_node (n_id n) (broadcast glob ty names h) n =
                  broadcast glob ty names h n).
      { destruct n. cbn [change_node n_id]. now rewrite Nat.eqb_refl. }
      rewrite Z, app_nil_r, <- app_assoc. reflexivity. }
    rewrite C. cbn [fst snd]. rewrite IH.
    + rewrite <- !app_assoc. reflexivity.
    + rewrite !flat_map_app in *. cbn in *. rewrite app_nil_r, broadcast_ids.
      now rewrite <- app_assoc.
Qed.

(** Broadcasting from the virtual global node, whatever is tracked. *)
Lemma fold_every : forall ty names h
  (Q : list nat -> nat -> bool -> list reg -> option src -> Prop) tr f e,
  f_kids f = [] ->
  (forall ups i p o s, Q ups i p o s -> p = false) ->
  (forall ups i p o x, Q ups i p o (Some x) -> Q ups i p o (Some (fst (h i x)))) ->
  Forall (every Q []) (f_roots f) ->
  let f' := fst (fold_left (fun acc j =>
     let (f', e) := change_all j (broadcast glob ty names h) (fst acc) in
     (f', (snd acc ++ e)%list)) tr (f, e)) in
  f_kids f' = [] /\ f_obs f' = f_obs f /\ f_tracked f' = f_tracked f /\
  flat_map ids (f_roots f') = flat_map ids (f_roots f) /\
  map n_id (f_roots f') = map n_id (f_roots f) /\
  Forall (every Q []) (f_roots f').
Proof.
  intros ty names h Q tr. induction tr as [|j tr IH]; intros f e K P H F.
  - cbn. repeat split; auto.
  - cbn [fold_left fst snd].
    pose proof (change_forest j (broadcast glob ty names h) f K) as C.
    destruct (change_all j (broadcast glob ty names h) f) as [f1 e1]. cbn in C. subst f1.
    specialize (IH (mkForest (f_obs f) []
      (map (fun n => fst (change_node j (broadcast glob ty names h) n)) (f_roots f))
      (f_tracked f)) (e ++ e1)).
    cbn [f_kids f_roots f_obs f_tracked] in IH. cbn zeta in *.
    destruct IH as (A1 & A2 & A3 & A4 & A5 & A6); auto.
    + rewrite Forall_forall in *. intros m M. apply in_map_iff in M as (n & <- & N).
      assert (G : forall n ups, every Q ups n ->
                  every Q ups (fst (broadcast glob ty names h n))).
      { intros m ups E. apply (every_broadcast Q Q ty names h 0); auto.
        - intros ups' i p o x _ X. destruct (existsb _ _); auto.
        - right. apply in_or_app. right. now left. }
      apply (every_change _ _ Q Q); auto.
    + repeat split; auto.
      * rewrite A4. apply map_change_ids. intros. apply broadcast_ids.
      * rewrite A5. apply map_change_id. intros. apply broadcast_id.
Qed.

(** Nothing but the observers changes in the history. *)
Lemma fits_hist : forall l o Lo Ld ups i p ob s, subject o = None ->
  fits Lo Ld l ups i p ob s -> fits Lo Ld (l ++ [o]) ups i p ob s.
Proof.
  intros l o Lo Ld ups i p ob s S. apply fits_same; auto.
  intros j _. apply same_snoc. congruence.
Qed.

Lemma inv_obs : forall l o f f',
  inv l f -> match o with Reg _ _ | Dereg _ => True | _ => False end ->
  NoDup (live (l ++ [o])) -> (forall r, In r (live (l ++ [o])) -> made l (r_at r)) ->
  f_kids f' = [] -> f_tracked f' = f_tracked f ->
  f_obs f' = at_ (live (l ++ [o])) 0 ->
  flat_map ids (f_roots f') = flat_map ids (f_roots f) ->
  map n_id (f_roots f') = map n_id (f_roots f) ->
  Forall (every (fits (live (l ++ [o])) (live (l ++ [o])) (l ++ [o])) []) (f_roots f') ->
  inv (l ++ [o]) f'.
Proof.
  intros l o f f' V O N A K T OB I1 I2 F.
  assert (M : forall j, made (l ++ [o]) j <-> made l j).
  { intros j. rewrite made_snoc. destruct o; tauto. }
  constructor; auto.
  - rewrite I1. apply V.
  - intros r R. apply M. auto.
  - intros i. rewrite M, I1. apply V.
  - intros c p Q. apply M. apply (v_parent _ _ V c p).
    apply parent_snoc in Q. destruct o; tauto.
  - intros p Q. apply (v_zero _ _ V p). apply parent_snoc in Q. destruct o; tauto.
  - intros i J. rewrite M in J. rewrite posts_snoc, cbs_snoc.
    destruct o; try tauto; rewrite Nat.add_0_r, app_nil_r; now apply V.
  - rewrite T, I2. apply V.
Qed.

Lemma wants_names : forall r x,
  existsb (fun q => can_gen glob (r_type r) q x) [r_name r] = wants x r.
Proof. intros r x. cbn [existsb]. now rewrite orb_false_r, can_gen_wants. Qed.

(** A registration or deregistration at a node other than the virtual global
    one: [h] is what happens to a source. *)
Lemma every_at : forall L L' Lo l r h n,
  r_at r <> 0 ->
  (forall path, ~ In (r_at r) path -> along L' path = along L path) ->
  (forall ups i p o x, In (r_at r) (i :: ups ++ [0]) ->
     fits Lo L l ups i p o (Some x) ->
     fits Lo L' l ups i p o (Some (if wants x r then fst (h i x) else x))) ->
  every (fits Lo L l) [] n ->
  every (fits Lo L' l) []
    (fst (change_node (r_at r) (broadcast glob (r_type r) [r_name r] h) n)).
Proof.
  intros L L' Lo l r h n Z A H E.
  apply (every_change _ _ (fits Lo L l)); auto.
  - intros ups i p o s I U F. eapply fits_same; [| | |exact F].
    + intros j _. repeat split; auto.
    + reflexivity.
    + rewrite A; auto. intros [->|J]; auto.
      apply in_app_or in J as [J|[J|[]]]; auto.
  - intros ups m M U F.
    apply (every_broadcast (fits Lo L l) _ _ _ _ (r_at r)); [| | | |exact F].
    + intros ups' i p o s (Q & _). exact Q.
    + intros ups' i p o _ Q. exact Q.
    + intros ups' i p o x X Q. rewrite wants_names. now apply H.
    + now left.
Qed.

(** Changing the observers on one node. *)
Lemma every_obs : forall Lo Lo' Ld l g i0 n,
  (forall i, i <> i0 -> at_ Lo' i = at_ Lo i) ->
  g (at_ Lo i0) = at_ Lo' i0 ->
  every (fits Lo Ld l) [] n ->
  every (fits Lo' Ld l) [] (fst (change_node i0 (change_obs g) n)).
Proof.
  intros Lo Lo' Ld l g i0 n A G E.
  assert (FS : forall ups i p o s, i <> i0 -> fits Lo Ld l ups i p o s ->
               fits Lo' Ld l ups i p o s).
  { intros ups i p o s I F. eapply fits_same; [| | |exact F]; auto.
    intros j _. repeat split; auto. symmetry. auto. }
  apply (every_change _ _ (fits Lo Ld l)); auto.
  intros ups [j p ob s ks] J _ Ev. cbn in J. subst j.
  apply every_eq in Ev as [(Q1 & Q2 & Q3 & Q4 & Q5) Ev]. cbn [change_obs fst].
  apply every_eq. split.
  - split; [exact Q1|split; [exact Q2|split; [|split; [exact Q4|exact Q5]]]].
    now rewrite Q3.
  - rewrite Forall_forall in *. intros k K.
    eapply every_impl_in; [|apply Ev, K].
    intros ups' j p' ob' s' B Q. apply FS; auto.
    destruct Q as (_ & ND & _). intros ->.
    apply NoDup_cons_iff in ND as [ND _]. apply ND. apply in_or_app. left.
    apply B. now left.
Qed.

Lemma obs_at_live : forall l f i o, inv l f -> obs_at i f = Some o ->
  made l i /\ o = at_ (live l) i.
Proof.
  intros l f i o V E. unfold obs_at in E. destruct (Nat.eqb_spec i 0) as [->|Z].
  - injection E as <-. split; [now left|apply V].
  - destruct (find_all i f) as [[j p ob s ks]|] eqn:F; [|discriminate].
    injection E as <-. destruct (find_all_in _ _ _ _ V F) as [FI E]. cbn in E. subst j.
    split; [apply (v_made _ _ V); auto|].
    unfold find_all, all_trees in F. rewrite (v_kids _ _ V) in F. cbn in F.
    apply find_in_some in F as (n & N & F). pose proof (v_every _ _ V) as W.
    rewrite Forall_forall in W. destruct (find_every _ _ _ _ _ (W _ N) F) as (t & Q).
    apply every_eq in Q as [(_ & _ & Q & _) _]. exact Q.
Qed.

Lemma obs_at_none : forall l f i, inv l f -> obs_at i f = None -> ~ made l i.
Proof.
  intros l f i V E M. apply (known_made _ _ _ V) in M. unfold known in M.
  unfold obs_at in E. destruct (i =? 0); [discriminate|].
  destruct (find_all i f); discriminate.
Qed.

Lemma keep_at_zero : forall r, (forall r, keep r = true -> r_at r <> 0) ->
  r_at r = 0 -> keep r = false.
Proof.
  intros r H Z. destruct (keep r) eqn:K; auto. exfalso. eapply H; eauto.
Qed.

Lemma keep_snoc : forall L r path, keep r = false ->
  filter keep (along (L ++ [r]) path) = filter keep (along L path).
Proof.
  intros L r path K. unfold along. induction path as [|i path IH]; cbn; auto.
  rewrite at_snoc, !filter_app, IH. destruct (r_at r =? i); cbn; rewrite ?K; now rewrite app_nil_r.
Qed.

Lemma keep_drop : forall L r path, keep r = false ->
  filter keep (along (filter (fun x => negb (reg_eqb r x)) L) path) =
  filter keep (along L path).
Proof.
  intros L r path K. unfold along. induction path as [|i path IH]; cbn; auto.
  rewrite !filter_app, IH. f_equal. unfold at_. rewrite (filter_comm _ _ _ L).
  generalize (filter (fun r => r_at r =? i) L) as M. clear -K.
  induction M as [|x M IH]; cbn; auto. destruct (reg_eqb r x) eqn:E; cbn.
  - apply reg_eqb_eq in E. subst. now rewrite K.
  - now rewrite IH.
Qed.

Lemma zero_not_in : forall Lo Ld l ups i p o s, fits Lo Ld l ups i p o s -> i <> 0.
Proof.
  intros Lo Ld l ups i p o s (_ & ND & _) ->. apply NoDup_cons_iff in ND as [ND _].
  apply ND. apply in_or_app. right. now left.
Qed.

Lemma step_reg : forall l f r b f' e, inv l f -> clean (Reg r b) ->
  step glob f (Reg r b) = (f', true, e) -> inv (l ++ [Reg r b]) f'.
Proof.
  intros l f r b f' e V C E. cbn [clean] in C. cbn [step] in E. unfold register in E.
  destruct (obs_at (r_at r) f) as [o|] eqn:O; [|discriminate].
  destruct (obs_at_live _ _ _ _ V O) as [M ->]. clear O.
  destruct (b && _); [discriminate|].
  destruct (existsb (reg_eqb r) _) eqn:X; [discriminate|].
  assert (NI : ~ In r (live l)).
  { intros I. assert (Y : existsb (reg_eqb r) (at_ (live l) (r_at r)) = true).
    - apply existsb_reg. apply filter_In. split; auto. apply Nat.eqb_refl.
    - congruence. }
  rewrite C in E.
  destruct (broadcast_at _ _ _ _ _ _) as [f2 e2] eqn:B. injection E as <- <-.
  set (o := Reg r b) in *.
  assert (L : live (l ++ [o]) = live l ++ [r]) by apply live_snoc.
  assert (N : NoDup (live (l ++ [o]))).
  { rewrite L. apply NoDup_app_iff'. repeat split; [apply V|repeat constructor; tauto|].
    intros x I [<-|[]]. auto. }
  assert (A : forall q, In q (live (l ++ [o])) -> made l (r_at q)).
  { intros q Q. rewrite L in Q. apply in_app_or in Q as [Q|[<-|[]]]; auto.
    now apply (v_at _ _ V). }
  rewrite L in N, A.
  assert (SO : subject o = None) by reflexivity.
  pose proof (v_every _ _ V) as W. rewrite Forall_forall in W.
  unfold broadcast_at in B. unfold set_obs in B.
  destruct (Nat.eqb_spec (r_at r) 0) as [Z|Z].
  - cbn [f_tracked] in B.
    assert (W1 : Forall (every (fits (live l ++ [r]) (live l) (l ++ [o])) []) (f_roots f)).
    { rewrite Forall_forall. intros n I. eapply every_impl; [|apply W, I].
      intros ups i p ob s _ _ F. eapply fits_same; [| | |apply (fits_hist l o), F]; auto.
      - intros j _. repeat split; auto.
      - rewrite at_snoc. destruct (Nat.eqb_spec (r_at r) i).
        + exfalso. apply (zero_not_in _ _ _ _ _ _ _ _ F). congruence.
        + now rewrite app_nil_r. }
    assert (OB : f_obs f ++ [r] = at_ (live l ++ [r]) 0).
    { rewrite at_snoc, Z, (v_obs _ _ V). reflexivity. }
    destruct (v_tracked _ _ V) as [T|T].
    + pose proof (keep_at_zero r T Z) as K.
      pose proof (fold_every (r_type r) [r_name r] (added r)
        (fits (live l ++ [r]) (live l) (l ++ [o])) (f_tracked f)
        (mkForest (f_obs f ++ [r]) (f_kids f) (f_roots f) (f_tracked f)) []) as G.
      cbn [f_kids f_roots f_obs f_tracked] in G. rewrite B in G.
      cbn [fst] in G. destruct G as (G1 & G2 & G3 & G4 & G5 & G6); auto.
      * apply V.
      * intros ups i p ob s (Q & _). exact Q.
      * intros ups i p ob x Q. now apply added_fits_out.
      * apply (inv_obs l o f _ V Logic.I); rewrite ?L in *; auto; try congruence.
        rewrite Forall_forall in *. intros n I. eapply every_impl; [|apply G6, I].
        intros ups i p ob s _ _ F. eapply fits_same; [| | |exact F]; auto.
        -- intros j _. repeat split; auto.
        -- rewrite keep_snoc; auto.
    + rewrite T in B. rewrite (v_kids _ _ V) in B.
      change (f_roots f) with ([] ++ f_roots f) in B at 2.
      rewrite fold_roots in B by (apply V). cbn [app] in B. injection B as <- <-.
      apply (inv_obs l o f _ V Logic.I); cbn [f_kids f_roots f_obs f_tracked]; rewrite ?L; auto.
      * rewrite flat_map_concat_map, map_map, flat_map_concat_map. f_equal.
        apply map_ext. intros. apply broadcast_ids.
      * rewrite map_map. apply map_ext. intros. apply broadcast_id.
      * rewrite Forall_forall in *. intros n I. apply in_map_iff in I as (m & <- & I).
        apply (every_broadcast (fits (live l ++ [r]) (live l) (l ++ [o])) _ _ _ _ 0);
          [| | | |apply W1, I].
        -- intros ups' i p ob s (Q & _). exact Q.
        -- intros ups' i p ob _ Q. exact Q.
        -- intros ups' i p ob x X' Q. rewrite wants_names. apply added_fits; auto.
           now rewrite Z.
        -- right. now left.
  - rewrite change_forest in B by apply V.
    pose proof (f_equal fst B) as B'. cbn [fst] in B'.
    rewrite change_forest in B' by reflexivity. subst f2.
    cbn [f_kids f_roots f_obs f_tracked].
    assert (I1 : forall g m, ids (fst (change_obs g m)) = ids m) by now intros g [].
    assert (I2 : forall g m, n_id (fst (change_obs g m)) = n_id m) by now intros g [].
    apply (inv_obs l o f _ V Logic.I); cbn [f_kids f_roots f_obs f_tracked]; rewrite ?L; auto.
    + rewrite at_snoc. destruct (Nat.eqb_spec (r_at r) 0); [congruence|].
      rewrite app_nil_r. apply V.
    + rewrite map_change_ids by (intros; apply broadcast_ids). now rewrite map_change_ids.
    + rewrite map_change_id by (intros; apply broadcast_id). now rewrite map_change_id.
    + rewrite Forall_forall. intros n I. apply in_map_iff in I as (m & <- & I).
      apply in_map_iff in I as (k & <- & I).
      apply (every_at (live l) (live l ++ [r])); auto.
      * intros path P. now apply along_snoc_out.
      * intros ups i p ob x P Q. now apply added_fits.
      * apply (every_obs (live l)).
        -- intros i J. rewrite at_snoc. destruct (Nat.eqb_spec (r_at r) i); [congruence|].
           now rewrite app_nil_r.
        -- now rewrite at_snoc, Nat.eqb_refl.
        -- eapply every_impl; [|apply W, I]. intros ups i p ob s _ _ F.
           now apply fits_hist.
Qed.

Lemma step_dereg : forall l f r f' e, inv l f -> clean (Dereg r) ->
  step glob f (Dereg r) = (f', true, e) -> inv (l ++ [Dereg r]) f'.
Proof.
  intros l f r f' e V C E. cbn [clean] in C. cbn [step] in E. unfold deregister in E.
  destruct (obs_at (r_at r) f) as [o|] eqn:O; [|discriminate].
  destruct (obs_at_live _ _ _ _ V O) as [M ->]. clear O.
  destruct (existsb (reg_eqb r) _) eqn:X; [|discriminate]. cbn [negb] in E.
  assert (NI : In r (live l)).
  { apply existsb_reg in X. apply filter_In in X. tauto. }
  rewrite C in E.
  destruct (broadcast_at _ _ _ _ _ _) as [f2 e2] eqn:B. injection E as <- <-.
  set (o := Dereg r) in *. set (L' := filter (fun x => negb (reg_eqb r x)) (live l)).
  assert (L : live (l ++ [o]) = L') by apply live_snoc.
  assert (N : NoDup L') by (apply NoDup_filter, V).
  assert (A : forall q, In q L' -> made l (r_at q)).
  { intros q Q. apply filter_In in Q as [Q _]. now apply (v_at _ _ V). }
  assert (SO : subject o = None) by reflexivity.
  assert (ER : forall i, r_at r = i -> erase (reg_eqb r) (at_ (live l) i) = at_ L' i).
  { intros i <-. rewrite erase_filter by (apply NoDup_filter, V).
    unfold at_, L'. apply filter_comm. }
  pose proof (v_every _ _ V) as W. rewrite Forall_forall in W.
  assert (W1 : Forall (every (fits (live l) (live l) (l ++ [o])) []) (f_roots f)).
  { rewrite Forall_forall. intros n I. eapply every_impl; [|apply W, I].
    intros ups i p ob s _ _ F. now apply fits_hist. }
  unfold broadcast_at in B. unfold set_obs.
  destruct (Nat.eqb_spec (r_at r) 0) as [Z|Z].
  - assert (WE : forall rs, Forall (every (fits (live l) L' (l ++ [o])) []) rs ->
                 Forall (every (fits L' L' (l ++ [o])) []) rs).
    { intros rs. rewrite !Forall_forall. intros Q n I. eapply every_impl; [|apply Q, I].
      intros ups i p ob s _ _ F. eapply fits_same; [| | |exact F]; auto.
      - intros j _. repeat split; auto.
      - symmetry. apply at_drop. rewrite Z. intros <-.
        apply (zero_not_in _ _ _ _ _ _ _ _ F). reflexivity. }
    destruct (v_tracked _ _ V) as [T|T].
    + pose proof (keep_at_zero r T Z) as K.
      pose proof (fold_every (r_type r) [r_name r] (removed r)
        (fits (live l) (live l) (l ++ [o])) (f_tracked f) f []) as G.
      rewrite B in G.
      cbn [fst] in G. destruct G as (G1 & G2 & G3 & G4 & G5 & G6); auto.
      * apply V.
      * intros ups i p ob s (Q & _). exact Q.
      * intros ups i p ob x Q. now apply removed_fits_out.
      * apply (inv_obs l o f _ V Logic.I); cbn [f_kids f_roots f_obs f_tracked]; rewrite ?L; auto.
        -- rewrite G2, (v_obs _ _ V). auto.
        -- apply WE. rewrite Forall_forall in *. intros n I.
           eapply every_impl; [|apply G6, I].
           intros ups i p ob s _ _ F. eapply fits_same; [| | |exact F]; auto.
           ++ intros j _. repeat split; auto.
           ++ unfold L'. rewrite keep_drop; auto.
    + assert (FE : f = mkForest (f_obs f) [] ([] ++ f_roots f) (f_tracked f)).
      { destruct f. cbn. f_equal. apply (v_kids _ _ V). }
      rewrite T in B. rewrite FE in B at 2.
      rewrite fold_roots in B by (apply V). cbn [app] in B. injection B as <- <-.
      apply (inv_obs l o f _ V Logic.I); cbn [f_kids f_roots f_obs f_tracked]; rewrite ?L; auto.
      * rewrite (v_obs _ _ V). auto.
      * rewrite flat_map_concat_map, map_map, flat_map_concat_map. f_equal.
        apply map_ext. intros. apply broadcast_ids.
      * rewrite map_map. apply map_ext. intros. apply broadcast_id.
      * apply WE. rewrite Forall_forall in *. intros n I. apply in_map_iff in I as (m & <- & I).
        apply (every_broadcast (fits (live l) (live l) (l ++ [o])) _ _ _ _ 0);
          [| | | |apply W1, I].
        -- intros ups' i p ob s (Q & _). exact Q.
        -- intros ups' i p ob _ Q. exact Q.
        -- intros ups' i p ob x X' Q. rewrite wants_names.
           apply removed_fits; auto; [apply V|now rewrite Z].
        -- right. now left.
  - pose proof (f_equal fst B) as B'. cbn [fst] in B'.
    rewrite change_forest in B' by apply V. subst f2.
    rewrite change_forest by reflexivity.
    cbn [f_kids f_roots f_obs f_tracked].
    assert (I1 : forall g m, ids (fst (change_obs g m)) = ids m) by now intros g [].
    assert (I2 : forall g m, n_id (fst (change_obs g m)) = n_id m) by now intros g [].
    apply (inv_obs l o f _ V Logic.I); cbn [f_kids f_roots f_obs f_tracked]; rewrite ?L; auto.
    + unfold L'. rewrite at_drop by auto. apply V.
    + rewrite map_change_ids by auto. now rewrite map_change_ids by (intros; apply broadcast_ids).
    + rewrite map_change_id by auto. now rewrite map_change_id by (intros; apply broadcast_id).
    + rewrite Forall_forall. intros n I. apply in_map_iff in I as (m & <- & I).
      apply in_map_iff in I as (k & <- & I).
      apply (every_obs (live l)); auto.
      * intros i J. unfold L'. apply at_drop. auto.
      * apply (every_at (live l) L'); auto.
        -- intros path P. now apply along_drop_out.
        -- intros ups i p ob x P Q. apply removed_fits; auto. apply V.
        -- rewrite Forall_forall in W1. auto.
Qed.

(** ** Histories *)

Lemma refused_same : forall f o f' e, clean o ->
  step glob f o = (f', false, e) -> f' = f /\ e = [].
Proof.
  intros f o f' e C E. destruct o; cbn [step clean] in *.
  - destruct (known i f); [|discriminate]. injection E as <- <-. auto.
  - destruct (known i f); [injection E as <- <-; auto|].
    destruct (add_child glob _ _ _); [discriminate|]. injection E as <- <-. auto.
  - destruct (known i f); [injection E as <- <-; auto|].
    destruct (add_child glob _ _ _); [discriminate|]. injection E as <- <-. auto.
  - destruct (find _ _); [|injection E as <- <-; auto].
    destruct (find_node _ _); [injection E as <- <-; auto|].
    destruct (add_child glob _ _ _); [discriminate|]. injection E as <- <-. auto.
  - destruct (find_all i f) as [[j p o [s|] ks]|]; try (injection E as <- <-; auto; fail).
    destruct (existsb _ _); [injection E as <- <-; auto|discriminate].
  - unfold register in E. destruct (obs_at _ _); [|injection E as <- <-; auto].
    destruct (ensure && _); [injection E as <- <-; auto|].
    destruct (existsb _ _); [injection E as <- <-; auto|]. rewrite C in E.
    destruct (broadcast_at _ _ _ _ _ _). discriminate.
  - unfold deregister in E. destruct (obs_at _ _); [|injection E as <- <-; auto].
    destruct (existsb _ _); cbn [negb] in E; [|injection E as <- <-; auto].
    rewrite C in E. destruct (broadcast_at _ _ _ _ _ _). discriminate.
  - unfold post in E.
    destruct (find_all i f) as [[j p o [s|] ks]|]; try (injection E as <- <-; auto; fail).
    discriminate.
Qed.

(** A node constructed with its parent given. *)
Definition child (o : op) : Prop := match o with NewChild _ _ => True | _ => False end.

Lemma step_inv : forall l f o f' e, inv l f -> clean o ->
  ((forall r, keep r = true -> r_at r <> 0) \/ ~ child o) ->
  step glob f o = (f', true, e) -> inv (l ++ [o]) f'.
Proof.
  intros l f o f' e V C K E. destruct o.
  - eapply step_new; eauto.
  - destruct K as [K|K]; [eapply step_child; eauto|cbn in K; tauto].
  - eapply step_source; eauto.
  - eapply step_attach; eauto.
  - eapply step_cb; eauto.
  - eapply step_reg; eauto.
  - eapply step_dereg; eauto.
  - eapply step_post; eauto.
Qed.

(** The operations of a history that went through. *)
Fixpoint went (h : list op) (out : list (bool * list event)) : list op :=
  match h, out with
  | o :: h', (b, _) :: out' => if b then o :: went h' out' else went h' out'
  | _, _ => []
  end.

Lemma run_inv : forall h l f f' out, inv l f -> Forall clean h ->
  ((forall r, keep r = true -> r_at r <> 0) \/ Forall (fun o => ~ child o) h) ->
  run glob f h = (f', out) -> inv (l ++ went h out) f'.
Proof.
  induction h as [|o h IH]; intros l f f' out V C K E; cbn in E.
  - injection E as <- <-. cbn. now rewrite app_nil_r.
  - destruct (step glob f o) as [[f1 b] e] eqn:S.
    destruct (run glob f1 h) as [f2 out'] eqn:R. injection E as <- <-.
    inversion C as [|? ? C1 C2]; subst.
    assert (K1 : (forall r, keep r = true -> r_at r <> 0) \/ ~ child o).
    { destruct K as [K|K]; auto. inversion K; auto. }
    assert (K2 : (forall r, keep r = true -> r_at r <> 0) \/ Forall (fun o => ~ child o) h).
    { destruct K as [K|K]; auto. inversion K; auto. }
    destruct b; cbn [went].
    + rewrite (app_assoc l [o] (went h out') : l ++ o :: went h out' = _).
      eapply IH; eauto. eapply step_inv; eauto.
    + apply refused_same in S as [-> _]; auto. eapply IH; eauto.
Qed.

Lemma inv_nothing : inv [] nothing.
Proof.
  constructor; cbn; auto.
  - constructor.
  - constructor.
  - intros r [].
  - intros i. unfold made. cbn. firstorder.
  - intros c p. unfold parent. cbn. firstorder.
  - intros p. unfold parent. cbn. firstorder.
Qed.

Lemma linked_below : forall l ups i a, linked l (i :: ups) ->
  (below l i a <-> In a (i :: ups)).
Proof.
  intros l ups. induction ups as [|u ups IH]; intros i a [P L].
  - split.
    + intros B. inversion B as [|? p ? Q _]; subst; [now left|].
      apply P in Q. discriminate.
    + intros [<-|[]]. constructor.
  - split.
    + intros B. inversion B as [|? p ? Q B']; subst; [now left|].
      apply P in Q. cbn in Q. injection Q as <-. right. now apply IH.
    + intros [<-|I]; [constructor|]. econstructor; [apply P; reflexivity|].
      now apply IH.
Qed.

Lemma every_find : forall Q n ups j, every Q ups n -> In j (ids n) ->
  exists ups' p o s, Q ups' j p o s /\
    (forall a, In a (n_id n :: ups) -> In a (j :: ups')).
Proof.
  intros Q n. induction n as [i p o s ks F] using node_ind'. intros ups j E I.
  apply every_eq in E as [E1 E2]. cbn [n_id]. destruct I as [<-|I].
  - exists ups, p, o, s. auto.
  - apply in_flat_map in I as (k & K & I). rewrite Forall_forall in F, E2.
    destruct (F k K _ _ (E2 k K) I) as (u & p' & o' & s' & A & B).
    exists u, p', o', s'. split; auto.
    intros a A'. apply B. now right.
Qed.

End Inv.
