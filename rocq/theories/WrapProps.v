(** C86: a ValidValue is an optional value; a LockedValue keeps its value. *)
From Coq Require Import List Bool Arith Lia.
From Verif Require Import WrapModel.
Import ListNotations.

(** Description: each object is a value or nothing. The result is None where
    nothing is promised: a comparison with an object that has no value. *)
Definition d_get {T} (x : option T) : res T := match x with Some v => Val v | None => Throw end.
Definition d_step {T} (t : typ T) (m : nat -> option T) (o : vop T) : (nat -> option T) * option (res T) :=
  match o with
  | VNew i => (put m i None, Some Done)
  | VMake i v => (put m i (Some v), Some Done)
  | VCopyC i j | VCopy i j => (put m i (m j), Some Done)
  | VMoveC i j => (put (put m j None) i (m j), Some Done)
  | VMove i j =>
      (if Nat.eqb i j then put m i (option_map (self t) (m i)) else put (put m j (option_map (gone t) (m j))) i (m j),
       Some Done)
  | VSet i v | VSetMove i v => (put m i (Some v), Some (Val v))
  | VEq i v => (m, Some (match m i with Some a => Is (eqb t a v) | None => Throw end))
  | VNe i v => (m, Some (match m i with Some a => Is (negb (eqb t a v)) | None => Throw end))
  | VEqV i j => (m, match m i, m j with Some a, Some b => Some (Is (eqb t a b)) | Some _, None => None | None, _ => Some Throw end)
  | VNeV i j => (m, match m i, m j with Some a, Some b => Some (Is (negb (eqb t a b))) | Some _, None => None | None, _ => Some Throw end)
  | VIsValid i => (m, Some (Is (match m i with Some _ => true | None => false end)))
  | VConv i | VGet i => (m, Some (d_get (m i)))
  | VWrite i v => match m i with Some _ => (put m i (Some v), Some Done) | None => (m, Some Throw) end
  | VClear i => (put m i None, Some Done)
  end.
Fixpoint d_run {T} (t : typ T) (m : nat -> option T) (l : list (vop T)) : (nat -> option T) * list (option (res T)) :=
  match l with
  | [] => (m, [])
  | o :: k => let (m1, r) := d_step t m o in let (m2, rs) := d_run t m1 k in (m2, r :: rs)
  end.
(** What an object is in the description. *)
Definition opt {T} (x : vv T) : option T := if v_valid x then Some (v_val x) else None.
(** The result is the one promised, if one is. *)
Definition meets {T} (r : res T) (d : option (res T)) : Prop := match d with Some e => r = e | None => True end.

Lemma step_ok {T} (t : typ T) m d o : (forall k, opt (m k) = d k) ->
  (forall k, opt (fst (v_step t m o) k) = fst (d_step t d o) k) /\ meets (snd (v_step t m o)) (snd (d_step t d o)).
Proof.
  intros H. destruct o as [i|i v|i j|i j|i j|i j|i v|i v|i v|i v|i j|i j|i|i|i|i v|i]; cbn;
    try rewrite <- !H; unfold v_get, v_eq, v_eqv.
  all: try (destruct (Nat.eqb_spec i j)).
  all: try (destruct (m i) as [[] a] eqn:Ei); cbn.
  all: try (destruct (m j) as [[] b] eqn:Ej); cbn.
  all: split; auto.
  all: intros k; unfold put; try (destruct (Nat.eqb k i)); try (destruct (Nat.eqb k j)); cbn; auto.
Qed.

(** Whatever is constructed, copied, moved, assigned, cleared, compared and read:
    the objects hold what optional values hold, and each call gives what it gives
    for optional values, with a failed assertion where there is none. *)
Theorem C86_refines : forall T (t : typ T) l m d, (forall k, opt (m k) = d k) ->
  (forall k, opt (fst (v_run t m l) k) = fst (d_run t d l) k) /\
  Forall2 meets (snd (v_run t m l)) (snd (d_run t d l)).
Proof.
  intros T t. induction l as [|o l IH]; intros m d H; cbn; [auto|].
  destruct (step_ok t m d o H) as [A B].
  destruct (v_step t m o) as [m1 r]. destruct (d_step t d o) as [d1 e]. cbn in A, B.
  destruct (IH m1 d1 A) as [C D].
  destruct (v_run t m1 l). destruct (d_run t d1 l). cbn in *. auto.
Qed.
Print Assumptions C86_refines.

(** Numbers, of which a moved one is 0, as it is with a std::string or a vector. *)
Definition tn : typ nat := mkT 7 (fun _ => 0) (fun _ => 0) Nat.eqb.
Definition m0 : nat -> vv nat := fun _ => mkV false 7.
Example C86_refines_ex : (forall k, opt (m0 k) = None) /\
  snd (v_run tn m0 [VMake 0 3; VMoveC 1 0; VGet 1; VGet 0; VNew 2; VSet 2 3; VEqV 1 2; VClear 2; VGet 2; VWrite 1 5; VConv 1; VIsValid 2; VNe 1 5])
  = [Done; Done; Val 3; Throw; Done; Val 3; Is true; Done; Throw; Done; Val 5; Is false; Is false].
Proof. split; reflexivity. Qed.

(** A value that is read was given by the last call that gave the object one:
    after an assignment the object has that value until a call that names the
    object other than to read it. *)
Definition touches {T} (i : nat) (o : vop T) : bool :=
  match o with
  | VNew k | VMake k _ | VCopyC k _ | VCopy k _ | VSet k _ | VSetMove k _ | VWrite k _ | VClear k => Nat.eqb k i
  | VMoveC k j | VMove k j => Nat.eqb k i || Nat.eqb j i
  | _ => false
  end.
Lemma untouched {T} (t : typ T) l i : forall m, forallb (fun o => negb (touches i o)) l = true -> fst (v_run t m l) i = m i.
Proof.
  induction l as [|o l IH]; intros m H; cbn in *; [auto|]. apply andb_true_iff in H as [A B].
  assert (E : fst (v_step t m o) i = m i).
  { destruct o as [k|k v|k j|k j|k j|k j|k v|k v|k v|k v|k j|k j|k|k|k|k v|k]; cbn in *; auto; unfold put, v_get;
      try (destruct (Nat.eqb_spec k j)); try (destruct (v_valid (m k))); cbn; auto; unfold put;
      rewrite ?(Nat.eqb_sym i k), ?(Nat.eqb_sym i j); destruct (Nat.eqb k i); try discriminate; auto;
      try (destruct (Nat.eqb j i); try discriminate; auto). }
  specialize (IH (fst (v_step t m o)) B). destruct (v_step t m o) as [m1 r]. cbn in *. destruct (v_run t m1 l). cbn in *. congruence.
Qed.
Theorem C86_last : forall T (t : typ T) m i v l, forallb (fun o => negb (touches i o)) l = true ->
  snd (v_step t (fst (v_run t m (VSet i v :: l))) (VGet i)) = Val v /\
  snd (v_step t (fst (v_run t m (VClear i :: l))) (VGet i)) = Throw.
Proof.
  intros T t m i v l H. cbn [v_run v_step].
  pose proof (untouched t l i (put m i (mkV true v)) H) as A. pose proof (untouched t l i (put m i (mkV false (v_val (m i)))) H) as B.
  destruct (v_run t (put m i (mkV true v)) l). destruct (v_run t (put m i (mkV false (v_val (m i)))) l).
  cbn in *. rewrite A, B. unfold put. rewrite Nat.eqb_refl. auto.
Qed.
Print Assumptions C86_last.

Example C86_last_ex : forallb (fun o => negb (touches 1 o)) [VCopy 0 1; VMove 2 0; VClear 0; VEq 1 4] = true /\
  snd (v_run tn m0 [VSet 1 9; VCopy 0 1; VMove 2 0; VClear 0; VGet 1; VGet 2]) = [Val 9; Done; Done; Done; Val 9; Val 9].
Proof. split; reflexivity. Qed.

(** Objects saved to an archive one after the other and loaded in that order,
    into objects with whatever in them, hold the same; the archive is read to the
    end. *)
Theorem C86_archive : forall T (l k : list (vv T)) r, length k = length l ->
  exists k', v_loads k (v_saves l ++ r) = Some (k', r) /\ map opt k' = map opt l.
Proof.
  intros T. induction l as [|x l IH]; intros [|y k] r H; try discriminate; [exists []; auto|].
  cbn in H. injection H as H. destruct (IH k r H) as (k' & A & B). destruct x as [[] a]; unfold v_saves in *; cbn; rewrite A.
  - exists (mkV true a :: k'). cbn. rewrite B. auto.
  - exists (mkV false (v_val y) :: k'). cbn. rewrite B. auto.
Qed.
Print Assumptions C86_archive.

Example C86_archive_ex : v_loads [mkV true 1; mkV false 2; mkV true 3] (v_saves [mkV false 4; mkV true 5; mkV true 6] ++ [TV 9])
  = Some ([mkV false 1; mkV true 5; mkV true 6], [TV 9]).
Proof. reflexivity. Qed.

(** The value the calls leave: the last one given before or by the call that
    locks. *)
Fixpoint kept {T} (v : T) (l : list (lop T)) : T :=
  match l with
  | [] => v
  | LSet w :: k => kept w k
  | LSetLock w :: _ => w
  | LLock :: _ => v
  | _ :: k => kept v k
  end.
Definition locks {T} (o : lop T) : bool := match o with LSetLock _ | LLock => true | _ => false end.
Definition writes {T} (o : lop T) : bool := match o with LWrite _ => true | _ => false end.
Definition sets {T} (o : lop T) : bool := match o with LSet _ | LSetLock _ => true | _ => false end.

Lemma locked_run {T} (t : typ T) l : forall v, existsb writes l = false -> fst (l_run t (mkL true v) l) = mkL true v.
Proof.
  induction l as [|o l IH]; intros v H; cbn in *; [auto|]. apply orb_false_iff in H as [A B].
  destruct o; cbn in *; try discriminate; specialize (IH v B); destruct (l_run t (mkL true v) l); auto.
Qed.
(** While nobody writes through the reference: the object is locked exactly from
    the first call that locks, its value is the last one given up to then,
    comparisons compare this value with the one given, and a call fails exactly if it would set a value and the object is locked. *)
Theorem C86_locked : forall T (t : typ T) v l o, existsb writes l = false ->
  let x := fst (l_run t (l_make v) l) in
  l_locked x = existsb locks l /\ l_val x = kept v l /\ snd (l_step t x LGet) = Val (kept v l) /\
  snd (l_step t x LIsLocked) = Is (existsb locks l) /\
  (forall w, snd (l_step t x (LEq w)) = Is (eqb t (kept v l) w) /\ snd (l_step t x (LNe w)) = Is (negb (eqb t (kept v l) w))) /\
  (snd (l_step t x o) = Throw <-> sets o = true /\ existsb locks l = true).
Proof.
  intros T t v l o H x. assert (E : x = mkL (existsb locks l) (kept v l)).
  { subst x. unfold l_make. revert v H. induction l as [|p l IH]; intros v H; cbn in *; [auto|]. apply orb_false_iff in H as [A B].
    destruct p; cbn in *; try discriminate.
    - specialize (IH v0 B). destruct (l_run t (mkL false v0) l). auto.
    - pose proof (locked_run t l v0 B). destruct (l_run t (mkL true v0) l). auto.
    - pose proof (locked_run t l v B). destruct (l_run t (mkL true v) l). auto.
    - specialize (IH v B). destruct (l_run t (mkL false v) l). auto.
    - specialize (IH v B). destruct (l_run t (mkL false v) l). auto.
    - specialize (IH v B). destruct (l_run t (mkL false v) l). auto.
    - specialize (IH v B). destruct (l_run t (mkL false v) l). auto. }
  rewrite E. cbn. repeat split; auto.
  - destruct o; cbn in *; try discriminate; auto.
  - revert H0. destruct o; cbn; try discriminate; destruct (existsb locks l); try discriminate; auto.
  - intros [A B]. rewrite B. destruct o; cbn in *; try discriminate; auto.
Qed.
Print Assumptions C86_locked.

Example C86_locked_ex : existsb writes [LSet 16; LSet 32; LGet; LLock; LLock; LSet 64; LSetLock 1; LGet] = false /\
  snd (l_run tn (l_new tn) [LSet 16; LSet 32; LGet; LLock; LLock; LSet 64; LSetLock 1; LGet; LNe 32; LIsLocked])
  = [Done; Done; Val 32; Done; Done; Throw; Throw; Val 32; Is false; Is true].
Proof. split; reflexivity. Qed.

(** An object constructed locked never changes; one constructed by the others is
    not locked. *)
Theorem C86_born : forall T (t : typ T) v l, existsb writes l = false ->
  fst (l_run t (l_make_lock v true) l) = l_make_lock v true /\
  l_make_lock v false = l_make v /\ l_new t = l_make (dflt t).
Proof. intros T t v l H. split; [apply locked_run; auto|split; reflexivity]. Qed.
Print Assumptions C86_born.

Example C86_born_ex : snd (l_run tn (l_make_lock 5 true) [LSet 6; LGet; LEq 5]) = [Throw; Val 5; Is true].
Proof. reflexivity. Qed.

(** Refuted: that a locked value cannot be overwritten (lv 20-21). getValue and
    the conversion of an object that is not const give a reference that may be
    written. *)
Theorem C86_write_refuted : exists l : list (lop nat), hd_error l = Some (LSetLock 1) /\
  l_locked (fst (l_run tn (l_new tn) l)) = true /\ l_val (fst (l_run tn (l_new tn) l)) = 2 /\
  ~ In Throw (snd (l_run tn (l_new tn) l)).
Proof. exists [LSetLock 1; LWrite 2]. cbn. repeat split. intros [E|[E|[]]]; discriminate. Qed.
Print Assumptions C86_write_refuted.

(** Refuted: that comparing ValidValues compares valid values. Only the left one
    is asked: one whose validity was cleared still equals by its old value when it
    is on the right, and the same comparison the other way round throws. *)
Theorem C86_stale_refuted : exists l : list (vop nat), let m := fst (v_run tn m0 l) in
  v_valid (m 1) = false /\ snd (v_step tn m (VEqV 0 1)) = Is true /\ snd (v_step tn m (VEqV 1 0)) = Throw.
Proof. exists [VMake 0 3; VMake 1 3; VClear 1]. repeat split. Qed.
Print Assumptions C86_stale_refuted.

(** Refuted: that a ValidValue moved from is not valid. The move constructor
    clears the validity of its source, move assignment does not, and the source
    then gives what moving left in it, a value nobody assigned. *)
Theorem C86_moved_refuted : exists l : list (vop nat), let m := fst (v_run tn m0 l) in
  snd (v_step tn m (VGet 1)) = Val 0 /\ (forall i, ~ In (VMake i 0) l /\ ~ In (VSet i 0) l) /\
  snd (v_step tn (fst (v_run tn m0 [VMake 1 3; VMoveC 0 1])) (VGet 1)) = Throw.
Proof.
  exists [VMake 1 3; VNew 0; VMove 0 1]. split; [reflexivity|]. split; [|reflexivity].
  intros i. cbn. split; intros H; repeat destruct H as [H|H]; try discriminate; auto.
Qed.
Print Assumptions C86_moved_refuted.
