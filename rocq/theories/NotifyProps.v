(** C67 to C70: whom a notification reaches, what registrations are accepted,
    which observation state callbacks are called, and how lists of names are
    read. *)
From Coq Require Import NArith Bool String Ascii Arith List Lia Permutation.
From Verif Require Import SharedPtrSafety NotifyModel NotifyNames NotifyProofs
  NotifyEvents.
From Verif Require ParamTreeModel.
Import ListNotations.
Open Scope nat_scope.
Open Scope list_scope.

(** ** The uses that the positive theorems cover *)

(** No private nodes, no children of the virtual global node, and one name at
    a time. *)
Definition plain (o : op) : Prop :=
  match o with
  | NewNode _ p => p = false
  | NewChild _ p | NewSource _ p _ _ | Attach _ p => p <> 0
  | Reg r _ | Dereg r => each solid (r_name r)
  | _ => True
  end.

Lemma plain_clean : forall o, plain o -> clean o.
Proof. intros [] P; cbn [plain clean] in *; auto using names_plain. Qed.

Lemma plain_all : forall h, Forall plain h -> Forall clean h.
Proof. intros h. apply Forall_impl. apply plain_clean. Qed.

(** Registrations anywhere but on the virtual global node. *)
Definition local (r : reg) : bool := negb (r_at r =? 0).

Lemma local_at : forall r, local r = true -> r_at r <> 0.
Proof.
  intros r L Z. unfold local in L. rewrite Z in L. discriminate.
Qed.

Section Glob.

Variable glob : string -> string -> bool.

Lemma inv_local : forall h f out, Forall plain h ->
  run glob nothing h = (f, out) -> inv glob local (went h out) f.
Proof.
  intros h f out P R.
  apply (run_inv glob local h [] nothing); auto using inv_nothing, plain_all.
  left. exact local_at.
Qed.

Lemma inv_every : forall h f out, Forall plain h -> Forall (fun o => ~ child o) h ->
  run glob nothing h = (f, out) -> inv glob (fun _ => true) (went h out) f.
Proof.
  intros h f out P C R.
  apply (run_inv glob _ h [] nothing); auto using inv_nothing, plain_all.
Qed.

Lemma filter_all : forall (l : list reg), filter (fun _ => true) l = l.
Proof. induction l; cbn; congruence. Qed.

Lemma find_post : forall keep l f i d f' e, inv glob keep l f ->
  step glob f (Post i d) = (f', true, e) ->
  exists ups p o x, fits glob keep (live l) (live l) l ups i p o (Some x) /\
    e = map (fun r => Deliver (r_obj r) i (r_at r) d) (s_dels x).
Proof.
  intros keep l f i d f' e V E. cbn [step] in E. unfold post in E.
  destruct (find_all i f) as [[j p o [x|] ks]|] eqn:F; try discriminate.
  injection E as <- <-. destruct (find_fits _ _ _ _ _ _ _ (inv_winv _ _ _ _ V) F) as (J & t & Q).
  cbn in J. subst j. apply every_eq in Q as [Q _]. exists t, p, o, x. auto.
Qed.

End Glob.

(** ** C67: whom a notification reaches *)

(** When source [i] posts, its observers are called once each, and they are
    exactly the registrations in force that ask for its data type and name at
    the source, at a node above it or at the virtual global node; the order in
    which the tree was put together and the observers were registered does not
    matter. Missing: private nodes, children of the virtual global node, nodes
    constructed with their parent given, lists of several names (the theorems
    below show that each of these fails). *)
Theorem C67_deliver_partial : forall glob h f out i d f' e,
  Forall plain h -> Forall (fun o => ~ child o) h ->
  run glob nothing h = (f, out) ->
  step glob f (Post i d) = (f', true, e) ->
  exists ds, e = map (fun r => Deliver (r_obj r) i (r_at r) d) ds /\ NoDup ds /\
    forall r, In r ds <-> reaches glob (went h out) i r.
Proof.
  intros glob h f out i d f' e P C R E.
  pose proof (inv_every glob _ _ _ P C R) as V.
  destruct (find_post _ _ _ _ _ _ _ _ V E) as (ups & p & o & x & Q & ->).
  destruct (fits_reaches _ _ _ _ _ _ _ _ _ V Q) as [N H].
  exists (s_dels x). split; auto. split; [now rewrite filter_all in N|].
  intros r. now apply H.
Qed.
Print Assumptions C67_deliver_partial.

(** Node 1 above source 3; a registration on 1 before the source exists, one on
    the virtual global node, one for another name and one taken back. *)
Definition tree : list op :=
  [NewNode 1 false; Reg (mkReg 1 7 100 "err") false; NewNode 2 false;
   NewSource 3 2 7 "err"; Reg (mkReg 0 7 101 "") false;
   Reg (mkReg 2 7 102 "warn") false; Reg (mkReg 2 7 103 "e*") true; Attach 2 1;
   Reg (mkReg 1 7 104 "err") true; Dereg (mkReg 1 7 104 "err")].

Example C67_deliver_ex :
  let glob := ParamTreeModel.matches in
  Forall plain tree /\ Forall (fun o => ~ child o) tree /\
  map fst (snd (run glob nothing tree)) = repeat true 10 /\
  snd (step glob (fst (run glob nothing tree)) (Post 3 42%N)) =
    [Deliver 103 3 2 42; Deliver 100 3 1 42; Deliver 101 3 0 42].
Proof.
  cbv zeta. split; [|split; [|split]].
  - unfold tree, plain. repeat constructor; try discriminate;
      intros [X|X]; discriminate.
  - unfold tree. repeat constructor; auto.
  - vm_compute. reflexivity.
  - vm_compute. reflexivity.
Qed.

(** With nodes constructed with their parent given, the same still holds of the
    registrations that are not on the virtual global node. *)
Theorem C67_local_partial : forall glob h f out i d f' e,
  Forall plain h -> run glob nothing h = (f, out) ->
  step glob f (Post i d) = (f', true, e) ->
  exists ds, e = map (fun r => Deliver (r_obj r) i (r_at r) d) ds /\
    NoDup (filter (fun r => negb (r_at r =? 0)) ds) /\
    forall r, r_at r <> 0 -> (In r ds <-> reaches glob (went h out) i r).
Proof.
  intros glob h f out i d f' e P R E.
  pose proof (inv_local glob _ _ _ P R) as V.
  destruct (find_post _ _ _ _ _ _ _ _ V E) as (ups & p & o & x & Q & ->).
  destruct (fits_reaches _ _ _ _ _ _ _ _ _ V Q) as [N H].
  exists (s_dels x). split; auto. split; auto.
  intros r Z. apply H. unfold local. destruct (Nat.eqb_spec (r_at r) 0); [congruence|auto].
Qed.
Print Assumptions C67_local_partial.

(** A tree built by constructors that take the parent. *)
Definition tree2 : list op :=
  [NewNode 1 false; NewChild 2 1; Reg (mkReg 2 7 100 "") false;
   NewSource 3 2 7 "err"; Reg (mkReg 1 7 101 "err") true].

Example C67_local_ex :
  let glob := ParamTreeModel.matches in
  Forall plain tree2 /\
  map fst (snd (run glob nothing tree2)) = repeat true 5 /\
  snd (step glob (fst (run glob nothing tree2)) (Post 3 42%N)) =
    [Deliver 100 3 2 42; Deliver 101 3 1 42].
Proof.
  cbv zeta. split; [|split].
  - unfold tree2, plain. repeat constructor; try discriminate;
      intros [X|X]; discriminate.
  - vm_compute. reflexivity.
  - vm_compute. reflexivity.
Qed.

(** What a source says of itself agrees: observed, getNumObservers,
    getObservationPoints and getNumPosts, the last as a 64-bit counter. *)
Theorem C67_look_partial : forall glob h f out i,
  Forall plain h -> Forall (fun o => ~ child o) h ->
  run glob nothing h = (f, out) ->
  let l := went h out in
  (look i f = None <-> forall ty nm, ~ source l i ty nm) /\
  forall seen n pts k, look i f = Some (seen, n, pts, k) ->
    k = (N.of_nat (posts l i) mod 2 ^ 64)%N /\
    exists ds, NoDup ds /\ (forall r, In r ds <-> reaches glob l i r) /\
      n = length ds /\ (seen = true <-> ds <> []) /\
      NoDup pts /\ (forall a, In a pts <-> exists r, In r ds /\ r_at r = a).
Proof.
  intros glob h f out i P C R l.
  pose proof (inv_every glob _ _ _ P C R) as V. fold l in V. unfold look. split.
  - split.
    + intros E ty nm S.
      destruct (find_source _ _ _ _ _ _ _ V S) as (u & p & o & x & ks & F & _).
      rewrite F in E. discriminate.
    + intros N. destruct (find_all i f) as [[j p o [x|] ks]|] eqn:F; auto. exfalso.
      destruct (find_fits _ _ _ _ _ _ _ (inv_winv _ _ _ _ V) F) as (J & t & Q).
      cbn in J. subst j. apply every_eq in Q as [(_ & _ & _ & _ & (Q & _)) _].
      apply (N (s_type x) (s_name x)). now apply Q.
  - intros seen n pts k E.
    destruct (find_all i f) as [[j p o [x|] ks]|] eqn:F; try discriminate.
    injection E as <- <- <- <-.
    destruct (find_fits _ _ _ _ _ _ _ (inv_winv _ _ _ _ V) F) as (J & t & Q).
    cbn in J. subst j. apply every_eq in Q as [Q _].
    destruct (fits_reaches _ _ _ _ _ _ _ _ _ V Q) as [N H]. rewrite filter_all in N.
    destruct Q as (_ & _ & _ & _ & (_ & _ & (T1 & T2 & T3) & T4 & _)).
    split; auto. exists (s_dels x).
    split; auto. split; [intros r; now apply H|]. split; auto. split; auto.
    rewrite T1. destruct (s_dels x); cbn; intuition congruence.
Qed.
Print Assumptions C67_look_partial.

Example C67_look_ex :
  let '(f, out) := run ParamTreeModel.matches nothing (tree ++ [Post 3 1%N; Post 3 2%N]) in
  look 3 f = Some (true, 3, [2; 1; 0], 2%N).
Proof. vm_compute. reflexivity. Qed.

(** ** Departures *)

(** A list of names registered before the source is in the tree reaches no
    source: the whole text is then compared with the name of the source
    (ns 617-632 with tn 3076-3080). Registered after, it reaches it. *)
Theorem C67_list_refuted : exists r s,
  let glob := ParamTreeModel.matches in
  let early := [NewNode 1 false; Reg r false; s] in
  let late := [NewNode 1 false; s; Reg r false] in
  r = mkReg 1 7 100 "err,warn" /\ s = NewSource 2 1 7 "warn" /\
  map fst (snd (run glob nothing early)) = [true; true; true] /\
  snd (step glob (fst (run glob nothing early)) (Post 2 5%N)) = [] /\
  map fst (snd (run glob nothing late)) = [true; true; true] /\
  snd (step glob (fst (run glob nothing late)) (Post 2 5%N)) = [Deliver 100 2 1 5].
Proof. exists (mkReg 1 7 100 "err,warn"), (NewSource 2 1 7 "warn"). vm_compute. repeat split; reflexivity. Qed.
Print Assumptions C67_list_refuted.

(** A private subtree is passed by when an observer registers above it, but
    not when it is put below an observer. *)
Theorem C67_private_refuted : exists r,
  let glob := ParamTreeModel.matches in
  let before := [NewNode 1 false; NewNode 2 true; NewSource 3 2 7 "err"; Attach 2 1;
                 Reg r false] in
  let after := [NewNode 1 false; NewNode 2 true; NewSource 3 2 7 "err"; Reg r false;
                Attach 2 1] in
  r = mkReg 1 7 100 "err" /\
  map fst (snd (run glob nothing before)) = repeat true 5 /\
  map fst (snd (run glob nothing after)) = repeat true 5 /\
  snd (step glob (fst (run glob nothing before)) (Post 3 5%N)) = [] /\
  snd (step glob (fst (run glob nothing after)) (Post 3 5%N)) = [Deliver 100 3 1 5].
Proof. exists (mkReg 1 7 100 "err"). vm_compute. repeat split; reflexivity. Qed.
Print Assumptions C67_private_refuted.

(** A node constructed with its parent given stays in [parentless_map_]
    (tc 131-151): an observer registered on the virtual global node is then
    called once for every such node on the path and once for the root. *)
Theorem C67_child_refuted : exists r,
  let glob := ParamTreeModel.matches in
  let h := [NewNode 1 false; NewChild 2 1; NewChild 3 2; NewSource 4 3 7 "err";
            Reg r false] in
  r = mkReg 0 7 100 "err" /\
  map fst (snd (run glob nothing h)) = repeat true 5 /\
  snd (step glob (fst (run glob nothing h)) (Post 4 5%N)) =
    repeat (Deliver 100 4 0 5) 3.
Proof. exists (mkReg 0 7 100 "err"). vm_compute. repeat split; reflexivity. Qed.
Print Assumptions C67_child_refuted.

(** A source that is itself a child of the virtual global node is never told of
    a registration there, and told twice if the registration was there
    before. *)
Theorem C67_global_child_refuted : exists r s,
  let glob := ParamTreeModel.matches in
  r = mkReg 0 7 100 "err" /\ s = NewSource 1 0 7 "err" /\
  map fst (snd (run glob nothing [s; Reg r false])) = [true; true] /\
  map fst (snd (run glob nothing [Reg r false; s])) = [true; true] /\
  snd (step glob (fst (run glob nothing [s; Reg r false])) (Post 1 5%N)) = [] /\
  snd (step glob (fst (run glob nothing [Reg r false; s])) (Post 1 5%N)) =
    repeat (Deliver 100 1 0 5) 2.
Proof. exists (mkReg 0 7 100 "err"), (NewSource 1 0 7 "err"). vm_compute. repeat split; reflexivity. Qed.
Print Assumptions C67_global_child_refuted.

(** ** C68: what is accepted *)

(** When an operation goes through, after the operations [l] that did. *)
Definition allowed (glob : string -> string -> bool) (l : list op) (o : op) : Prop :=
  match o with
  | NewNode i _ => ~ made l i
  | NewChild i p | NewSource i p _ _ => ~ made l i /\ made l p
  | Attach i p => (made l i /\ i <> 0 /\ forall q, ~ parent l i q) /\
                  made l p /\ ~ below l p i
  | AddCb i _ cb => (exists ty nm, source l i ty nm) /\ ~ In cb (map snd (cbs l i))
  | Reg r ensure =>
      made l (r_at r) /\ ~ In r (live l) /\
      (ensure = true -> r_at r <> 0 /\ exists i, concerns glob l i r)
  | Dereg r => In r (live l)
  | Post i _ => exists ty nm, source l i ty nm
  end.

(** A registration is accepted exactly if the node exists, the same
    registration is not in force, and, if asked for, some source below the node
    can send it; a deregistration if it is in force; a post from any source; a
    node is attached if it has no parent and would not come below itself.
    Missing: as for C67_local_partial; for a registration on the virtual global
    node that asks for a possible source see C68_ensure_global_refuted. *)
Theorem C68_accept_partial : forall glob h f out o,
  Forall plain h -> plain o -> run glob nothing h = (f, out) ->
  (snd (fst (step glob f o)) = true <-> allowed glob (went h out) o).
Proof.
  intros glob h f out o P PO R. pose proof (inv_local glob _ _ _ P R) as V.
  set (l := went h out) in *.
  assert (NC : forall k i p, p <> 0 -> n_id k = i -> 
    (known i f = false /\ (exists f', add_child glob k p f = Some f') <->
     ~ made l i /\ made l p)).
  { intros k i p Z K. rewrite (new_accepted _ _ _ _ i V).
    rewrite (add_child_some glob k p f Z (v_kids _ _ _ _ V)).
    rewrite (v_made _ _ _ _ V p). tauto. }
  destruct o; cbn [allowed]; cbn [plain] in PO.
  - cbn [step]. rewrite <- (new_accepted _ _ _ _ i V).
    destruct (known i f); cbn; intuition congruence.
  - cbn [step]. rewrite <- (NC (Nd i false [] None []) i parent PO eq_refl).
    destruct (known i f); cbn; [intuition congruence|].
    destruct (add_child glob _ _ _) eqn:A; cbn.
    + split; eauto.
    + split; [discriminate|]. intros [_ [f' E]]. discriminate.
  - cbn [step].
    rewrite <- (NC (Nd i false [] (Some (mkSrc ty name [] [] false 0%N [])) []) i parent
                  PO eq_refl).
    destruct (known i f); cbn; [intuition congruence|].
    destruct (add_child glob _ _ _) eqn:A; cbn.
    + split; eauto.
    + split; [discriminate|]. intros [_ [f' E]]. discriminate.
  - now apply (attach_accepted glob local).
  - now apply (cb_accepted glob local).
  - rewrite (reg_accepted glob local l f r ensure V (names_plain _ PO)).
    unfold concerns. split; intros (A & B & D); (split; [auto|split; [auto|]]);
      intros X; destruct (D X) as [Z Y]; (split; [auto|]).
    + destruct Y as (i & ty & nm & S & K & L). exists i. split; [eauto|auto].
    + destruct Y as (i & (ty & nm & S & K) & [L|L]); [congruence|].
      exists i, ty, nm. auto.
  - now apply (dereg_accepted glob local); auto using names_plain.
  - now apply (post_accepted glob local).
Qed.
Print Assumptions C68_accept_partial.

Example C68_accept_ex :
  let glob := ParamTreeModel.matches in
  let '(f, out) := run glob nothing tree in
  let ok o := snd (fst (step glob f o)) in
  ok (Reg (mkReg 1 7 100 "err") false) = false /\
  ok (Reg (mkReg 1 7 105 "err") true) = true /\
  ok (Reg (mkReg 1 7 105 "none") true) = false /\
  ok (Reg (mkReg 1 8 105 "err") true) = false /\
  ok (Reg (mkReg 9 7 105 "err") false) = false /\
  ok (Dereg (mkReg 1 7 104 "err")) = false /\ ok (Dereg (mkReg 1 7 100 "err")) = true /\
  ok (Post 2 1%N) = false /\ ok (Attach 1 3) = false /\ ok (Attach 2 1) = false.
Proof. vm_compute. repeat split; reflexivity. Qed.

(** What is refused changes nothing and calls nobody. *)
Theorem C68_refused_partial : forall glob f o f' e,
  plain o -> step glob f o = (f', false, e) -> f' = f /\ e = [].
Proof.
  intros glob f o f' e P E. eapply refused_same; eauto. now apply plain_clean.
Qed.
Print Assumptions C68_refused_partial.

Example C68_refused_ex :
  let glob := ParamTreeModel.matches in
  let f := fst (run glob nothing tree) in
  step glob f (Reg (mkReg 1 7 100 "err") false) = (f, false, []).
Proof. vm_compute. reflexivity. Qed.

(** Asking for a possible source refuses every list of several names, though a
    source below has one of them (tc 2559-2570 takes the text for one name). *)
Theorem C68_ensure_list_refuted : exists r,
  let glob := ParamTreeModel.matches in
  let f := fst (run glob nothing [NewNode 1 false; NewSource 2 1 7 "err"]) in
  r = mkReg 1 7 100 "err,warn" /\
  snd (fst (step glob f (Reg r true))) = false /\
  snd (fst (step glob f (Reg r false))) = true /\
  snd (step glob (fst (fst (step glob f (Reg r false)))) (Post 2 5%N)) =
    [Deliver 100 2 1 5].
Proof. exists (mkReg 1 7 100 "err,warn"). vm_compute. repeat split; reflexivity. Qed.
Print Assumptions C68_ensure_list_refuted.

(** A malformed list is refused with an exception only after the observer has
    been kept (tn 4340-4348): registering it again is refused as double,
    deregistering it is refused too. *)
Theorem C68_malformed_refuted : exists r,
  let glob := ParamTreeModel.matches in
  let f := fst (run glob nothing [NewNode 1 false]) in
  let f1 := fst (fst (step glob f (Reg r false))) in
  r = mkReg 1 7 100 "err warn" /\
  snd (fst (step glob f (Reg r false))) = false /\ f1 <> f /\
  obs_at 1 f1 = Some [r] /\
  snd (fst (step glob f1 (Dereg r))) = false.
Proof. exists (mkReg 1 7 100 "err warn"). vm_compute. repeat split; try reflexivity. discriminate. Qed.
Print Assumptions C68_malformed_refuted.

(** On the virtual global node, asking for a possible source is always refused,
    even though a source in the tree can send what is asked for (vg 229-233 and
    tc 2572-2587 look at its own children only). *)
Theorem C68_ensure_global_refuted : exists r,
  let glob := ParamTreeModel.matches in
  let f := fst (run glob nothing [NewNode 1 false; NewSource 2 1 7 "err"]) in
  r = mkReg 0 7 100 "err" /\
  snd (fst (step glob f (Reg r true))) = false /\
  snd (fst (step glob f (Reg r false))) = true /\
  snd (step glob (fst (fst (step glob f (Reg r false)))) (Post 2 5%N)) =
    [Deliver 100 2 0 5].
Proof. exists (mkReg 0 7 100 "err"). vm_compute. repeat split; reflexivity. Qed.
Print Assumptions C68_ensure_global_refuted.

(** ** C69: observation state callbacks *)

(** Equality of kinds of change can be decided. *)
Definition change_dec (a b : change) : {a = b} + {a <> b}.
Proof. decide equality. Defined.

(** The callbacks for [c] installed on [i] are called, in order, with the
    number [k] of observers. *)
Definition calls (l : list op) (i : nat) (c : change) (k : nat) : list event :=
  flat_map (fun x => if change_dec (fst x) c then [StateCb (snd x) i c k] else [])
           (cbs l i).

Lemma invoke_calls : forall l i s c, s_cbs s = cbs l i ->
  invoke i s c = calls l i c (length (s_dels s)).
Proof.
  intros l i s c E. unfold invoke, calls. rewrite <- E. clear E.
  induction (s_cbs s) as [|[c' cb] x IH]; cbn; auto.
  destruct (change_dec c' c) as [->|N].
  - destruct c; cbn; now rewrite IH.
  - destruct c', c; cbn; auto; congruence.
Qed.

Lemma same_length : forall (a b : list reg), NoDup a -> NoDup b ->
  (forall r, In r a <-> In r b) -> length a = length b.
Proof.
  intros a b A B H. apply Permutation_length, NoDup_Permutation; auto.
Qed.

(** Registering [r] calls, for a source that it concerns and that had the
    observers [ds], the callbacks for the first observer if there was none, then
    those for any observer, with the number of observers there are now; for
    other sources it calls nothing. Missing: as for C67_deliver_partial. *)
Theorem C69_register_partial : forall glob h f out r b f' e,
  Forall plain h -> Forall (fun o => ~ child o) h -> plain (Reg r b) ->
  run glob nothing h = (f, out) ->
  step glob f (Reg r b) = (f', true, e) ->
  let l := went h out in
  Forall (fun v => exists cb i c n, v = StateCb cb i c n) e /\
  forall i,
    (~ concerns glob l i r -> filter (mine i) e = []) /\
    (concerns glob l i r ->
     forall ds, NoDup ds -> (forall q, In q ds <-> reaches glob l i q) ->
       filter (mine i) e =
       (if length ds =? 0 then calls l i SoleReg 1 else []) ++
       calls l i AnyReg (length ds + 1)).
Proof.
  intros glob h f out r b f' e P C PR R E l.
  pose proof (inv_every glob _ _ _ P C R) as V. fold l in V.
  cbn [step] in E. unfold register in E.
  destruct (obs_at (r_at r) f) as [o|] eqn:O; [|discriminate].
  destruct (obs_at_live _ _ _ _ _ _ V O) as [M _].
  destruct (b && _); [discriminate|].
  destruct (existsb (reg_eqb r) o); [discriminate|].
  rewrite (names_plain _ PR) in E.
  pose proof (set_obs_winv _ _ l f r V) as Wv.
  set (f1 := set_obs (r_at r) (fun o => o ++ [r]) f) in *.
  pose proof (broadcast_at_cb glob (r_at r) (r_type r) [r_name r] (added r) f1
    (added_tagged r)) as CB.
  pose proof (fun i => broadcast_calls _ _ _ _ _ r (added r) i Wv (added_tagged r)
    eq_refl M) as BC.
  destruct (broadcast_at _ _ _ _ _ f1) as [f2 e2]. injection E as <- <-.
  cbn [snd] in *. split; [exact CB|]. intros i. destruct (BC i) as [B1 B2]. split.
  - intros N. apply B2. intros (ty & nm & S & A & L). apply N. split; eauto.
  - intros [(ty & nm & S & A) L] ds ND D.
    destruct (B1 ty nm S A L) as (ups & p & ob & x & Q & ->).
    assert (Q' : exists o', fits glob (fun _ => true) (live l) (live l) l ups i p o' (Some x)).
    { destruct Q as (Q1 & Q2 & Q3 & Q4). exists (at_ (live l) i).
      split; [exact Q1|split; [exact Q2|split; [reflexivity|exact Q4]]]. }
    destruct Q' as [o' Q'].
    destruct (fits_reaches _ _ _ _ _ _ _ _ _ V Q') as [N H]. rewrite filter_all in N.
    assert (LE : length (s_dels x) = length ds).
    { apply same_length; auto. intros q. rewrite D. now apply H. }
    destruct Q as (_ & _ & _ & _ & (_ & _ & (T1 & _) & _ & CBS)).
    unfold added. cbn [snd].
    rewrite !(invoke_calls l) by exact CBS. cbn [s_dels].
    rewrite T1, app_length, LE. cbn [length].
    destruct (Nat.eqb_spec (length ds) 0) as [Z|Z]; cbn; [now rewrite Z|reflexivity].
Qed.
Print Assumptions C69_register_partial.

(** Source 2 below node 1, with one callback of each kind. *)
Definition watched : list op :=
  [NewNode 1 false; NewSource 2 1 7 "err"; AddCb 2 SoleReg 50; AddCb 2 AnyReg 51;
   AddCb 2 SoleDereg 52; AddCb 2 AnyDereg 53].

Example C69_register_ex :
  let glob := ParamTreeModel.matches in
  let f := fst (run glob nothing watched) in
  let r := mkReg 1 7 100 "err" in let q := mkReg 2 7 101 "" in
  let f1 := fst (fst (step glob f (Reg r false))) in
  snd (step glob f (Reg r false)) = [StateCb 50 2 SoleReg 1; StateCb 51 2 AnyReg 1] /\
  snd (step glob f1 (Reg q false)) = [StateCb 51 2 AnyReg 2].
Proof. vm_compute. split; reflexivity. Qed.

(** Deregistering [r] calls, for a source that it concerns and that had the
    observers [ds], the callbacks for any observer and then, if it was the only
    one, those for the last, with the number of observers left. *)
Theorem C69_deregister_partial : forall glob h f out r f' e,
  Forall plain h -> Forall (fun o => ~ child o) h -> plain (Dereg r) ->
  run glob nothing h = (f, out) ->
  step glob f (Dereg r) = (f', true, e) ->
  let l := went h out in
  Forall (fun v => exists cb i c n, v = StateCb cb i c n) e /\
  forall i,
    (~ concerns glob l i r -> filter (mine i) e = []) /\
    (concerns glob l i r ->
     forall ds, NoDup ds -> (forall q, In q ds <-> reaches glob l i q) ->
       filter (mine i) e =
       calls l i AnyDereg (length ds - 1) ++
       (if length ds =? 1 then calls l i SoleDereg 0 else [])).
Proof.
  intros glob h f out r f' e P C PR R E l.
  pose proof (inv_every glob _ _ _ P C R) as V. fold l in V.
  cbn [step] in E. unfold deregister in E.
  destruct (obs_at (r_at r) f) as [o|] eqn:O; [|discriminate].
  destruct (obs_at_live _ _ _ _ _ _ V O) as [M ->].
  destruct (existsb (reg_eqb r) _) eqn:EX; [|discriminate]. cbn [negb] in E.
  assert (IL : In r (live l)).
  { apply existsb_reg in EX. apply filter_In in EX. tauto. }
  rewrite (names_plain _ PR) in E.
  pose proof (broadcast_at_cb glob (r_at r) (r_type r) [r_name r] (removed r) f
    (removed_tagged r)) as CB.
  pose proof (fun i => broadcast_calls _ _ _ _ _ r (removed r) i (inv_winv _ _ _ _ V)
    (removed_tagged r) eq_refl M) as BC.
  destruct (broadcast_at _ _ _ _ _ f) as [f2 e2]. injection E as <- <-.
  cbn [snd] in *. split; [exact CB|]. intros i. destruct (BC i) as [B1 B2]. split.
  - intros N. apply B2. intros (ty & nm & S & A & L). apply N. split; eauto.
  - intros [(ty & nm & S & A) L] ds ND D.
    destruct (B1 ty nm S A L) as (ups & p & ob & x & Q & ->).
    destruct (fits_reaches _ _ _ _ _ _ _ _ _ V Q) as [N H]. rewrite filter_all in N.
    assert (LE : length (s_dels x) = length ds).
    { apply same_length; auto. intros q. rewrite D. now apply H. }
    assert (IR : In r (s_dels x)).
    { apply H; auto. split; auto. split; eauto. }
    pose proof (Permutation_length (erase_perm r (s_dels x) IR)) as PL. cbn in PL.
    destruct Q as (_ & _ & _ & _ & (_ & _ & (T1 & _) & _ & CBS)).
    unfold removed. cbn [snd].
    rewrite !(invoke_calls l) by exact CBS. cbn [s_dels].
    rewrite T1. replace (length (erase (reg_eqb r) (s_dels x))) with (length ds - 1) by lia.
    f_equal. destruct (Nat.eqb_spec (length (s_dels x)) 0); [lia|]. cbn.
    destruct (Nat.eqb_spec (length ds - 1) 0) as [Z|Z], (Nat.eqb_spec (length ds) 1);
      try lia; cbn; [now rewrite Z|reflexivity].
Qed.
Print Assumptions C69_deregister_partial.

Example C69_deregister_ex :
  let glob := ParamTreeModel.matches in
  let r := mkReg 1 7 100 "err" in let q := mkReg 2 7 101 "" in
  let f := fst (run glob nothing (watched ++ [Reg r false; Reg q false])) in
  let f1 := fst (fst (step glob f (Dereg r))) in
  snd (step glob f (Dereg r)) = [StateCb 53 2 AnyDereg 1] /\
  snd (step glob f1 (Dereg q)) = [StateCb 53 2 AnyDereg 0; StateCb 52 2 SoleDereg 0].
Proof. vm_compute. split; reflexivity. Qed.

(** Coming below an observed node makes a source observed without any callback
    (ns 597-638), though deregistering that observer later calls them. *)
Theorem C69_attach_refuted : exists r,
  let glob := ParamTreeModel.matches in
  let h := watched ++ [NewNode 3 false; Reg r false] in
  let f := fst (run glob nothing h) in
  let f1 := fst (fst (step glob f (Attach 1 3))) in
  r = mkReg 3 7 100 "err" /\ map fst (snd (run glob nothing h)) = repeat true 8 /\
  look 2 f = Some (false, 0, [], 0%N) /\
  step glob f (Attach 1 3) = (f1, true, []) /\
  look 2 f1 = Some (true, 1, [3], 0%N) /\
  snd (step glob f1 (Dereg r)) = [StateCb 53 2 AnyDereg 0; StateCb 52 2 SoleDereg 0].
Proof. exists (mkReg 3 7 100 "err"). vm_compute. repeat split; reflexivity. Qed.
Print Assumptions C69_attach_refuted.

(** ** C70: lists of names *)

(** A list of names is read field by field, the fields standing between commas:
    every field that is not white gives the name in it, a last field that is
    white gives the empty name, which stands for all names. It is refused
    exactly if a field holds two names. *)
Theorem C70_names : forall s,
  (forall ts, names_in s = Some ts <-> exists fs, fields s fs /\ reads fs ts) /\
  (names_in s = None <-> forall fs ts, fields s fs -> ~ reads fs ts).
Proof.
  intros s. split; [apply names_read|]. split.
  - intros N fs ts F R. assert (X : names_in s = Some ts) by (apply names_read; eauto).
    congruence.
  - intros H. destruct (names_in s) as [ts|] eqn:E; auto. exfalso.
    apply names_read in E as (fs & F & R). eapply H; eauto.
Qed.
Print Assumptions C70_names.

Example C70_names_ex :
  names_in " err , warn,info" = Some ["err"; "warn"; "info"]%string /\
  names_in "err,, warn" = Some ["err"; "warn"]%string /\
  names_in "err," = Some ["err"; ""]%string /\
  names_in "" = Some [""]%string /\ names_in "err warn" = None.
Proof. vm_compute. repeat split; reflexivity. Qed.

