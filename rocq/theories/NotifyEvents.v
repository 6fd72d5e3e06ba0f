(** Where a source is found in the model, whom it tells, and what calls a
    registration makes. *)
From Coq Require Import NArith Bool String Ascii Arith List Lia Permutation.
From Verif Require Import SharedPtrSafety NotifyModel NotifyProofs.
Import ListNotations.
Open Scope nat_scope.
Open Scope list_scope.

Section Ev.

Variable glob : string -> string -> bool.
Variable keep : reg -> bool.

(** [r] asks for notifications [nm] with data of type [ty]. *)
Definition asks (ty : nat) (nm : string) (r : reg) : Prop :=
  r_type r = ty /\ (r_name r = ""%string \/ r_name r = nm \/ glob (r_name r) nm = true).

(** [r] asks for what source [i] posts, at a place above it. *)
Definition concerns (l : list op) (i : nat) (r : reg) : Prop :=
  (exists ty nm, source l i ty nm /\ asks ty nm r) /\
  (r_at r = 0 \/ below l i (r_at r)).

(** A registration in force that a source [i] has to tell. *)
Definition reaches (l : list op) (i : nat) (r : reg) : Prop :=
  In r (live l) /\ concerns l i r.

Lemma wants_asks : forall x r, wants glob x r = true <-> asks (s_type x) (s_name x) r.
Proof.
  intros x r. unfold wants, asks, cat_match.
  rewrite andb_true_iff, !orb_true_iff, Nat.eqb_eq, !String.eqb_eq. tauto.
Qed.

(** The invariant without the observers on the nodes, which a registration has
    already changed when it is passed on. *)
Record winv (Lo : list reg) (l : list op) (f : forest) : Prop := {
  w_kids : f_kids f = [];
  w_nodup : NoDup (flat_map ids (f_roots f));
  w_every : Forall (every (fits glob keep Lo (live l) l) []) (f_roots f);
  w_made : forall i, made l i <-> i = 0 \/ In i (flat_map ids (f_roots f));
  w_parent : forall c p, parent l c p -> made l c;
  w_zero : forall p, ~ parent l 0 p;
  w_tracked : (forall r, keep r = true -> r_at r <> 0) \/
              f_tracked f = map n_id (f_roots f)
}.

Lemma inv_winv : forall l f, inv glob keep l f -> winv (live l) l f.
Proof. intros l f []. constructor; auto. Qed.

Lemma find_fits : forall Lo l f i n, winv Lo l f -> find_all i f = Some n ->
  n_id n = i /\ exists t, every (fits glob keep Lo (live l) l) t n.
Proof.
  intros Lo l f i n V F. unfold find_all, all_trees in F. rewrite (w_kids _ _ _ V) in F. cbn in F.
  apply find_in_some in F as (m & M & F).
  split; [eapply find_node_some; eauto|].
  pose proof (w_every _ _ _ V) as W. rewrite Forall_forall in W.
  destruct (find_every _ _ _ _ _ (W _ M) F) as (t & Q). rewrite app_nil_r in Q. eauto.
Qed.

Lemma find_made : forall Lo l f i, winv Lo l f -> made l i -> i <> 0 ->
  exists n, find_all i f = Some n.
Proof.
  intros Lo l f i V M Z. apply (w_made _ _ _ V) in M as [M|M]; [congruence|].
  unfold find_all, all_trees. rewrite (w_kids _ _ _ V). cbn.
  destruct (find_in i (f_roots f)) eqn:F; [eauto|]. now apply find_in_none in F.
Qed.

Lemma source_made : forall l i ty nm, source l i ty nm -> made l i.
Proof. intros l i ty nm (p & S). right. right. right. eauto. Qed.

Lemma find_source : forall l f i ty nm, inv glob keep l f -> source l i ty nm ->
  exists ups p o x ks, find_all i f = Some (Nd i p o (Some x) ks) /\
    fits glob keep (live l) (live l) l ups i p o (Some x) /\
    s_type x = ty /\ s_name x = nm.
Proof.
  intros l f i ty nm V S. pose proof (source_made _ _ _ _ S) as M.
  assert (Z : i <> 0).
  { intros ->. destruct S as (p & S). apply (v_zero _ _ _ _ V p).
    right. left. eauto. }
  destruct (find_made _ _ _ _ (inv_winv _ _ V) M Z) as ([j p o s ks] & F).
  destruct (find_fits _ _ _ _ _ (inv_winv _ _ V) F) as (E & t & Q). cbn in E. subst j.
  apply every_eq in Q as [Q _]. destruct s as [x|].
  - exists t, p, o, x, ks. split; auto. split; auto.
    destruct Q as (_ & _ & _ & _ & (Q & _)). apply Q in S as [-> ->]. auto.
  - destruct Q as (_ & _ & _ & _ & Q). exfalso. eapply Q; eauto.
Qed.

Lemma fits_reaches : forall l f ups i p o x, inv glob keep l f ->
  fits glob keep (live l) (live l) l ups i p o (Some x) ->
  NoDup (filter keep (s_dels x)) /\
  forall r, keep r = true -> (In r (s_dels x) <-> reaches l i r).
Proof.
  intros l f ups i p o x V (_ & ND & _ & L & (S & P & _)). split.
  - eapply Permutation_NoDup; [apply Permutation_sym, P|].
    apply NoDup_filter, NoDup_filter, NoDup_along; auto. apply V.
  - intros r K.
    assert (A : In r (s_dels x) <-> In r (filter keep (s_dels x))).
    { rewrite filter_In. tauto. }
    rewrite A. clear A.
    assert (A : In r (filter keep (s_dels x)) <->
      In r (filter keep (filter (wants glob x) (along (live l) (i :: ups ++ [0]))))).
    { split; apply Permutation_in; auto using Permutation_sym. }
    rewrite A, !filter_In, in_along, wants_asks. unfold reaches, concerns.
    assert (B : In (r_at r) (i :: ups ++ [0]) <-> r_at r = 0 \/ below l i (r_at r)).
    { rewrite (linked_below _ _ _ _ L). change (i :: ups ++ [0]) with ((i :: ups) ++ [0]).
      rewrite in_app_iff. cbn. intuition. }
    rewrite B. split.
    + intros [[[A1 A2] A3] _]. repeat split; auto.
      exists (s_type x), (s_name x). split; auto. now apply S.
    + intros (A1 & (ty & nm & A2 & A3) & A4). apply S in A2 as [-> ->]. auto.
Qed.

(** ** Calls of observation state callbacks *)

(** A call of a callback on behalf of source [i]. *)
Definition mine (i : nat) (e : event) : bool :=
  match e with StateCb _ j _ _ => j =? i | _ => false end.

(** [h] makes calls on behalf of the source it is given only. *)
Definition tagged (h : nat -> src -> src * list event) : Prop :=
  forall j x, Forall (fun e => exists cb c n, e = StateCb cb j c n) (snd (h j x)).

Lemma invoke_tagged : forall i s c,
  Forall (fun e => exists cb k n, e = StateCb cb i k n) (invoke i s c).
Proof.
  intros i s c. apply Forall_forall. intros e E. apply in_map_iff in E as (cb & <- & _).
  eauto.
Qed.

Lemma added_tagged : forall r, tagged (added r).
Proof.
  intros r j x. unfold added. cbn [snd]. apply Forall_app. split.
  - destruct (s_seen x); [constructor|apply invoke_tagged].
  - apply invoke_tagged.
Qed.

Lemma removed_tagged : forall r, tagged (removed r).
Proof.
  intros r j x. unfold removed. cbn [snd]. apply Forall_app. split.
  - apply invoke_tagged.
  - destruct (_ && _); [apply invoke_tagged|constructor].
Qed.

Lemma filter_mine : forall i j l,
  Forall (fun e => exists cb c n, e = StateCb cb j c n) l ->
  filter (mine i) l = if j =? i then l else [].
Proof.
  intros i j l F. induction F as [|e l (cb & c & n & ->) F IH]; cbn.
  - now destruct (j =? i).
  - rewrite IH. now destruct (j =? i).
Qed.

Lemma broadcast_out : forall ty names h i, tagged h -> forall n, ~ In i (ids n) ->
  filter (mine i) (snd (broadcast glob ty names h n)) = [].
Proof.
  intros ty names h i T n. induction n as [j p o s ks F] using node_ind'. intros N.
  cbn [broadcast]. cbn [ids] in N.
  assert (Z : filter (mine i) (snd (match s with
    | Some x => if existsb (fun q => can_gen glob ty q x) names
                then let (y, e) := h j x in (Some y, e)
                else (Some x, [])
    | None => (None, [])
    end)) = []).
  { destruct s as [x|]; [|reflexivity]. destruct (existsb _ _); [|reflexivity].
    pose proof (T j x) as Tx. destruct (h j x) as [y e]. cbn [snd] in *.
    rewrite (filter_mine i j) by auto. destruct (Nat.eqb_spec j i); auto.
    exfalso. apply N. now left. }
  destruct (match s with Some x => _ | None => _ end) as [s' e]. cbn [snd] in *.
  rewrite filter_app, Z. cbn [app].
  assert (Y : ~ In i (flat_map ids ks)) by (intros I; apply N; now right).
  clear N Z. induction ks as [|k ks IH]; cbn; auto.
  inversion F as [|? ? F1 F2]; subst. cbn in Y. rewrite in_app_iff in Y.
  rewrite filter_app, IH by tauto. rewrite app_nil_r.
  destruct (n_priv k); cbn; auto.
Qed.

Lemma broadcast_find : forall ty names h i, tagged h -> forall n ups p o s ks,
  NoDup (ids n) -> every (fun _ _ p _ _ => p = false) ups n ->
  find_node i n = Some (Nd i p o s ks) ->
  filter (mine i) (snd (broadcast glob ty names h n)) =
  match s with
  | Some x => if existsb (fun q => can_gen glob ty q x) names
              then snd (h i x) else []
  | None => []
  end.
Proof.
  intros ty names h i T n. induction n as [j p0 o0 s0 ks0 F] using node_ind'.
  intros ups p o s ks ND E Fi. cbn [find_node] in Fi. cbn [ids] in ND.
  apply NoDup_cons_iff in ND as [ND1 ND2]. apply every_eq in E as [_ E].
  destruct (Nat.eqb_spec i j).
  - injection Fi as -> -> -> -> ->. cbn [broadcast].
    assert (Z : forall l, ~ In i (flat_map ids l) -> filter (mine i)
      (List.concat (map snd (map (fun k => if n_priv k then (k, [])
         else broadcast glob ty names h k) l))) = []).
    { clear - T. induction l as [|k l IH]; cbn; auto. rewrite in_app_iff. intros N.
      rewrite filter_app, IH by tauto. rewrite app_nil_r.
      destruct (n_priv k); cbn; auto. apply broadcast_out; tauto. }
    destruct s as [x|]; [|cbn [snd]; rewrite filter_app, Z by auto; reflexivity].
    destruct (existsb _ _).
    + pose proof (T i x) as Tx. destruct (h i x) as [y es]. cbn [snd] in *.
      rewrite filter_app, Z by auto. rewrite app_nil_r, (filter_mine i i) by auto.
      now rewrite Nat.eqb_refl.
    + cbn [snd]. rewrite filter_app, Z by auto. reflexivity.
  - assert (Y : filter (mine i) (snd (match s0 with
      | Some x => if existsb (fun q => can_gen glob ty q x) names
                  then let (y, e) := h j x in (Some y, e)
                  else (Some x, [])
      | None => (None, [])
      end)) = []).
    { destruct s0 as [x'|]; [|reflexivity]. destruct (existsb _ _); [|reflexivity].
      pose proof (T j x') as Tx. destruct (h j x') as [y e]. cbn [snd] in *.
      rewrite (filter_mine i j) by auto. destruct (Nat.eqb_spec j i); auto.
      congruence. }
    cbn [broadcast].
    destruct (match s0 with Some x => _ | None => _ end) as [s' e]. cbn [snd] in *.
    rewrite filter_app, Y. cbn [app]. clear Y ND1.
    induction ks0 as [|k ks0 IH]; [discriminate|].
    inversion F as [|? ? F1 F2]; subst. inversion E as [|? ? E1 E2]; subst.
    cbn in ND2. apply NoDup_app_iff' in ND2 as (N1 & N2 & N3).
    cbn [map snd List.concat]. rewrite filter_app.
    assert (P : n_priv k = false).
    { destruct k. apply every_eq in E1 as [E1 _]. exact E1. }
    rewrite P.
    cbn [fold_right] in Fi. destruct (find_node i k) as [m|] eqn:Fk.
    + injection Fi as ->. rewrite (F1 _ _ _ _ _ N1 E1 eq_refl).
      assert (Z : filter (mine i) (List.concat (map snd (map (fun k => if n_priv k then (k, [])
         else broadcast glob ty names h k) ks0))) = []).
      { assert (O : ~ In i (flat_map ids ks0)).
        { intros I. apply (N3 i); auto. apply find_node_some in Fk. tauto. }
        clear - T O. induction ks0 as [|q l IH]; cbn in *; auto. rewrite in_app_iff in O.
        rewrite filter_app, IH by tauto. rewrite app_nil_r.
        destruct (n_priv q); cbn; auto. apply broadcast_out; tauto. }
      rewrite Z, app_nil_r. reflexivity.
    + rewrite (broadcast_out _ _ _ _ T k (find_node_none _ _ Fk)).
      cbn [app]. apply IH; auto.
Qed.

Lemma change_find : forall i g n m, NoDup (ids n) -> find_node i n = Some m ->
  snd (change_node i g n) = snd (g m).
Proof.
  intros i g n. induction n as [j p o s ks F] using node_ind'. intros m ND Fi.
  cbn [find_node] in Fi. cbn [change_node]. destruct (i =? j).
  - injection Fi as <-. reflexivity.
  - cbn [snd]. cbn [ids] in ND. apply NoDup_cons_iff in ND as [_ ND].
    induction ks as [|k ks IH]; [discriminate|].
    inversion F as [|? ? F1 F2]; subst. cbn in ND.
    apply NoDup_app_iff' in ND as (N1 & N2 & N3). cbn [map List.concat].
    cbn [fold_right] in Fi. destruct (find_node i k) as [m'|] eqn:Fk.
    + injection Fi as ->. rewrite (F1 _ N1 eq_refl).
      assert (O : ~ In i (flat_map ids ks)).
      { intros I. apply (N3 i); auto. apply find_node_some in Fk. tauto. }
      pose proof (change_in_out i g ks O) as C. unfold change_in in C.
      injection C as _ C. rewrite C, app_nil_r. reflexivity.
    + rewrite (change_out i g k) by (eapply find_node_none; eauto).
      cbn [snd app]. apply IH; auto.
Qed.

(** ** What is below a node *)

Lemma find_nodup : forall i n m, NoDup (ids n) -> find_node i n = Some m ->
  NoDup (ids m).
Proof.
  intros i n m. induction n as [j p o s ks F] using node_ind'. intros ND E.
  cbn [find_node] in E. destruct (i =? j); [injection E as <-; auto|].
  cbn [ids] in ND. apply NoDup_cons_iff in ND as [_ ND].
  induction ks as [|k ks IH]; [discriminate|]. inversion F as [|? ? F1 F2]; subst.
  cbn in ND, E. apply NoDup_app_iff' in ND as (A & B & _).
  destruct (find_node i k) eqn:Fk; auto.
Qed.

Lemma every_and : forall (Q Q' : list nat -> nat -> bool -> list reg -> option src -> Prop) n ups,
  every Q ups n -> every Q' ups n ->
  every (fun u i p o s => Q u i p o s /\ Q' u i p o s) ups n.
Proof.
  intros Q Q' n. induction n as [i p o s ks F] using node_ind'. intros ups A B.
  apply every_eq in A as [A1 A2]. apply every_eq in B as [B1 B2].
  apply every_eq. split; auto. rewrite Forall_forall in *. auto.
Qed.

Lemma every_ids : forall n m ups, (forall i, In i (ids n) -> In i m) ->
  every (fun _ i _ _ _ => In i m) ups n.
Proof.
  intros n m. induction n as [i p o s ks F] using node_ind'. intros ups H.
  apply every_eq. split; [apply H; now left|]. rewrite Forall_forall in *.
  intros k K. apply F; auto. intros j J. apply H. right. apply in_flat_map. eauto.
Qed.

Lemma every_absent : forall i0 n ups, ~ In i0 (ids n) -> ~ In i0 ups ->
  every (fun u i _ _ _ => ~ In i0 (i :: u)) ups n.
Proof.
  intros i0 n. induction n as [i p o s ks F] using node_ind'. intros ups N U.
  cbn [ids] in N. apply every_eq. split.
  - intros [->|I]; auto. apply N. now left.
  - rewrite Forall_forall in *. intros k K. apply F; auto.
    + intros I. apply N. right. apply in_flat_map. eauto.
    + intros [->|I]; auto. apply N. now left.
Qed.

Lemma locate : forall i0 m n ups, NoDup (ids n) -> ~ In i0 ups ->
  find_node i0 n = Some m ->
  every (fun u i _ _ _ => In i0 (i :: u) -> In i (ids m)) ups n.
Proof.
  intros i0 m n. induction n as [i p o s ks F] using node_ind'. intros ups ND U E.
  cbn [find_node] in E. cbn [ids] in ND. apply NoDup_cons_iff in ND as [N1 N2].
  destruct (Nat.eqb_spec i0 i).
  - injection E as <-. eapply every_impl; [|apply every_ids].
    + intros u j p' o' s' _ _ J _. exact J.
    + auto.
  - apply every_eq. split.
    + intros [X|X]; [congruence|tauto].
    + clear N1. induction ks as [|k ks IH]; constructor.
      * inversion F as [|? ? F1 F2]; subst. cbn in N2, E.
        apply NoDup_app_iff' in N2 as (A & B & C).
        destruct (find_node i0 k) as [m'|] eqn:Fk.
        -- injection E as ->. apply F1; auto. intros [X|X]; [congruence|tauto].
        -- eapply every_impl; [|apply (every_absent i0)].
           ++ intros u j p' o' s' _ _ J X. destruct (J X).
           ++ now apply find_node_none.
           ++ intros [X|X]; [congruence|tauto].
      * inversion F as [|? ? F1 F2]; subst. cbn in N2, E.
        apply NoDup_app_iff' in N2 as (A & B & C).
        destruct (find_node i0 k) as [m'|] eqn:Fk; [|apply IH; auto].
        apply Forall_forall. intros q Q.
        eapply every_impl; [|apply (every_absent i0)].
        -- intros u j p' o' s' _ _ J X. destruct (J X).
        -- intros X. apply find_node_some in Fk as [_ Fk]. apply (C i0); auto.
           apply in_flat_map. eauto.
        -- intros [X|X]; [congruence|tauto].
Qed.

Lemma locate_in : forall i0 m rs, NoDup (flat_map ids rs) ->
  find_in i0 rs = Some m ->
  Forall (every (fun u i _ _ _ => In i0 (i :: u) -> In i (ids m)) []) rs.
Proof.
  intros i0 m rs. induction rs as [|n rs IH]; [discriminate|]. intros ND E.
  cbn in ND, E. apply NoDup_app_iff' in ND as (A & B & C).
  destruct (find_node i0 n) as [m'|] eqn:Fk.
  - injection E as ->. constructor; [now apply locate|].
    apply Forall_forall. intros q Q.
    eapply every_impl; [|apply (every_absent i0)].
    + intros u j p' o' s' _ _ J X. destruct (J X).
    + intros X. apply find_node_some in Fk as [_ Fk]. apply (C i0); auto.
      apply in_flat_map. eauto.
    + auto.
  - constructor; [|auto].
    eapply every_impl; [|apply (every_absent i0)].
    + intros u j p' o' s' _ _ J X. destruct (J X).
    + now apply find_node_none.
    + auto.
Qed.

Lemma below_made : forall Lo l f j i, winv Lo l f -> below l j i -> made l i ->
  i <> 0 -> made l j /\ j <> 0.
Proof.
  intros Lo l f j i V B M Z. inversion B as [|? p ? P _]; subst; auto.
  split; [eapply w_parent; eauto|]. intros ->. eapply w_zero; eauto.
Qed.

Lemma sub_below : forall Lo l f i n, winv Lo l f -> find_all i f = Some n ->
  forall j, In j (ids n) <-> below l j i.
Proof.
  intros Lo l f i n V F j. destruct (find_fits _ _ _ _ _ V F) as (E & t & Q).
  assert (FI : In i (flat_map ids (f_roots f))).
  { unfold find_all, all_trees in F. rewrite (w_kids _ _ _ V) in F. cbn in F.
    apply find_in_some in F as (m & M & F). apply find_node_some in F as [_ F].
    apply in_flat_map. eauto. }
  assert (IZ : i <> 0).
  { intros ->. apply in_flat_map in FI as (m & M & FI).
    pose proof (w_every _ _ _ V) as W. rewrite Forall_forall in W.
    exact (ids_not_zero _ _ _ _ _ _ _ (W _ M) FI). }
  split.
  - intros J. destruct (every_find _ _ _ _ Q J) as (u & p & o & s & A & B).
    destruct A as (_ & _ & _ & L & _). apply (linked_below _ _ _ _ L).
    apply B. left. exact E.
  - intros B.
    destruct (below_made _ _ _ _ _ V B) as [M Z]; auto.
    { apply (w_made _ _ _ V). auto. }
    apply (w_made _ _ _ V) in M as [M|M]; [congruence|].
    apply in_flat_map in M as (m & M & J).
    unfold find_all, all_trees in F. rewrite (w_kids _ _ _ V) in F. cbn in F.
    pose proof (locate_in _ _ _ (w_nodup _ _ _ V) F) as Lc.
    pose proof (w_every _ _ _ V) as W. rewrite Forall_forall in W, Lc.
    destruct (every_find _ _ _ _ (every_and _ _ _ _ (W _ M) (Lc _ M)) J)
      as (u & p & o & s & [A A'] & _).
    apply A'. destruct A as (_ & _ & _ & L & _). now apply (linked_below _ _ _ _ L).
Qed.

(** ** Calls made by broadcasting *)

Lemma every_plain : forall Lo Ld l n ups, every (fits glob keep Lo Ld l) ups n ->
  every (fun _ _ p _ _ => p = false) ups n.
Proof.
  intros Lo Ld l n ups E. eapply every_impl; [|exact E].
  intros u i p o s _ _ (P & _). exact P.
Qed.

Lemma roots_out : forall ty names h i, tagged h -> forall rs,
  ~ In i (flat_map ids rs) ->
  filter (mine i) (List.concat (map (fun n => snd (broadcast glob ty names h n)) rs)) = [].
Proof.
  intros ty names h i T rs. induction rs as [|n rs IH]; cbn; auto.
  rewrite in_app_iff. intros N. rewrite filter_app, IH, broadcast_out; auto.
Qed.

Lemma roots_find : forall ty names h i, tagged h -> forall rs p o s ks,
  NoDup (flat_map ids rs) ->
  Forall (every (fun _ _ p _ _ => p = false) []) rs ->
  find_in i rs = Some (Nd i p o s ks) ->
  filter (mine i) (List.concat (map (fun n => snd (broadcast glob ty names h n)) rs)) =
  match s with
  | Some x => if existsb (fun q => can_gen glob ty q x) names
              then snd (h i x) else []
  | None => []
  end.
Proof.
  intros ty names h i T rs. induction rs as [|n rs IH]; [discriminate|].
  intros p o s ks ND E Fi. cbn in ND, Fi. apply NoDup_app_iff' in ND as (A & B & C).
  inversion E as [|? ? E1 E2]; subst. cbn [map List.concat]. rewrite filter_app.
  destruct (find_node i n) as [m|] eqn:Fn.
  - injection Fi as ->. rewrite (broadcast_find _ _ _ _ T _ _ _ _ _ _ A E1 Fn).
    rewrite roots_out; auto.
    + now rewrite app_nil_r.
    + apply find_node_some in Fn as [_ Fn]. auto.
  - rewrite broadcast_out; auto.
    + cbn [app]. eapply IH; eauto.
    + now apply find_node_none.
Qed.

Lemma change_in_find : forall i g rs m, NoDup (flat_map ids rs) ->
  find_in i rs = Some m -> snd (change_in i g rs) = snd (g m).
Proof.
  intros i g rs. induction rs as [|n rs IH]; [discriminate|].
  intros m ND Fi. cbn in ND, Fi. apply NoDup_app_iff' in ND as (A & B & C).
  unfold change_in in *. cbn [map List.concat snd] in *.
  destruct (find_node i n) as [m'|] eqn:Fn.
  - injection Fi as ->. rewrite (change_find _ _ _ _ A Fn).
    assert (O : ~ In i (flat_map ids rs)).
    { apply find_node_some in Fn as [_ Fn]. auto. }
    pose proof (change_in_out i g rs O) as D. unfold change_in in D.
    injection D as _ D. rewrite D, app_nil_r. reflexivity.
  - rewrite (change_out i g n) by (now apply find_node_none).
    cbn [snd app]. now apply IH.
Qed.

Lemma fold_global : forall ty names h f,
  f_kids f = [] -> NoDup (flat_map ids (f_roots f)) ->
  fold_left (fun acc j =>
     let (f', e) := change_all j (broadcast glob ty names h) (fst acc) in
     (f', (snd acc ++ e)%list))
    (map n_id (f_roots f)) (f, []) =
  (mkForest (f_obs f) [] (map (fun n => fst (broadcast glob ty names h n)) (f_roots f))
            (f_tracked f),
   List.concat (map (fun n => snd (broadcast glob ty names h n)) (f_roots f))).
Proof.
  intros ty names h [ob kids rs tr] K N. cbn [f_kids f_roots f_obs f_tracked] in *. subst kids.
  exact (fold_roots glob ty names h rs [] ob [] tr N).
Qed.

(** The calls made for source [i] when a registration [r] is broadcast. *)
Lemma broadcast_calls : forall Lo l f r h i, winv Lo l f -> tagged h ->
  keep r = true -> made l (r_at r) ->
  let e := filter (mine i)
    (snd (broadcast_at glob (r_at r) (r_type r) [r_name r] h f)) in
  (forall ty nm, source l i ty nm -> asks ty nm r -> r_at r = 0 \/ below l i (r_at r) ->
     exists ups p o x, fits glob keep Lo (live l) l ups i p o (Some x) /\
                       e = snd (h i x)) /\
  (~ (exists ty nm, source l i ty nm /\ asks ty nm r /\
        (r_at r = 0 \/ below l i (r_at r))) -> e = []).
Proof.
  intros Lo l f r h i V T K M e.
  pose proof (w_every _ _ _ V) as W.
  assert (WP : Forall (every (fun _ _ p _ _ => p = false) []) (f_roots f)).
  { rewrite Forall_forall in *. intros n N. eapply every_plain; eauto. }
  (* where [i] is treated *)
  assert (X : (exists ups p o s ks, e = match s with
      | Some x => if wants glob x r then snd (h i x) else []
      | None => []
      end /\ fits glob keep Lo (live l) l ups i p o s /\ ks = @nil node /\
      (r_at r = 0 \/ below l i (r_at r))) \/
    (e = [] /\ ~ (made l i /\ i <> 0 /\ (r_at r = 0 \/ below l i (r_at r))))).
  { unfold e. clear e. unfold broadcast_at. destruct (Nat.eqb_spec (r_at r) 0) as [Z|Z].
    - destruct (w_tracked _ _ _ V) as [H|H].
      { exfalso. eapply H; eauto. }
      rewrite H, fold_global by (apply (w_kids _ _ _ V) || apply (w_nodup _ _ _ V)). cbn [snd].
      destruct (find_in i (f_roots f)) as [[j p o s ks]|] eqn:F.
      + left. pose proof F as F'. apply find_in_some in F as (m & M' & F).
        pose proof (find_node_some _ _ _ F) as [J _]. cbn in J. subst j.
        rewrite Forall_forall in W.
        destruct (find_every _ _ _ _ _ (W _ M') F) as (t & Q). rewrite app_nil_r in Q.
        apply every_eq in Q as [Q _].
        exists t, p, o, s, []. split; [|auto].
        rewrite (roots_find _ _ _ _ T _ _ _ _ _ (w_nodup _ _ _ V) WP F').
        destruct s as [x|]; auto. now rewrite wants_names.
      + right. apply find_in_none in F. split; [now apply roots_out|].
        intros (A & B & _). apply (w_made _ _ _ V) in A. tauto.
    - destruct (find_made _ _ _ _ V M Z) as (n & F).
      pose proof (sub_below _ _ _ _ _ V F i) as S.
      pose proof F as F0. unfold find_all, all_trees in F0.
      rewrite (w_kids _ _ _ V) in F0. cbn [app] in F0.
      unfold change_all. rewrite (w_kids _ _ _ V).
      pose proof (change_in_find _ (broadcast glob (r_type r) [r_name r] h) _ _
        (w_nodup _ _ _ V) F0) as C.
      destruct (change_in (r_at r) (broadcast glob (r_type r) [r_name r] h) (f_roots f))
        as [rs e2]. cbn [snd] in C. subst e2. cbn.
      destruct (find_fits _ _ _ _ _ V F) as (E & t & Q).
      destruct (find_node i n) as [[j p o s ks]|] eqn:Fi.
      + left. pose proof (find_node_some _ _ _ Fi) as [J I]. cbn in J. subst j.
        destruct (find_every _ _ _ _ _ Q Fi) as (t' & Q').
        apply every_eq in Q' as [Q' _].
        exists (t' ++ t), p, o, s, []. split; [|split; [exact Q'|split; auto]].
        * apply find_in_some in F0 as (m & M' & F0).
          assert (ND : NoDup (ids n)).
          { pose proof (w_nodup _ _ _ V) as N. revert M' F0 N. clear.
            intros M F N.
            assert (N' : NoDup (ids m)).
            { apply in_split in M as (a & b & M). rewrite M in N. rewrite flat_map_app in N.
              cbn in N. apply NoDup_app_iff' in N as (_ & N & _).
              apply NoDup_app_iff' in N. tauto. }
            eapply find_nodup; eauto. }
          rewrite (broadcast_find _ _ _ _ T _ _ _ _ _ _ ND (every_plain _ _ _ _ _ Q) Fi).
          destruct s as [x|]; auto. now rewrite wants_names.
        * right. now apply S.
      + right. apply find_node_none in Fi. split; [now apply broadcast_out|].
        intros (_ & _ & [A|A]); [congruence|]. apply S in A. auto. }
  destruct X as [(ups & p & o & s & ks & X1 & X2 & _ & X3)|[X1 X2]].
  - split.
    + intros ty nm S A _. destruct s as [x|].
      * exists ups, p, o, x. split; auto. rewrite X1.
        destruct X2 as (_ & _ & _ & _ & (X2 & _)). apply X2 in S as [-> ->].
        apply wants_asks in A. now rewrite A.
      * exfalso. destruct X2 as (_ & _ & _ & _ & X2). eapply X2; eauto.
    + intros N. rewrite X1. destruct s as [x|]; auto.
      destruct (wants glob x r) eqn:Wa; auto. exfalso. apply N.
      exists (s_type x), (s_name x). destruct X2 as (_ & _ & _ & _ & (X2 & _)).
      split; [now apply X2|]. split; auto. now apply wants_asks.
  - split; auto. intros ty nm S A B. exfalso. apply X2.
    split; [eapply source_made; eauto|]. split; auto. intros ->.
    destruct S as (q & S). apply (w_zero _ _ _ V q). right. left. eauto.
Qed.

(** ** What is accepted *)

Lemma can_subtree_some : forall ty q (Q : list nat -> nat -> bool -> list reg -> option src -> Prop) n ups,
  every Q ups n -> can_subtree glob ty q n = true ->
  exists ups' j p o x, Q ups' j p o (Some x) /\ In j (ids n) /\
    can_gen glob ty q x = true.
Proof.
  intros ty q Q n. induction n as [i p o s ks F] using node_ind'. intros ups E C.
  apply every_eq in E as [E1 E2]. cbn [can_subtree] in C.
  apply orb_true_iff in C as [C|C].
  - destruct s as [x|]; [|discriminate]. exists ups, i, p, o, x.
    repeat split; auto. now left.
  - apply existsb_exists in C as (k & K & C). apply andb_true_iff in C as [_ C].
    rewrite Forall_forall in F, E2.
    destruct (F k K _ (E2 k K) C) as (u & j & p' & o' & x & A & B & D).
    exists u, j, p', o', x. repeat split; auto. right. apply in_flat_map. eauto.
Qed.

Lemma can_subtree_in : forall l q ty nm r j n ups,
  every (fits glob keep q q l) ups n -> In j (ids n) ->
  source l j ty nm -> asks ty nm r ->
  can_subtree glob (r_type r) (r_name r) n = true.
Proof.
  intros l q ty nm r j n. induction n as [i p o s ks F] using node_ind'.
  intros ups E I S A. apply every_eq in E as [E1 E2]. cbn [can_subtree].
  apply orb_true_iff. destruct I as [->|I].
  - left. destruct E1 as (_ & _ & _ & _ & E1). destruct s as [x|].
    + destruct E1 as (E1 & _). apply E1 in S as [-> ->].
      rewrite (can_gen_wants glob). now apply wants_asks.
    + exfalso. eapply E1; eauto.
  - right. apply in_flat_map in I as (k & K & I). apply existsb_exists.
    exists k. split; auto. rewrite Forall_forall in F, E2.
    rewrite (F k K _ (E2 k K) I S A), andb_true_r.
    specialize (E2 k K). destruct k. apply every_eq in E2 as [(P & _) _].
    cbn. now rewrite P.
Qed.

Lemma subtree_at : forall l f r, inv glob keep l f -> made l (r_at r) ->
  (can_subtree_at glob (r_at r) (r_type r) (r_name r) f = true <->
   r_at r <> 0 /\ exists i ty nm, source l i ty nm /\ asks ty nm r /\ below l i (r_at r)).
Proof.
  intros l f r V M. unfold can_subtree_at.
  destruct (Nat.eqb_spec (r_at r) 0) as [Z|Z].
  - rewrite (v_kids _ _ _ _ V). cbn. split; [discriminate|]. intros [A _]. congruence.
  - destruct (find_made _ _ _ _ (inv_winv _ _ V) M Z) as (n & F). rewrite F.
    destruct (find_fits _ _ _ _ _ (inv_winv _ _ V) F) as (E & t & Q). split.
    + intros C. split; auto.
      destruct (can_subtree_some _ _ _ _ _ Q C) as (u & j & p & o & x & A & B & D).
      exists j, (s_type x), (s_name x). repeat split.
      * destruct A as (_ & _ & _ & _ & (A & _)). now apply A.
      * rewrite (can_gen_wants glob) in D. apply wants_asks in D. apply D.
      * rewrite (can_gen_wants glob) in D. apply wants_asks in D. apply D.
      * now apply (sub_below _ _ _ _ _ (inv_winv _ _ V) F).
    + intros [_ (i & ty & nm & A & B & C)].
      eapply can_subtree_in; eauto. now apply (sub_below _ _ _ _ _ (inv_winv _ _ V) F).
Qed.

Lemma reg_accepted : forall l f r b, inv glob keep l f ->
  names_in (r_name r) = Some [r_name r] ->
  (snd (fst (step glob f (Reg r b))) = true <->
   made l (r_at r) /\ ~ In r (live l) /\
   (b = true -> r_at r <> 0 /\
      exists i ty nm, source l i ty nm /\ asks ty nm r /\ below l i (r_at r))).
Proof.
  intros l f r b V C. cbn [step]. unfold register.
  destruct (obs_at (r_at r) f) as [o|] eqn:O.
  2:{ apply (obs_at_none _ _ _ _ _ V) in O. cbn. split; [discriminate|]. tauto. }
  destruct (obs_at_live _ _ _ _ _ _ V O) as [M ->].
  pose proof (subtree_at _ _ _ V M) as S.
  assert (X : existsb (reg_eqb r) (at_ (live l) (r_at r)) = true <-> In r (live l)).
  { rewrite existsb_reg. unfold at_. rewrite filter_In, Nat.eqb_refl. tauto. }
  rewrite C. destruct (broadcast_at _ _ _ _ _ _).
  destruct (can_subtree_at glob (r_at r) (r_type r) (r_name r) f) eqn:CS;
    destruct (existsb (reg_eqb r) (at_ (live l) (r_at r))) eqn:EX;
    destruct b; cbn; split; intros Y; try discriminate Y; try reflexivity;
    intuition congruence.
Qed.

Lemma dereg_accepted : forall l f r, inv glob keep l f ->
  names_in (r_name r) = Some [r_name r] ->
  (snd (fst (step glob f (Dereg r))) = true <-> In r (live l)).
Proof.
  intros l f r V C. cbn [step]. unfold deregister.
  destruct (obs_at (r_at r) f) as [o|] eqn:O.
  2:{ apply (obs_at_none _ _ _ _ _ V) in O. cbn. split; [discriminate|].
      intros I. exfalso. apply O. now apply (v_at _ _ _ _ V). }
  destruct (obs_at_live _ _ _ _ _ _ V O) as [M ->].
  assert (X : existsb (reg_eqb r) (at_ (live l) (r_at r)) = true <-> In r (live l)).
  { rewrite existsb_reg. unfold at_. rewrite filter_In, Nat.eqb_refl. tauto. }
  destruct (existsb (reg_eqb r) (at_ (live l) (r_at r))) eqn:EX; cbn [negb].
  - rewrite C. destruct (broadcast_at _ _ _ _ _ _). cbn. tauto.
  - cbn. split; [discriminate|]. intros I. apply X in I. discriminate.
Qed.

Lemma post_accepted : forall l f i d, inv glob keep l f ->
  (snd (fst (step glob f (Post i d))) = true <-> exists ty nm, source l i ty nm).
Proof.
  intros l f i d V. cbn [step]. unfold post. split.
  - destruct (find_all i f) as [[j p o [x|] ks]|] eqn:F; try discriminate. intros _.
    destruct (find_fits _ _ _ _ _ (inv_winv _ _ V) F) as (E & t & Q). cbn in E. subst j.
    apply every_eq in Q as [(_ & _ & _ & _ & (Q & _)) _].
    exists (s_type x), (s_name x). now apply Q.
  - intros (ty & nm & S).
    destruct (find_source _ _ _ _ _ V S) as (u & p & o & x & ks & F & _).
    rewrite F. reflexivity.
Qed.

Lemma chain_in_none : forall i rs, chain_in i rs = None <-> ~ In i (flat_map ids rs).
Proof.
  intros i rs. induction rs as [|n rs IH]; cbn; [tauto|].
  rewrite in_app_iff. destruct (chain_node i n) eqn:C.
  - apply chain_has in C as [C _]. split; [discriminate|tauto].
  - apply chain_none in C. tauto.
Qed.

Lemma add_child_some : forall k p f, p <> 0 -> f_kids f = [] ->
  ((exists f', add_child glob k p f = Some f') <-> In p (flat_map ids (f_roots f))).
Proof.
  intros k p f Z K. unfold add_child, chain_all.
  destruct (Nat.eqb_spec p 0); [congruence|]. rewrite K. cbn [chain_in].
  destruct (chain_in p (f_roots f)) eqn:C.
  - split; [|eauto]. intros _.
    destruct (in_dec Nat.eq_dec p (flat_map ids (f_roots f))) as [I|I]; auto.
    apply chain_in_none in I. congruence.
  - split; [intros [f' E]; discriminate|]. intros I. now apply chain_in_none in C.
Qed.

Lemma new_accepted : forall l f i, inv glob keep l f ->
  (known i f = false <-> ~ made l i).
Proof.
  intros l f i V. pose proof (known_made _ _ _ _ i V) as M.
  destruct (known i f); split; intuition congruence.
Qed.

Lemma roots_orphans : forall l f i, inv glob keep l f ->
  ((exists k, find (fun n => n_id n =? i) (f_roots f) = Some k) <->
   made l i /\ i <> 0 /\ forall p, ~ parent l i p).
Proof.
  intros l f i V. pose proof (v_every _ _ _ _ V) as W. rewrite Forall_forall in W.
  split.
  - intros (k & K). apply find_some in K as [K E]. apply Nat.eqb_eq in E.
    pose proof (W k K) as Q. destruct k as [j p o s ks]. cbn in E. subst j.
    assert (J : In i (flat_map ids (f_roots f))).
    { apply in_flat_map. eexists. split; [exact K|]. now left. }
    split; [apply (v_made _ _ _ _ V); auto|].
    apply every_eq in Q as [Q _]. split.
    + eapply zero_not_in; eauto.
    + destruct Q as (_ & _ & _ & [Q _] & _). intros q P. apply Q in P. discriminate.
  - intros (M & Z & P). apply (v_made _ _ _ _ V) in M as [M|M]; [congruence|].
    apply in_flat_map in M as (m & M & J).
    destruct (every_find _ _ _ _ (W m M) J) as (u & p & o & s & A & B).
    destruct u as [|a u].
    + specialize (B (n_id m) (or_introl eq_refl)). destruct B as [B|[]].
      destruct (find (fun n => n_id n =? i) (f_roots f)) as [k|] eqn:F; [eauto|].
      exfalso. pose proof (find_none _ _ F m M) as N. cbn in N.
      rewrite <- B, Nat.eqb_refl in N. discriminate.
    + exfalso. destruct A as (_ & _ & _ & [A _] & _). apply (P a). now apply A.
Qed.

Lemma attach_accepted : forall l f i p, inv glob keep l f -> p <> 0 ->
  (snd (fst (step glob f (Attach i p))) = true <->
   (made l i /\ i <> 0 /\ forall q, ~ parent l i q) /\ made l p /\ ~ below l p i).
Proof.
  intros l f i p V Z. cbn [step]. pose proof (roots_orphans _ _ i V) as R.
  destruct (find (fun n => n_id n =? i) (f_roots f)) as [k|] eqn:FK.
  2:{ cbn. split; [discriminate|]. intros [R1 _]. apply R in R1 as [k K]. discriminate. }
  assert (R1 : made l i /\ i <> 0 /\ forall q, ~ parent l i q) by (apply R; eauto).
  destruct (filter_ids i (f_roots f) k (v_nodup _ _ _ _ V) FK) as (KI & KR & KP).
  assert (B : In p (ids k) <-> below l p i).
  { destruct (find_made _ _ _ _ (inv_winv _ _ V) (proj1 R1) (proj1 (proj2 R1))) as (n & F).
    rewrite <- (sub_below _ _ _ _ _ (inv_winv _ _ V) F).
    assert (n = k); [|subst; tauto].
    unfold find_all, all_trees in F. rewrite (v_kids _ _ _ _ V) in F. cbn in F.
    pose proof (v_nodup _ _ _ _ V) as ND. revert F FK ND. clear.
    induction (f_roots f) as [|m rs IH]; [discriminate|]. cbn.
    intros F FK ND. apply NoDup_app_iff' in ND as (A & B & C).
    destruct m as [j p o s ks]. cbn [n_id] in FK. cbn [find_node] in F.
    destruct (Nat.eqb_spec i j), (Nat.eqb_spec j i); try congruence.
    destruct (fold_right _ None ks) as [x|] eqn:FR; [|auto].
    exfalso. apply find_some in FK as [FK1 FK2]. apply Nat.eqb_eq in FK2.
    assert (I : In i (flat_map ids rs)).
    { apply in_flat_map. exists k. split; auto. subst i. destruct k. now left. }
    apply (C i); auto.
    assert (X : find_node i (Nd j p o s ks) = Some x).
    { cbn [find_node]. destruct (Nat.eqb_spec i j); [congruence|exact FR]. }
    now apply find_node_some in X. }
  destruct (find_node p k) as [m|] eqn:FP.
  - apply find_node_some in FP as [_ FP]. apply B in FP. cbn.
    split; [discriminate|tauto].
  - apply find_node_none in FP.
    pose proof (add_child_some k p (mkForest (f_obs f) (f_kids f)
      (filter (fun n => negb (n_id n =? i)) (f_roots f)) (f_tracked f)) Z
      (v_kids _ _ _ _ V)) as A. cbn [f_roots] in A.
    assert (P : In p (flat_map ids (filter (fun n => negb (n_id n =? i)) (f_roots f)))
                <-> made l p).
    { rewrite (v_made _ _ _ _ V). split.
      - intros I. right. apply (Permutation_in _ (Permutation_sym KP)).
        apply in_or_app. auto.
      - intros [I|I]; [congruence|]. apply (Permutation_in _ KP) in I.
        apply in_app_or in I as [I|I]; tauto. }
    destruct (add_child glob k p _) as [f'|] eqn:AC; cbn.
    + split; auto. intros _. split; auto. split; [|tauto]. apply P, A. eauto.
    + split; [discriminate|]. intros (_ & I & _). apply P, A in I as [f' I]. discriminate.
Qed.

Lemma cb_accepted : forall l f i c cb, inv glob keep l f ->
  (snd (fst (step glob f (AddCb i c cb))) = true <->
   (exists ty nm, source l i ty nm) /\ ~ In cb (map snd (cbs l i))).
Proof.
  intros l f i c cb V. cbn [step].
  assert (X : forall x : list (change * nat),
    existsb (fun y => snd y =? cb) x = true <-> In cb (map snd x)).
  { intros x. rewrite existsb_exists, in_map_iff. split.
    - intros (y & Y & E). apply Nat.eqb_eq in E. eauto.
    - intros (y & <- & Y). exists y. split; auto. apply Nat.eqb_refl. }
  split.
  - destruct (find_all i f) as [[j p o [x|] ks]|] eqn:F; try discriminate.
    destruct (find_fits _ _ _ _ _ (inv_winv _ _ V) F) as (E & t & Q). cbn in E. subst j.
    apply every_eq in Q as [(_ & _ & _ & _ & (Q & _ & _ & _ & CB)) _].
    destruct (existsb _ (s_cbs x)) eqn:EX; [discriminate|]. intros _. split.
    + exists (s_type x), (s_name x). now apply Q.
    + rewrite <- CB, <- X. congruence.
  - intros [(ty & nm & S) N].
    destruct (find_source _ _ _ _ _ V S) as (u & p & o & x & ks & F & Q & _).
    rewrite F. destruct Q as (_ & _ & _ & _ & (_ & _ & _ & _ & CB)).
    destruct (existsb _ (s_cbs x)) eqn:EX; auto. exfalso. apply N.
    rewrite <- CB. now apply X.
Qed.

(** ** All calls of a broadcast are calls of callbacks *)

Definition is_cb (e : event) : Prop := exists cb i c n, e = StateCb cb i c n.

Lemma tagged_cb : forall h, tagged h -> forall j x, Forall is_cb (snd (h j x)).
Proof.
  intros h T j x. eapply Forall_impl; [|apply T].
  intros e (cb & c & n & ->). unfold is_cb. eauto.
Qed.

Lemma concat_all : forall A (P : A -> Prop) l, Forall (Forall P) l ->
  Forall P (List.concat l).
Proof.
  intros A P l F. induction F; cbn; [constructor|]. apply Forall_app. auto.
Qed.

Lemma broadcast_cb : forall ty names h, tagged h -> forall n,
  Forall is_cb (snd (broadcast glob ty names h n)).
Proof.
  intros ty names h T n. induction n as [j p o s ks F] using node_ind'.
  cbn [broadcast].
  assert (Z : Forall is_cb (snd (match s with
    | Some x => if existsb (fun q => can_gen glob ty q x) names
                then let (y, e) := h j x in (Some y, e)
                else (Some x, [])
    | None => (None, [])
    end))).
  { destruct s as [x|]; [|constructor]. destruct (existsb _ _); [|constructor].
    pose proof (tagged_cb _ T j x). now destruct (h j x). }
  destruct (match s with Some x => _ | None => _ end) as [s' e]. cbn [snd] in *.
  apply Forall_app. split; auto. apply concat_all. rewrite map_map.
  apply Forall_map. rewrite Forall_forall in *. intros k K.
  destruct (n_priv k); [constructor|auto].
Qed.

Lemma change_node_cb : forall i g, (forall m, Forall is_cb (snd (g m))) ->
  forall n, Forall is_cb (snd (change_node i g n)).
Proof.
  intros i g H n. induction n as [j p o s ks F] using node_ind'. cbn [change_node].
  destruct (i =? j); auto. cbn [snd]. apply concat_all. rewrite map_map.
  now apply Forall_map.
Qed.

Lemma change_all_cb : forall i g f, (forall m, Forall is_cb (snd (g m))) ->
  Forall is_cb (snd (change_all i g f)).
Proof.
  intros i g f H. unfold change_all, change_in. cbn [snd].
  apply Forall_app. split; apply concat_all; rewrite map_map;
    apply Forall_map, Forall_forall; intros n _; now apply change_node_cb.
Qed.

Lemma broadcast_at_cb : forall i ty names h f, tagged h ->
  Forall is_cb (snd (broadcast_at glob i ty names h f)).
Proof.
  intros i ty names h f T. unfold broadcast_at. destruct (i =? 0).
  - assert (G : forall tr acc, Forall is_cb (snd acc) ->
      Forall is_cb (snd (fold_left (fun acc j =>
         let (f', e) := change_all j (broadcast glob ty names h) (fst acc) in
         (f', (snd acc ++ e)%list)) tr acc))).
    { induction tr as [|j tr IH]; cbn [fold_left]; auto. intros acc A. apply IH.
      pose proof (change_all_cb j (broadcast glob ty names h) (fst acc)
        (broadcast_cb ty names h T)) as C.
      destruct (change_all j _ (fst acc)). cbn [snd] in *. apply Forall_app. auto. }
    apply G. constructor.
  - apply change_all_cb. now apply broadcast_cb.
Qed.

Lemma set_obs_winv : forall l f r, inv glob keep l f ->
  winv (live l ++ [r]) l (set_obs (r_at r) (fun o => o ++ [r]) f).
Proof.
  intros l f r V. pose proof (v_every _ _ _ _ V) as W. unfold set_obs.
  destruct (Nat.eqb_spec (r_at r) 0) as [Z|Z].
  - constructor; cbn [f_kids f_roots f_obs f_tracked]; try apply V.
    rewrite Forall_forall in *. intros n N. eapply every_impl; [|apply W, N].
    intros ups i p ob s _ _ F. eapply fits_same; [| | |exact F]; auto.
    + intros j _. repeat split; auto.
    + rewrite at_snoc. destruct (Nat.eqb_spec (r_at r) i).
      * exfalso. apply (zero_not_in _ _ _ _ _ _ _ _ _ _ F). congruence.
      * now rewrite app_nil_r.
  - rewrite change_forest by apply V.
    assert (I1 : forall g m, ids (fst (change_obs g m)) = ids m) by now intros g [].
    assert (I2 : forall g m, n_id (fst (change_obs g m)) = n_id m) by now intros g [].
    constructor; cbn [f_kids f_roots f_obs f_tracked]; auto; try apply V.
    + rewrite map_change_ids; auto. apply V.
    + rewrite Forall_forall in *. intros n N. apply in_map_iff in N as (m & <- & N).
      apply (every_obs glob keep (live l)).
      * intros i J. rewrite at_snoc. destruct (Nat.eqb_spec (r_at r) i); [congruence|].
        now rewrite app_nil_r.
      * now rewrite at_snoc, Nat.eqb_refl.
      * now apply W.
    + intros i. rewrite map_change_ids; auto. apply V.
    + rewrite map_change_id; auto. apply V.
Qed.

End Ev.
