(** C64: the parameter tree knows which parameters were read and which are
    required. *)
From Coq Require Import NArith List Bool String Ascii Lia.
From Verif Require Import ParamTreeModel ParamTreeSpec ParamTreeProofs
  ParamTreeProps ParamTreeMergeProps.
Import ListNotations.
Open Scope string_scope.
Open Scope N_scope.

(** ** All nodes of a tree *)

(** Every node of a tree: the names of its path, its value, how often it was
    read. *)
Definition entry := (list string * option (string * string) * N)%type.
Definition e_path (e : entry) := fst (fst e).
Definition e_val (e : entry) := snd (fst e).
Definition e_reads (e : entry) := snd e.
Definition push (nm : string) (e : entry) : entry :=
  (nm :: e_path e, e_val e, e_reads e).

Fixpoint nodes (n : node) : list entry :=
  let 'Node _ v _ r _ kids := n in
  ([], v, r) :: flat_map (fun k => map (push (n_name k)) (nodes k)) kids.

Definition kid_nodes (kids : list node) : list entry :=
  flat_map (fun k => map (push (n_name k)) (nodes k)) kids.

Lemma nodes_eq : forall n,
  nodes n = ([], n_val n, n_reads n) :: kid_nodes (n_kids n).
Proof. now destruct n. Qed.

Lemma kid_nodes_app : forall a b,
  kid_nodes (a ++ b) = (kid_nodes a ++ kid_nodes b)%list.
Proof. intros. apply flat_map_app. Qed.

Lemma kid_nodes_cons : forall k l,
  kid_nodes (k :: l) = (map (push (n_name k)) (nodes k) ++ kid_nodes l)%list.
Proof. reflexivity. Qed.

Lemma in_push : forall nm e l,
  In e (map (push nm) l) <-> exists ps v r, e = (nm :: ps, v, r) /\ In (ps, v, r) l.
Proof.
  intros. rewrite in_map_iff. split.
  - intros ([[ps v] r] & <- & I). exists ps, v, r. auto.
  - intros (ps & v & r & -> & I). exists (ps, v, r). auto.
Qed.

Lemma unread_nodes_in : forall t ps v,
  In (ps, v) (unread_nodes t) <-> In (ps, Some v, 0) (nodes t).
Proof.
  unfold unread_nodes.
  induction t as [a v0 w r q kids F] using node_ind'. intros ps v.
  cbn [unread]. rewrite nodes_eq. cbn [n_val n_reads n_kids].
  rewrite in_app_iff. cbn [In].
  assert (K : In (ps, v) (flat_map (fun k => map (fun e => (n_name k :: fst e, snd e)) (unread k)) kids) <->
              In (ps, Some v, 0) (kid_nodes kids)).
  { unfold kid_nodes. rewrite !in_flat_map. rewrite Forall_forall in F.
    split; intros (k & I & J); exists k; (split; [exact I|]).
    - apply in_map_iff in J. destruct J as ([ps' v'] & E & J).
      injection E as <- <-. apply in_push. exists ps', (Some v'), 0.
      split; [easy|]. now apply (F k I).
    - apply in_push in J. destruct J as (ps' & v' & r' & E & J).
      injection E as -> <- <-. apply in_map_iff. exists (ps', v).
      split; [easy|]. now apply (F k I). }
  rewrite K. destruct v0 as [x|].
  - destruct (N.eqb_spec r 0) as [->|N0]; cbn [In]; split.
    + intros [[E|[]]|H]; [left; congruence|now right].
    + intros [E|H]; [left; left; congruence|now right].
    + intros [[]|H]; now right.
    + intros [E|H]; [congruence|now right].
  - cbn [In]. split.
    + intros [[]|H]; now right.
    + intros [E|H]; [congruence|now right].
Qed.

(** ** Effect of creating and setting *)

Lemma nodes_new : forall (req : bool) nm,
  nodes (if req then inc_required (fresh nm) else fresh nm) = [([], None, 0)].
Proof. now intros []. Qed.

Lemma with_kids_reads : forall n k, n_reads (with_kids n k) = n_reads n.
Proof. now destruct n. Qed.

Lemma created_reads : forall req names n n' m,
  created req names n n' m -> n_reads n' = n_reads n.
Proof. induction 1; rewrite ?with_kids_reads; auto. Qed.

Ltac inl := repeat rewrite in_app_iff in *; cbn [In] in *; tauto.

Lemma created_keeps : forall req names n n' m,
  created req names n n' m -> forall e, In e (nodes n) -> In e (nodes n').
Proof.
  induction 1; intros e I; auto.
  - rewrite nodes_eq in I |- *. rewrite with_kids_val, with_kids_reads, with_kids_kids.
    rewrite H1 in I. destruct I as [I|I]; [now left|right].
    rewrite kid_nodes_app, kid_nodes_cons in I |- *.
    rewrite (created_name _ _ _ _ _ H4).
    rewrite !in_app_iff in I |- *. destruct I as [I|[I|I]]; auto.
    right. left. apply in_push in I. destruct I as (ps & v & r & -> & I).
    apply in_push. exists ps, v, r. auto.
  - rewrite nodes_eq in I |- *. rewrite with_kids_val, with_kids_reads, with_kids_kids.
    destruct I as [I|I]; [now left|right].
    rewrite kid_nodes_cons. rewrite in_app_iff. now right.
Qed.

Lemma created_adds : forall req names n n' m,
  created req names n n' m -> forall e, In e (nodes n') ->
  In e (nodes n) \/ (e_val e = None /\ e_reads e = 0).
Proof.
  induction 1; intros e I; auto.
  - rewrite nodes_eq in I |- *. rewrite with_kids_val, with_kids_reads, with_kids_kids in I.
    rewrite H1. destruct I as [I|I]; [left; now left|].
    rewrite kid_nodes_app, kid_nodes_cons in I |- *.
    rewrite (created_name _ _ _ _ _ H4) in I.
    rewrite !in_app_iff in I. destruct I as [I|[I|I]].
    + left. right. rewrite !in_app_iff. auto.
    + apply in_push in I. destruct I as (ps & v & r & -> & I).
      destruct (IHcreated _ I) as [J|[J1 J2]]; [|right; auto].
      left. right. rewrite !in_app_iff. right. left. apply in_push.
      exists ps, v, r. auto.
    + left. right. rewrite !in_app_iff. auto.
  - rewrite nodes_eq in I |- *. rewrite with_kids_val, with_kids_reads, with_kids_kids in I.
    destruct I as [I|I]; [left; now left|].
    rewrite kid_nodes_cons in I. rewrite in_app_iff in I.
    destruct I as [I|I]; [|left; now right].
    apply in_push in I. destruct I as (ps & v & r & -> & I).
    destruct (IHcreated _ I) as [J|[J1 J2]]; [|right; auto].
    rewrite H3, nodes_new in J. destruct J as [J|[]]. right.
    injection J as <- <- <-. auto.
Qed.

Lemma set_value_reads : forall v r o n, n_reads (set_value v r o n) = n_reads n.
Proof. now destruct n. Qed.

Lemma created_set_nodes : forall req names n n' m,
  created req names n n' m -> forall p v rq o, m = Got p ->
  let n2 := upd_at p (set_value v rq o) n' in
  (forall e, In e (nodes n2) -> In e (nodes n) \/
     (e_path e = names /\ e_val e = Some (v, o) /\
      (e_reads e = 0 \/ exists v0, In (names, v0, e_reads e) (nodes n))) \/
     (e_val e = None /\ e_reads e = 0)) /\
  (forall e, In e (nodes n) -> In e (nodes n2) \/
     (e_path e = names /\ In (names, Some (v, o), e_reads e) (nodes n2))) /\
  (exists r, In (names, Some (v, o), r) (nodes n2)).
Proof.
  induction 1; intros p v rq o M; try discriminate.
  - injection M as <-. cbn [upd_at].
    rewrite nodes_eq, set_value_val, set_value_reads, set_value_kids.
    rewrite (nodes_eq n). split; [|split].
    + intros e [<-|I]; [right; left|left; now right].
      split; [easy|]. split; [easy|]. right. exists (n_val n). now left.
    + intros e [<-|I]; [right|left; now right]. split; [easy|]. now left.
    + exists (n_reads n). now left.
  - destruct m; try discriminate. injection M as <-.
    cbn [upd_at]. rewrite with_kids_kids, upd_app_mid, with_kids_kids2.
    cbv zeta. rewrite !nodes_eq, with_kids_val, with_kids_reads, with_kids_kids, H1.
    rewrite !kid_nodes_app, !kid_nodes_cons.
    rewrite upd_at_name by apply set_value_name.
    rewrite (created_name _ _ _ _ _ H4), H2.
    destruct (IHcreated p0 v rq o eq_refl) as (A & B & D). cbv zeta in *.
    split; [|split].
    + intros e I. cbn [In] in *. rewrite !in_app_iff in *.
      destruct I as [I|[I|[I|I]]]; auto.
      apply in_push in I. destruct I as (ps & x & r & -> & I).
      destruct (A _ I) as [J|[(J1 & J2 & J3)|[J1 J2]]].
      * left. right. right. left. apply in_push. exists ps, x, r. auto.
      * right. left. cbn [e_path e_val e_reads fst snd] in *. subst.
        split; [easy|]. split; [easy|].
        destruct J3 as [J3|(v0 & J3)]; [now left|right]. exists v0.
        right. apply in_app_iff. right. apply in_app_iff. left.
        apply in_push. exists rest, v0, r. auto.
      * right. right. auto.
    + intros e I. cbn [In] in *. rewrite !in_app_iff in *.
      destruct I as [I|[I|[I|I]]]; auto.
      apply in_push in I. destruct I as (ps & x & r & -> & I).
      destruct (B _ I) as [J|[J1 J2]].
      * left. right. right. left. apply in_push. exists ps, x, r. auto.
      * right. cbn [e_path e_val e_reads fst snd] in *. subst. split; [easy|].
        right. right. left. apply in_push. exists rest, (Some (v, o)), r. auto.
    + destruct D as (r & D). exists r. cbn [In]. rewrite !in_app_iff.
      right. right. left. apply in_push. exists rest, (Some (v, o)), r. auto.
  - destruct m; try discriminate. injection M as <-.
    cbn [upd_at]. rewrite with_kids_kids, with_kids_kids2. cbn [upd].
    cbv zeta. rewrite !nodes_eq, with_kids_val, with_kids_reads, with_kids_kids.
    rewrite !kid_nodes_cons.
    rewrite upd_at_name by apply set_value_name.
    rewrite (created_name _ _ _ _ _ H4), H3, new_kid_name.
    destruct (IHcreated p0 v rq o eq_refl) as (A & B & D). cbv zeta in *.
    rewrite H3, nodes_new in *.
    split; [|split].
    + intros e I. cbn [In] in *. rewrite !in_app_iff in *.
      destruct I as [I|[I|I]]; auto.
      apply in_push in I. destruct I as (ps & x & r & -> & I).
      destruct (A _ I) as [[J|[]]|[(J1 & J2 & J3)|[J1 J2]]].
      * right. right. injection J as <- <- <-. auto.
      * right. left. cbn in *. subst. split; [easy|]. split; [easy|]. left.
        destruct J3 as [J3|(v0 & [J3|[]])]; congruence.
      * right. right. auto.
    + intros e I. cbn [In] in *. rewrite !in_app_iff in *. tauto.
    + destruct D as (r & D). exists r. cbn [In]. rewrite !in_app_iff.
      right. left. apply in_push. exists rest, (Some (v, o)), r. auto.
Qed.

(** ** Effect of reading *)

(** [k] more reads. *)
Definition more (r k : N) : N := if k =? 0 then r else (r + k) mod 2 ^ 32.

Lemma more_0 : forall r, more r 0 = r.
Proof. reflexivity. Qed.

Lemma inc_more : forall r, inc32 r = more r 1.
Proof. reflexivity. Qed.

Lemma more_more : forall r k, more (more r k) 1 = more r (k + 1).
Proof.
  intros r k. unfold more. destruct (N.eqb_spec k 0) as [->|N].
  - reflexivity.
  - replace (k + 1 =? 0) with false by (symmetry; apply N.eqb_neq; lia).
    change (1 =? 0) with false. cbv iota.
    rewrite N.add_mod_idemp_l by easy. f_equal. lia.
Qed.

(** Does a read of these names concern a node? *)
Definition hit (names : list string) (leaf : bool) (e : entry) : bool :=
  coverb (e_path e) names &&
  (match e_val e with Some _ => true | None => false end || negb leaf).

Definition rel (names : list string) (leaf : bool) (e e' : entry) : Prop :=
  e_path e' = e_path e /\ e_val e' = e_val e /\
  exists k, e_reads e' = more (e_reads e) k /\
    k <= N.of_nat (List.length names) /\
    (hit names leaf e = true -> 1 <= k) /\
    (hit names leaf e = false -> k = 0).

Fixpoint path_at (p : list nat) (n : node) : option (list string) :=
  match p with
  | [] => Some []
  | i :: p' => match nth_error (n_kids n) i with
               | Some k => option_map (cons (n_name k)) (path_at p' k)
               | None => None
               end
  end.

Lemma F2_map : forall A B (R : B -> B -> Prop) (f g : A -> B) l,
  (forall x, In x l -> R (f x) (g x)) -> Forall2 R (map f l) (map g l).
Proof.
  induction l; cbn; intros H; constructor; auto.
Qed.

Lemma F2_map2 : forall A B (R : A -> A -> Prop) (Q : B -> B -> Prop)
    (f : A -> B) l l',
  (forall x y, R x y -> Q (f x) (f y)) -> Forall2 R l l' ->
  Forall2 Q (map f l) (map f l').
Proof. intros A B R Q f l l' H. induction 1; cbn; constructor; auto. Qed.

Lemma F2_refl : forall A (R : A -> A -> Prop) l,
  (forall x, In x l -> R x x) -> Forall2 R l l.
Proof. induction l; intros H; constructor; [apply H; now left|]. apply IHl. intros. apply H. now right. Qed.

Lemma F2_trans : forall A (R Q S : A -> A -> Prop) l1 l2 l3,
  (forall x y z, R x y -> Q y z -> S x z) ->
  Forall2 R l1 l2 -> Forall2 Q l2 l3 -> Forall2 S l1 l3.
Proof.
  intros A R Q S l1 l2 l3 H F. revert l3.
  induction F; intros l3 G; inversion G; subst; constructor; eauto.
Qed.

Lemma F2_impl : forall A (R Q : A -> A -> Prop) l l',
  (forall x y, R x y -> Q x y) -> Forall2 R l l' -> Forall2 Q l l'.
Proof. induction 2; constructor; auto. Qed.

Lemma F2_kids : forall (Q : entry -> entry -> Prop) kids kids',
  Forall2 (fun k k' => n_name k' = n_name k /\
     Forall2 (fun e e' => Q (push (n_name k) e) (push (n_name k) e'))
       (nodes k) (nodes k')) kids kids' ->
  Forall2 Q (kid_nodes kids) (kid_nodes kids').
Proof.
  intros Q kids kids'. induction 1 as [|k k' l l' [N H] F IH].
  - constructor.
  - rewrite !kid_nodes_cons, N. apply Forall2_app; [|exact IH].
    eapply F2_map2; [|exact H]. auto.
Qed.

Lemma inc_at : forall p n ps, path_at p n = Some ps ->
  forall x, node_at p n = Some x ->
  Forall2 (fun e e' => e_path e' = e_path e /\ e_val e' = e_val e /\
     (e_reads e' = e_reads e \/
      (e_path e = ps /\ e_val e = n_val x /\ e_reads e' = inc32 (e_reads e))))
    (nodes n) (nodes (upd_at p inc_read n)).
Proof.
  induction p as [|i p IH]; intros n ps P x X; cbn [upd_at path_at node_at] in *.
  - injection P as <-. injection X as <-. rewrite (nodes_eq n), (nodes_eq (inc_read n)).
    constructor.
    + destruct n. split; [easy|]. split; [easy|]. right. easy.
    + destruct n. cbn [inc_read n_kids]. apply F2_refl. auto.
  - destruct (nth_error (n_kids n) i) as [k|] eqn:Q; [|discriminate].
    destruct (path_at p k) as [ps'|] eqn:P'; [|discriminate].
    injection P as <-. specialize (IH k ps' P' x X).
    rewrite (nodes_eq n), (nodes_eq (with_kids n _)), with_kids_val,
      with_kids_reads, with_kids_kids.
    constructor; [auto|]. apply F2_kids.
    revert i Q. induction (n_kids n) as [|a l IHl]; intros [|i] Q; try discriminate; cbn [upd].
    + injection Q as ->. constructor.
      * split; [apply upd_at_name; now intros []|].
        eapply F2_impl; [|exact IH].
        intros e e' (A & B & D). cbn. unfold e_path, e_val, e_reads in *.
        split; [now f_equal|]. split; [easy|].
        destruct D as [D|(D1 & D2 & D3)]; [now left|right].
        split; [now f_equal|]. auto.
      * apply F2_refl. intros y _. split; [easy|]. apply F2_refl. auto.
    + constructor.
      * split; [easy|]. apply F2_refl. auto.
      * now apply IHl.
Qed.

Lemma last_loop_map : forall leaf nm kids,
  fst (last_loop leaf nm kids) =
  map (fun x => if matches (n_name x) nm && (has_value x || negb leaf)
                then inc_read x else x) kids.
Proof.
  induction kids as [|k kids IH]; cbn; [reflexivity|].
  destruct (last_loop leaf nm kids) as [r' [res bak]]. cbn in IH.
  destruct (matches (n_name k) nm); cbn;
    [destruct (has_value k || negb leaf)|]; cbn; now rewrite IH.
Qed.

Lemma last_loop_pos : forall leaf nm kids k res bak i,
  last_loop leaf nm kids = (k, (res, bak)) -> res = Some i \/ bak = Some i ->
  exists x, nth_error kids i = Some x /\ matches (n_name x) nm = true.
Proof.
  induction kids as [|x kids IH]; intros k res bak i E H; cbn in E.
  - injection E as <- <- <-. destruct H; discriminate.
  - destruct (last_loop leaf nm kids) as [r' [res' bak']].
    assert (Z : forall i, option_map Datatypes.S res' = Some i \/
                option_map Datatypes.S bak' = Some i ->
                exists y, nth_error (x :: kids) i = Some y /\
                  matches (n_name y) nm = true).
    { intros j [Hj|Hj].
      - destruct res' as [j'|]; [|discriminate]. injection Hj as <-.
        apply (IH r' (Some j') bak' j' eq_refl). auto.
      - destruct bak' as [j'|]; [|discriminate]. injection Hj as <-.
        apply (IH r' res' (Some j') j' eq_refl). auto. }
    destruct (matches (n_name x) nm) eqn:M.
    + destruct (has_value x || negb leaf); injection E as <- <- <-.
      * destruct H as [H|H]; [injection H as <-; now exists x|apply Z; auto].
      * destruct H as [H|H]; [apply Z; auto|injection H as <-; now exists x].
    + injection E as <- <- <-. now apply Z.
Qed.

Lemma inc_read_nodes : forall n, nodes (inc_read n) =
  ([], n_val n, inc32 (n_reads n)) :: kid_nodes (n_kids n).
Proof. now destruct n. Qed.

Lemma no_hit_rel : forall names leaf e e', e' = e ->
  hit names leaf e = false -> rel names leaf e e'.
Proof.
  intros names leaf e e' -> H. unfold rel. split; [easy|]. split; [easy|].
  exists 0. rewrite more_0. split; [easy|]. split; [lia|].
  split; [congruence|easy].
Qed.

Lemma hit_push : forall nm names leaf x e,
  hit (nm :: names) leaf (push x e) = matches x nm && hit names leaf e.
Proof.
  intros. unfold hit, push. cbn. now rewrite andb_assoc.
Qed.

Lemma nodes_path_nil : forall n e, In e (nodes n) -> e_path e = [] ->
  e = ([], n_val n, n_reads n).
Proof.
  intros n e I E. rewrite nodes_eq in I. destruct I as [I|I]; [auto|].
  exfalso. unfold kid_nodes in I. apply in_flat_map in I.
  destruct I as (k & _ & I). apply in_push in I.
  destruct I as (ps & v & r & -> & _). discriminate.
Qed.

Lemma kid_path : forall kids e, In e (kid_nodes kids) -> e_path e <> [].
Proof.
  intros kids e I. unfold kid_nodes in I. apply in_flat_map in I.
  destruct I as (k & _ & I). apply in_push in I.
  destruct I as (ps & v & r & -> & _). discriminate.
Qed.

Definition found_ok (names : list string) (n' : node) (m : option (list nat)) : Prop :=
  forall p, m = Some p -> exists ps x, path_at p n' = Some ps /\
    node_at p n' = Some x /\ coverb ps names = true.

Lemma mid_loop_rel : forall f leaf nm rest,
  (forall k k1 g, f k = (k1, g) -> n_name k1 = n_name k /\
     exists m, g = Found m /\
     Forall2 (rel rest leaf) (nodes k) (nodes k1) /\ found_ok rest k1 m) ->
  forall kids ks g, mid_loop f leaf nm kids = (ks, g) ->
  exists m, g = Found m /\
    Forall2 (fun k k' => n_name k' = n_name k /\
      Forall2 (fun e e' => rel (nm :: rest) leaf (push (n_name k) e)
                             (push (n_name k) e')) (nodes k) (nodes k'))
      kids ks /\
    (forall p, m = Some p -> exists i q x ps y, p = i :: q /\
       nth_error ks i = Some x /\ matches (n_name x) nm = true /\
       path_at q x = Some ps /\ node_at q x = Some y /\
       coverb ps rest = true).
Proof.
  intros f leaf nm rest Hf.
  induction kids as [|k kids IH]; intros ks g E; cbn in E.
  - injection E as <- <-. exists None. split; [easy|]. split; [constructor|]. easy.
  - destruct (mid_loop f leaf nm kids) as [r' g'] eqn:L.
    destruct (IH r' g' eq_refl) as (m' & -> & F & P'). clear IH.
    destruct (matches (n_name k) nm) eqn:M.
    + destruct (f k) as [k1 g1] eqn:Fk.
      destruct (Hf _ _ _ Fk) as (Nk & m1 & -> & R1 & O1). cbn [next_kid] in E.
      assert (Big : forall e e', rel rest leaf e e' ->
                rel (nm :: rest) leaf (push (n_name k) e) (push (n_name k) e')).
      { intros e e' (A & B & kk & D & Le & H1 & H0). unfold rel.
        cbn [push e_path e_val e_reads fst snd]. split; [now f_equal|].
        split; [easy|]. exists kk. split; [exact D|].
        split; [cbn [List.length]; lia|]. rewrite hit_push, M. cbn [andb]. auto. }
      (* what happens to the child itself *)
      assert (K2 : exists k2 ht,
        (match m1 with
         | Some p => if negb leaf || match node_at p k1 with Some x => has_value x | None => false end
                     then (upd_at p inc_read k1, Some (0%nat :: p)) else (k1, None)
         | None => (k1, None) end) = (k2, ht) /\
        n_name k2 = n_name k /\
        Forall2 (fun e e' => rel (nm :: rest) leaf (push (n_name k) e)
                             (push (n_name k) e')) (nodes k) (nodes k2) /\
        (forall p, ht = Some p -> exists q ps y, p = 0%nat :: q /\
           path_at q k2 = Some ps /\ node_at q k2 = Some y /\ coverb ps rest = true)).
      { destruct m1 as [p|].
        2: { exists k1, None. split; [easy|]. split; [easy|]. split; [|easy].
             eapply F2_impl; [|exact R1]. exact Big. }
        destruct (O1 p eq_refl) as (ps & x & Pp & Px & Pc). rewrite Px.
        destruct (negb leaf || has_value x) eqn:Hv.
        2: { exists k1, None. split; [easy|]. split; [easy|]. split; [|easy].
             eapply F2_impl; [|exact R1]. exact Big. }
        exists (upd_at p inc_read k1), (Some (0%nat :: p)). split; [easy|].
        split; [rewrite upd_at_name; [easy|now intros []]|]. split.
        - eapply F2_trans; [|exact R1|exact (inc_at p k1 ps Pp x Px)].
          intros a b c (A & B & kk & D & Le & H1 & H0) (A2 & B2 & D2).
          unfold rel. cbn [push e_path e_val e_reads fst snd].
          unfold e_path, e_val, e_reads in *. cbn [fst snd].
          split; [congruence|]. split; [congruence|].
          destruct D2 as [D2|(D2 & D3 & D4)].
          + exists kk. split; [congruence|]. split; [cbn [List.length]; lia|].
            rewrite hit_push, M. cbn [andb]. auto.
          + exists (kk + 1). split; [rewrite D4, D, inc_more; apply more_more|].
            split; [cbn [List.length]; lia|]. split; [lia|].
            rewrite hit_push, M. cbn [andb]. intros Hh. exfalso.
            unfold hit, e_path, e_val in Hh. rewrite <- A, D2, Pc in Hh.
            cbn [andb] in Hh. rewrite <- B, D3 in Hh.
            unfold has_value in Hv. rewrite orb_comm in Hv. congruence.
        - intros p0 E0. injection E0 as <-. exists p, ps, (inc_read x).
          split; [easy|]. split; [|split; [|easy]].
          + clear - Pp. revert k1 ps Pp. induction p as [|i p IHp]; intros k1 ps Pp; [easy|].
            cbn [path_at upd_at] in *. rewrite with_kids_kids.
            destruct (nth_error (n_kids k1) i) as [y|] eqn:Q; [|discriminate].
            assert (U : nth_error (upd i (upd_at p inc_read) (n_kids k1)) i =
                Some (upd_at p inc_read y)).
            { clear - Q. revert i Q. induction (n_kids k1); intros [|i] Q;
                try discriminate; cbn in *; [now injection Q as ->|auto]. }
            rewrite U. rewrite upd_at_name by now intros [].
            destruct (path_at p y) as [ps'|] eqn:Py; [|discriminate].
            now rewrite (IHp _ _ Py).
          + apply node_at_upd_same; [exact Px|now intros []]. }
      destruct K2 as (k2 & ht & Eq & N2 & R2 & P2). rewrite Eq in E.
      injection E as <- <-.
      exists (match ht with
              | Some p => Some p
              | None => match m' with
                        | Some (i :: q) => Some (Datatypes.S i :: q)
                        | _ => m'
                        end
              end).
      split.
      { destruct ht as [p|]; [reflexivity|]. destruct m' as [[|i q]|]; reflexivity. }
      split; [constructor; auto|].
      intros p Hp. destruct ht as [p2|].
      * injection Hp as <-. destruct (P2 p2 eq_refl) as (q & ps & y & -> & A & B & D).
        exists 0%nat, q, k2, ps, y. repeat split; auto. cbn. congruence.
      * destruct m' as [p'|]; [|discriminate].
        destruct (P' p' eq_refl) as (i & q & x & ps & y & -> & A & B & D1 & D2 & D3).
        injection Hp as <-. exists (Datatypes.S i), q, x, ps, y. auto 10.
    + injection E as <- <-. exists (match m' with Some (i :: q) => Some (Datatypes.S i :: q) | _ => m' end).
      split; [destruct m' as [[|i q]|]; reflexivity|]. split.
      * constructor; [|exact F]. split; [easy|]. apply F2_refl.
        intros e _. apply no_hit_rel; [easy|]. now rewrite hit_push, M.
      * intros p Hp. destruct m' as [p'|]; [|discriminate].
        destruct (P' p' eq_refl) as (i & q & x & ps & y & -> & A & B & D1 & D2 & D3).
        injection Hp as <-. exists (Datatypes.S i), q, x, ps, y. auto 10.
Qed.

Lemma recurs_name : forall leaf names n n' g,
  recurs_try_get leaf names n = (n', g) -> n_name n' = n_name n.
Proof.
  intros leaf names n n' g E. apply recurs_strip in E.
  rewrite <- (strip_name n'), E. apply strip_name.
Qed.

Lemma recurs_rel : forall leaf names n n' g, names <> [] ->
  Forall (fun x => x <> "" /\ wild x = false) names ->
  recurs_try_get leaf names n = (n', g) ->
  exists m, g = Found m /\ Forall2 (rel names leaf) (nodes n) (nodes n') /\
    found_ok names n' m.
Proof.
  induction names as [|nm rest IH]; intros n n' g N F E; [easy|].
  inversion F as [|? ? [Ne W] Fr]; subst. cbn in E. rewrite W in E.
  assert (Root : forall k, rel (nm :: rest) leaf ([], n_val n, n_reads n)
            ([], n_val (with_kids n k), n_reads (with_kids n k))).
  { intros k. rewrite with_kids_val, with_kids_reads. now apply no_hit_rel. }
  destruct rest as [|nm2 rest].
  - destruct (last_loop leaf nm (n_kids n)) as [k [res bak]] eqn:L.
    injection E as <- <-. eexists. split; [reflexivity|].
    pose proof (last_loop_map leaf nm (n_kids n)) as Lm. rewrite L in Lm. cbn [fst] in Lm.
    split.
    + rewrite (nodes_eq n), (nodes_eq (with_kids n k)). constructor; [apply Root|].
      rewrite with_kids_kids, Lm. clear.
      apply F2_kids.
      induction (n_kids n) as [|x l IHl]; cbn [map]; constructor; auto.
      destruct (matches (n_name x) nm && (has_value x || negb leaf)) eqn:H.
      * split; [now destruct x|]. rewrite inc_read_nodes, nodes_eq. constructor.
        -- unfold rel. cbn. split; [easy|]. split; [easy|]. exists 1.
           split; [apply inc_more|]. split; [lia|]. split; [lia|].
           unfold hit. cbn. rewrite andb_true_r.
           unfold has_value in H. congruence.
        -- apply F2_refl. intros e I. apply no_hit_rel; [easy|].
           rewrite hit_push. unfold hit. apply kid_path in I.
           destruct (e_path e); [easy|]. cbn. now rewrite andb_false_r.
      * split; [easy|]. apply F2_refl. intros e I. apply no_hit_rel; [easy|].
        rewrite hit_push. unfold hit. destruct (e_path e) eqn:P; cbn.
        -- rewrite (nodes_path_nil _ _ I P). cbn. exact H.
        -- apply andb_false_r.
    + intros p Hp.
      assert (Hi : exists i, p = [i] /\ (res = Some i \/ bak = Some i)).
      { destruct res as [i|]; [injection Hp as <-; eauto|].
        destruct bak as [i|]; [injection Hp as <-; eauto|discriminate]. }
      destruct Hi as (i & -> & Hi).
      destruct (last_loop_pos _ _ _ _ _ _ i L Hi) as (x & Nx & Mx).
      assert (Kx : exists x', nth_error k i = Some x' /\ n_name x' = n_name x).
      { rewrite Lm. rewrite nth_error_map, Nx. cbn. eexists. split; [reflexivity|].
        destruct (matches (n_name x) nm && (has_value x || negb leaf)); [now destruct x|easy]. }
      destruct Kx as (x' & Kx & Nx').
      exists [n_name x'], x'. cbn [path_at node_at]. rewrite with_kids_kids, Kx.
      cbn. rewrite Nx', Mx. auto.
  - inversion Fr as [|? ? [Ne2 _] _]; subst.
    apply String.eqb_neq in Ne2. rewrite Ne2 in E.
    destruct (mid_loop (recurs_try_get leaf (nm2 :: rest)) leaf nm (n_kids n))
      as [k g'] eqn:L.
    injection E as <- <-.
    apply (mid_loop_rel _ leaf nm (nm2 :: rest)) in L.
    2: { intros x x1 gx Ex. split; [eapply recurs_name; exact Ex|].
         apply IH; auto. easy. }
    destruct L as (m & -> & R & P). exists m. split; [easy|]. split.
    + rewrite (nodes_eq n), (nodes_eq (with_kids n k)). constructor; [apply Root|].
      rewrite with_kids_kids. apply F2_kids. exact R.
    + intros p Hp. destruct (P p Hp) as (i & q & x & ps & y & -> & A & B & D1 & D2 & D3).
      exists (n_name x :: ps), y. cbn [path_at node_at].
      rewrite with_kids_kids, A, D1, D2. cbn. rewrite B, D3. auto.
Qed.

(** A path with an empty name or a pattern changes nothing. *)
Lemma mid_loop_same : forall f leaf nm,
  (forall k k1 g, f k = (k1, g) -> k1 = k /\ forall p, g <> Found (Some p)) ->
  forall kids ks g, mid_loop f leaf nm kids = (ks, g) ->
  ks = kids /\ forall p, g <> Found (Some p).
Proof.
  intros f leaf nm Hf. induction kids as [|k kids IH]; intros ks g E; cbn in E.
  - injection E as <- <-. easy.
  - destruct (mid_loop f leaf nm kids) as [r' g'] eqn:L.
    destruct (IH r' g' eq_refl) as [-> G]. clear IH.
    destruct (matches (n_name k) nm).
    + destruct (f k) as [k1 g1] eqn:Fk. destruct (Hf _ _ _ Fk) as [-> G1].
      destruct g1 as [[p|]| |]; [now destruct (G1 p)|..];
        injection E as <- <-; split; try easy.
      intros p. destruct g' as [[q|]| |]; try easy. now destruct (G q).
    + injection E as <- <-. split; [easy|].
      intros p. destruct g' as [[q|]| |]; try easy. now destruct (G q).
Qed.

Lemma recurs_same : forall leaf names n n' g,
  (exists x, In x names /\ (x = "" \/ wild x = true)) ->
  hd "x" names <> "" ->
  recurs_try_get leaf names n = (n', g) ->
  n' = n /\ forall p, g <> Found (Some p).
Proof.
  induction names as [|nm rest IH]; intros n n' g B Hd E.
  - destruct B as (x & [] & _).
  - cbn in E. destruct (wild nm) eqn:W.
    { injection E as <- <-. split; easy. }
    destruct rest as [|nm2 rest].
    { destruct B as (x & [<-|[]] & [->|B]); [now cbn in Hd|congruence]. }
    destruct (String.eqb_spec nm2 "") as [->|N2].
    { injection E as <- <-. split; easy. }
    destruct (mid_loop (recurs_try_get leaf (nm2 :: rest)) leaf nm (n_kids n))
      as [k g'] eqn:L.
    injection E as <- <-. apply mid_loop_same in L.
    + destruct L as [-> G]. split; [now destruct n|exact G].
    + intros y y1 gy Ey. apply (IH y y1 gy); auto.
      destruct B as (x & [<-|Ix] & Bx).
      * destruct Bx as [->|Bx]; [now cbn in Hd|congruence].
      * now exists x.
Qed.

Lemma names_dec : forall names : list string,
  Forall (fun x => x <> "" /\ wild x = false) names \/
  (exists x, In x names /\ (x = "" \/ wild x = true)).
Proof.
  induction names as [|x names IH]; [left; constructor|].
  destruct (String.eqb_spec x "") as [->|N]; [right; exists ""; cbn; auto|].
  destruct (wild x) eqn:W; [right; exists x; cbn; auto|].
  destruct IH as [IH|(y & I & H)]; [left; constructor; auto|].
  right. exists y. cbn. auto.
Qed.

(** A read: either it finds its way, or the tree stays as it is. *)
Lemma try_effect : forall t path leaf t' g,
  try_get t path leaf = (t', g) ->
  (exists ns, spells path ns /\ ns <> [] /\ Forall readable ns /\
     Forall2 (rel ns leaf) (nodes t) (nodes t') /\ exists m, g = Found m) \/
  (t' = t /\ forall ns, spells path ns -> Forall readable ns -> ns = []).
Proof.
  intros t path leaf t' g E. unfold try_get in E.
  destruct (names_of path) as [|nm rest] eqn:Nm.
  { injection E as <- <-. right. split; [easy|]. intros ns S _.
    apply names_spelled in S. congruence. }
  destruct (String.eqb_spec nm "") as [->|Ne].
  { injection E as <- <-. right. split; [easy|]. intros ns S _.
    pose proof (names_spelled _ _ S) as Q. rewrite Nm in Q. subst ns.
    destruct S as [S _]. inversion S as [|? ? [S1 _] _]. congruence. }
  destruct (names_dec (nm :: rest)) as [G|B].
  - left. exists (nm :: rest).
    assert (Nn : nm :: rest <> []) by easy.
    destruct (recurs_rel _ _ _ _ _ Nn G E) as (m & -> & R & _).
    split; [|split; [easy|split; [|split; [exact R|eauto]]]].
    + rewrite <- Nm. apply names_good. rewrite Nm.
      eapply Forall_impl; [|exact G]. now intros ? [].
    + eapply Forall_impl; [|exact G]. intros x [_ Wx]. now apply wild_readable.
  - right. apply recurs_same in E; [|exact B|exact Ne]. split; [apply E|].
    intros ns S R. exfalso. pose proof (names_spelled _ _ S) as Q.
    rewrite Nm in Q. subst ns. destruct B as (x & I & [->|Bx]).
    + destruct S as [S _]. rewrite Forall_forall in S. now destruct (S _ I).
    + rewrite Forall_forall in R. specialize (R x I).
      apply wild_readable in R. congruence.
Qed.

(** ** Histories *)

(** A call that reads a path: the names read. Taking back the requirement of
    a path reads it as well (see [C64_unrequire_refuted]). *)
Definition read_call (c : call) (ns : list string) (leaf : bool) : Prop :=
  exists path, (c = CTry path leaf \/ (c = CUnrequire path /\ leaf = false)) /\
    spells path ns /\ ns <> [] /\ Forall readable ns.

(** The number of names of a path read. *)
Definition weight (c : call) : N :=
  match c with
  | CTry path _ | CUnrequire path => N.of_nat (List.length (names_of path))
  | _ => 0
  end.

Fixpoint weights (cs : list call) : N :=
  match cs with
  | [] => 0
  | c :: r => weight c + weights r
  end.

Lemma unrequire_nodes : forall n, nodes (node_unrequire n) = nodes n.
Proof.
  induction n as [a v w r q k F] using node_ind'.
  rewrite (nodes_eq (Node a v w r q k)). cbn [node_unrequire nodes n_val n_reads n_kids].
  f_equal. unfold kid_nodes. induction F as [|x k Hx F IH]; [reflexivity|].
  cbn [map flat_map]. rewrite Hx, IH. f_equal. now destruct x.
Qed.

Lemma upd_nodes : forall f p n, (forall x, nodes (f x) = nodes x) ->
  (forall x, n_name (f x) = n_name x) -> nodes (upd_at p f n) = nodes n.
Proof.
  intros f p. induction p as [|i p IH]; intros n Hf Hn; cbn [upd_at]; [auto|].
  rewrite (nodes_eq n), (nodes_eq (with_kids n _)), with_kids_val,
    with_kids_reads, with_kids_kids. f_equal.
  revert i. induction (n_kids n) as [|k l IHl]; intros [|i]; cbn [upd]; auto.
  - rewrite !kid_nodes_cons, IH by auto. now rewrite upd_at_name by auto.
  - rewrite !kid_nodes_cons. now rewrite IHl.
Qed.

(** What a read does, both kinds of call. *)
Lemma read_effect : forall t c t' r path leaf, do_call t c = (t', r) ->
  (c = CTry path leaf \/ (c = CUnrequire path /\ leaf = false)) ->
  (exists ns, spells path ns /\ ns <> [] /\ Forall readable ns /\
     Forall2 (rel ns leaf) (nodes t) (nodes t')) \/
  (nodes t' = nodes t /\ forall ns, spells path ns -> Forall readable ns -> ns = []).
Proof.
  intros t c t' r path leaf E Hc.
  assert (T : exists t1 g, try_get t path leaf = (t1, g) /\ nodes t' = nodes t1).
  { destruct Hc as [->|[-> ->]]; cbn [do_call] in E.
    - destruct (try_get t path leaf) as [t1 g]. injection E as <- <-. eauto.
    - unfold tree_unrequire in E. destruct (try_get t path false) as [t1 g].
      exists t1, g. split; [easy|].
      destruct g as [[p|]| |]; injection E as <- <-; try easy.
      apply upd_nodes; [apply unrequire_nodes|now intros []]. }
  destruct T as (t1 & g & T & ->).
  destruct (try_effect _ _ _ _ _ T) as [(ns & A & B & D & F & _)|[-> N]].
  - left. exists ns. auto.
  - right. auto.
Qed.

(** One call, seen from the new tree. *)
Lemma call_back : forall t c t' r, do_call t c = (t', r) ->
  forall e', In e' (nodes t') ->
  (exists e, In e (nodes t) /\ e_path e' = e_path e /\ e_val e' = e_val e /\
     exists k, e_reads e' = more (e_reads e) k /\ k <= weight c /\
       (k <> 0 -> exists ns leaf, read_call c ns leaf /\
          coverb (e_path e) ns = true) /\
       (e_val e <> None -> forall ns leaf, read_call c ns leaf ->
          coverb (e_path e) ns = true -> 1 <= k)) \/
  (exists v, set_event (c, r) (e_path e') v /\ e_val e' = Some v /\
     (e_reads e' = 0 \/
      exists v0, In (e_path e', v0, e_reads e') (nodes t))) \/
  (e_val e' = None /\ e_reads e' = 0).
Proof.
  intros t c t' r E e' I.
  assert (Same : (forall path leaf, c <> CTry path leaf) ->
            (forall path, c <> CUnrequire path) -> In e' (nodes t) ->
    exists e, In e (nodes t) /\ e_path e' = e_path e /\ e_val e' = e_val e /\
     exists k, e_reads e' = more (e_reads e) k /\ k <= weight c /\
       (k <> 0 -> exists ns leaf, read_call c ns leaf /\
          coverb (e_path e) ns = true) /\
       (e_val e <> None -> forall ns leaf, read_call c ns leaf ->
          coverb (e_path e) ns = true -> 1 <= k)).
  { intros N1 N2 J. exists e'. split; [easy|]. split; [easy|]. split; [easy|].
    exists 0. split; [now rewrite more_0|]. split; [lia|]. split; [lia|].
    intros _ ns leaf (path & [H|[H _]] & _); [now apply N1 in H|now apply N2 in H]. }
  assert (Rd : forall path leaf,
    (c = CTry path leaf \/ (c = CUnrequire path /\ leaf = false)) ->
    exists e, In e (nodes t) /\ e_path e' = e_path e /\ e_val e' = e_val e /\
     exists k, e_reads e' = more (e_reads e) k /\ k <= weight c /\
       (k <> 0 -> exists ns leaf, read_call c ns leaf /\
          coverb (e_path e) ns = true) /\
       (e_val e <> None -> forall ns leaf, read_call c ns leaf ->
          coverb (e_path e) ns = true -> 1 <= k)).
  { intros path leaf Hc.
    assert (Uniq : forall ns l, read_call c ns l -> spells path ns /\ ns <> [] /\ Forall readable ns /\ l = leaf).
    { intros ns l (p2 & H2 & S2 & Ne & R2).
      destruct Hc as [->|[-> ->]], H2 as [H2|[H2 H3]]; try discriminate;
        injection H2; intros; subst; auto. }
    destruct (read_effect _ _ _ _ _ _ E Hc) as [(ns & S & Ne & R & F)|[Q N]].
    - assert (G : exists e, In e (nodes t) /\ rel ns leaf e e').
      { clear - F I. induction F; [easy|]. destruct I as [<-|I]; [eexists; split; [now left|eauto]|].
        destruct (IHF I) as (e & A & B). exists e. split; [now right|easy]. }
      destruct G as (e & J & (A & B & k & D & Le & H1 & H0)).
      exists e. split; [exact J|]. split; [exact A|]. split; [exact B|].
      exists k. split; [exact D|].
      assert (W : weight c = N.of_nat (List.length ns)).
      { destruct Hc as [->|[-> _]]; cbn; now rewrite (names_spelled _ _ S). }
      split; [lia|]. split.
      + intros K0. exists ns, leaf. split; [exists path; auto|].
        destruct (hit ns leaf e) eqn:Hh; [|now destruct (K0 (H0 eq_refl))].
        unfold hit in Hh. now apply andb_true_iff in Hh.
      + intros V ns2 l2 Rc2 C2. destruct (Uniq _ _ Rc2) as (S2 & _ & _ & _).
        assert (ns2 = ns) as ->.
        { rewrite <- (names_spelled _ _ S), <- (names_spelled _ _ S2). easy. }
        apply H1. unfold hit. rewrite C2. destruct (e_val e); [easy|now contradict V].
    - rewrite Q in I. exists e'. split; [easy|]. split; [easy|]. split; [easy|].
      exists 0. split; [now rewrite more_0|]. split; [lia|]. split; [lia|].
      intros _ ns2 l2 Rc2. destruct (Uniq _ _ Rc2) as (S2 & Ne2 & R2 & _).
      now apply (N ns2 S2) in R2. }
  destruct c as [path v rq o|path rq|path leaf|path].
  - cbn [do_call] in E. unfold tree_set in E.
    destruct (create (names_of path) false t) as [t1 m] eqn:C.
    apply create_created in C. destruct m; injection E as <- <-.
    + destruct (created_set_nodes _ _ _ _ _ C p v rq o eq_refl) as (A & _ & _).
      destruct (A _ I) as [J|[(J1 & J2 & J3)|J]].
      * left. now apply Same.
      * right. left. exists (v, o). rewrite J1. split; [|split; [easy|exact J3]].
        exists path, rq. split; [easy|]. apply names_good.
        pose proof (created_plain _ _ _ _ _ C p eq_refl) as F.
        clear - F. induction F as [|? ? [] ? IH]; auto.
      * right. now right.
    + destruct (created_adds _ _ _ _ _ C _ I) as [J|J]; [left; now apply Same|now right; right].
    + destruct (created_adds _ _ _ _ _ C _ I) as [J|J]; [left; now apply Same|now right; right].
    + destruct (created_adds _ _ _ _ _ C _ I) as [J|J]; [left; now apply Same|now right; right].
  - cbn [do_call] in E.
    destruct (create (names_of path) rq t) as [t1 m] eqn:C.
    apply create_created in C. injection E as <- <-.
    destruct (created_adds _ _ _ _ _ C _ I) as [J|J]; [left; now apply Same|now right; right].
  - left. apply (Rd path leaf). now left.
  - left. apply (Rd path false). now right.
Qed.

(** One call, seen from the old tree. *)
Lemma call_forth : forall t c t' r, do_call t c = (t', r) ->
  forall e, In e (nodes t) ->
  (exists e', In e' (nodes t') /\ e_path e' = e_path e /\ e_val e' = e_val e /\
     exists k, e_reads e' = more (e_reads e) k /\ k <= weight c /\
       (k <> 0 -> exists ns leaf, read_call c ns leaf /\
          coverb (e_path e) ns = true) /\
       (e_val e <> None -> forall ns leaf, read_call c ns leaf ->
          coverb (e_path e) ns = true -> 1 <= k)) \/
  (exists v, set_event (c, r) (e_path e) v /\
     In (e_path e, Some v, e_reads e) (nodes t')).
Proof.
  intros t c t' r E e I.
  assert (Same : (forall path leaf, c <> CTry path leaf) ->
            (forall path, c <> CUnrequire path) -> In e (nodes t') ->
    exists e', In e' (nodes t') /\ e_path e' = e_path e /\ e_val e' = e_val e /\
     exists k, e_reads e' = more (e_reads e) k /\ k <= weight c /\
       (k <> 0 -> exists ns leaf, read_call c ns leaf /\
          coverb (e_path e) ns = true) /\
       (e_val e <> None -> forall ns leaf, read_call c ns leaf ->
          coverb (e_path e) ns = true -> 1 <= k)).
  { intros N1 N2 J. exists e. split; [easy|]. split; [easy|]. split; [easy|].
    exists 0. split; [now rewrite more_0|]. split; [lia|]. split; [lia|].
    intros _ ns leaf (path & [H|[H _]] & _); [now apply N1 in H|now apply N2 in H]. }
  assert (Rd : forall path leaf,
    (c = CTry path leaf \/ (c = CUnrequire path /\ leaf = false)) ->
    exists e', In e' (nodes t') /\ e_path e' = e_path e /\ e_val e' = e_val e /\
     exists k, e_reads e' = more (e_reads e) k /\ k <= weight c /\
       (k <> 0 -> exists ns leaf, read_call c ns leaf /\
          coverb (e_path e) ns = true) /\
       (e_val e <> None -> forall ns leaf, read_call c ns leaf ->
          coverb (e_path e) ns = true -> 1 <= k)).
  { intros path leaf Hc.
    assert (Uniq : forall ns l, read_call c ns l -> spells path ns /\ ns <> [] /\ Forall readable ns /\ l = leaf).
    { intros ns l (p2 & H2 & S2 & Ne & R2).
      destruct Hc as [->|[-> ->]], H2 as [H2|[H2 H3]]; try discriminate;
        injection H2; intros; subst; auto. }
    destruct (read_effect _ _ _ _ _ _ E Hc) as [(ns & S & Ne & R & F)|[Q N]].
    - assert (G : exists e', In e' (nodes t') /\ rel ns leaf e e').
      { clear - F I. induction F; [easy|]. destruct I as [<-|I]; [eexists; split; [now left|eauto]|].
        destruct (IHF I) as (e2 & A & B). exists e2. split; [now right|easy]. }
      destruct G as (e' & J & (A & B & k & D & Le & H1 & H0)).
      exists e'. split; [exact J|]. split; [exact A|]. split; [exact B|].
      exists k. split; [exact D|].
      assert (W : weight c = N.of_nat (List.length ns)).
      { destruct Hc as [->|[-> _]]; cbn; now rewrite (names_spelled _ _ S). }
      split; [lia|]. split.
      + intros K0. exists ns, leaf. split; [exists path; auto|].
        destruct (hit ns leaf e) eqn:Hh; [|now destruct (K0 (H0 eq_refl))].
        unfold hit in Hh. now apply andb_true_iff in Hh.
      + intros V ns2 l2 Rc2 C2. destruct (Uniq _ _ Rc2) as (S2 & _ & _ & _).
        assert (ns2 = ns) as ->.
        { rewrite <- (names_spelled _ _ S), <- (names_spelled _ _ S2). easy. }
        apply H1. unfold hit. rewrite C2. destruct (e_val e); [easy|now contradict V].
    - rewrite <- Q in I. exists e. split; [easy|]. split; [easy|]. split; [easy|].
      exists 0. split; [now rewrite more_0|]. split; [lia|]. split; [lia|].
      intros _ ns2 l2 Rc2. destruct (Uniq _ _ Rc2) as (S2 & Ne2 & R2 & _).
      now apply (N ns2 S2) in R2. }
  destruct c as [path v rq o|path rq|path leaf|path].
  - cbn [do_call] in E. unfold tree_set in E.
    destruct (create (names_of path) false t) as [t1 m] eqn:C.
    apply create_created in C. destruct m; injection E as <- <-.
    + destruct (created_set_nodes _ _ _ _ _ C p v rq o eq_refl) as (_ & B & _).
      destruct (B _ I) as [J|[J1 J2]].
      * left. now apply Same.
      * right. exists (v, o). rewrite J1. split; [|exact J2].
        exists path, rq. split; [easy|]. apply names_good.
        pose proof (created_plain _ _ _ _ _ C p eq_refl) as F.
        clear - F. induction F as [|? ? [] ? IH]; auto.
    + left. apply Same; try easy. eapply created_keeps; eauto.
    + left. apply Same; try easy. eapply created_keeps; eauto.
    + left. apply Same; try easy. eapply created_keeps; eauto.
  - cbn [do_call] in E.
    destruct (create (names_of path) rq t) as [t1 m] eqn:C.
    apply create_created in C. injection E as <- <-.
    left. apply Same; try easy. eapply created_keeps; eauto.
  - left. apply (Rd path leaf). now left.
  - left. apply (Rd path false). now right.
Qed.

Lemma more_small : forall r k, r + k < 2 ^ 32 -> more r k = r + k.
Proof.
  intros r k L. unfold more. destruct (N.eqb_spec k 0) as [->|N]; [lia|].
  now apply N.mod_small.
Qed.

Lemma weights_app : forall a b, weights (a ++ b) = weights a + weights b.
Proof. induction a; intros; cbn; [easy|]. rewrite IHa. lia. Qed.

Lemma snoc_calls : forall cs t0 t evs, do_calls t0 cs = (t, evs) ->
  map fst evs = cs.
Proof.
  induction cs as [|c cs IH]; intros t0 t evs E; cbn in E.
  - now injection E as <- <-.
  - destruct (do_call t0 c) as [t1 a]. destruct (do_calls t1 cs) as [t2 l] eqn:D.
    injection E as <- <-. cbn. f_equal. eapply IH; eauto.
Qed.

(** Histories grow at the end. *)
Lemma calls_snoc_ind : forall t0 (P : node -> list (call * reply) -> Prop),
  P t0 [] ->
  (forall t evs c t' r, P t evs -> (exists cs, do_calls t0 cs = (t, evs)) ->
     do_call t c = (t', r) -> P t' (evs ++ [(c, r)])%list) ->
  forall cs t evs, do_calls t0 cs = (t, evs) -> P t evs.
Proof.
  intros t0 P P0 PS cs. induction cs as [|c cs IH] using rev_ind; intros t evs E.
  - cbn in E. now injection E as <- <-.
  - destruct (do_calls t0 cs) as [t1 l1] eqn:D.
    assert (X : forall cs t0 t1 l1, do_calls t0 cs = (t1, l1) ->
      do_calls t0 (cs ++ [c]) = (fst (do_call t1 c), (l1 ++ [(c, snd (do_call t1 c))])%list)).
    { clear. induction cs as [|a cs IH]; intros t0 t1 l1 D; cbn in D |- *.
      - injection D as <- <-. now destruct (do_call t0 c).
      - destruct (do_call t0 a) as [t2 r2].
        destruct (do_calls t2 cs) as [t3 l3] eqn:D3. injection D as <- <-.
        now rewrite (IH _ _ _ D3). }
    rewrite (X _ _ _ _ D) in E. injection E as <- <-.
    eapply PS; [apply IH; reflexivity|eauto|]. now destruct (do_call t1 c).
Qed.

(** The whole weight of a history. *)
Definition total (evs : list (call * reply)) : N := weights (map fst evs).

Lemma total_snoc : forall evs c r, total (evs ++ [(c, r)]) = total evs + weight c.
Proof. intros. unfold total. rewrite map_app, weights_app. cbn. lia. Qed.

Lemma empty_nodes : nodes empty_tree = [([], None, 0)].
Proof. reflexivity. Qed.

(** Counters stay below the weight of the history. *)
Lemma reads_bound : forall cs t evs, do_calls empty_tree cs = (t, evs) ->
  total evs < 2 ^ 32 -> forall e, In e (nodes t) -> e_reads e <= total evs.
Proof.
  intros cs t evs E. revert cs t evs E.
  apply (calls_snoc_ind empty_tree (fun t evs => total evs < 2 ^ 32 ->
    forall e, In e (nodes t) -> e_reads e <= total evs)).
  - rewrite empty_nodes. intros _ e [<-|[]]. cbn. lia.
  - intros t evs c t' r IH _ D L e' I. rewrite total_snoc in *.
    specialize (IH ltac:(lia)).
    destruct (call_back _ _ _ _ D _ I) as [(e & J & _ & _ & k & K & Le & _)|[(v & _ & _ & H)|[_ H]]].
    + specialize (IH _ J). rewrite K, more_small by lia. lia.
    + destruct H as [H|(v0 & J)]; [lia|]. specialize (IH _ J). cbn in IH. lia.
    + lia.
Qed.

Lemma nodes_present : forall n e, In e (nodes n) -> present (e_path e) n.
Proof.
  induction n as [a v w r q kids F] using node_ind'. intros e I.
  rewrite nodes_eq in I. destruct I as [<-|I]; [easy|]. cbn [n_kids] in I.
  unfold kid_nodes in I. apply in_flat_map in I. destruct I as (k & Ik & I).
  apply in_push in I. destruct I as (ps & v' & r' & -> & I).
  rewrite Forall_forall in F. exists k. split; [exact Ik|]. split; [easy|].
  now apply (F k Ik _ I).
Qed.

Lemma nodes_plain : forall cs t evs e, do_calls empty_tree cs = (t, evs) ->
  In e (nodes t) -> Forall (fun n => plain n = true) (e_path e).
Proof.
  intros cs t evs e E I. apply nodes_present in I.
  apply (calls_good _ _ _ E) in I. eapply Forall_impl; [|exact I]. now intros ? [].
Qed.

(** ** The report of unread parameters *)

(** An entry of the report was set by a call that succeeded, and nothing read
    since then is covered by its path. *)
Theorem C64_report_true : forall cs t evs ps v,
  do_calls empty_tree cs = (t, evs) -> total evs < 2 ^ 32 ->
  In (ps, v) (unread_nodes t) ->
  exists pre e post, evs = (pre ++ e :: post)%list /\ set_event e ps v /\
    forall c r ns leaf, In (c, r) post -> read_call c ns leaf -> ~ covers ps ns.
Proof.
  intros cs t evs ps v E L I. apply unread_nodes_in in I.
  revert cs t evs E L ps v I.
  refine (calls_snoc_ind empty_tree (fun t evs => total evs < 2 ^ 32 ->
    forall ps v, In (ps, Some v, 0) (nodes t) ->
    exists pre e post, evs = (pre ++ e :: post)%list /\ set_event e ps v /\
    forall c r ns leaf, In (c, r) post -> read_call c ns leaf -> ~ covers ps ns) _ _).
  - rewrite empty_nodes. intros _ ps v [H|[]]. discriminate.
  - intros t evs c t' r IH (cs & E) D L ps v I. rewrite total_snoc in L.
    destruct (call_back _ _ _ _ D _ I) as [(e & J & P & V & k & K & Le & _ & M)|[(v0 & S & V & _)|[V _]]].
    + destruct e as [[ps0 v0] r0]. cbn in P, V, K, J. subst ps0 v0.
      pose proof (reads_bound _ _ _ E ltac:(lia) _ J) as Bd. cbn in Bd.
      rewrite more_small in K by lia. assert (r0 = 0 /\ k = 0) as [-> ->] by lia.
      destruct (IH ltac:(lia) ps v J) as (pre & e & post & -> & S & N).
      exists pre, e, (post ++ [(c, r)])%list. split; [now rewrite <- app_assoc|].
      split; [exact S|]. intros c2 r2 ns leaf I2 Rc Cv. apply in_app_iff in I2.
      destruct I2 as [I2|[H|[]]]; [eapply N; eauto|]. injection H as <- <-.
      assert (1 <= 0); [|lia]. apply (M ltac:(easy) ns leaf Rc). cbn.
      apply coverb_covers; [|exact Cv]. exact (nodes_plain _ _ _ _ E J).
    + cbn in V. injection V as ->. exists evs, (c, r), []. split; [easy|].
      split; [exact S|]. now intros.
    + discriminate.
Qed.
Print Assumptions C64_report_true.

(** Every parameter set is reported with the value set last for its path, if
    nothing read is covered by the path. *)
Theorem C64_report_whole : forall cs t pre e post ps v,
  do_calls empty_tree cs = (t, (pre ++ e :: post)%list) ->
  set_event e ps v ->
  (forall e' v', In e' post -> ~ set_event e' ps v') ->
  (forall c r ns leaf, In (c, r) (pre ++ post) -> read_call c ns leaf ->
     ~ covers ps ns) ->
  In (ps, v) (unread_nodes t).
Proof.
  intros cs t pre e post ps v E S Later Rd. apply unread_nodes_in.
  (* nothing with this path is ever read *)
  assert (Z : forall evs t cs, do_calls empty_tree cs = (t, evs) ->
     (forall c r ns leaf, In (c, r) evs -> read_call c ns leaf -> ~ covers ps ns) ->
     forall v0 r0, In (ps, v0, r0) (nodes t) -> r0 = 0).
  { clear. intros evs t cs E. revert cs t evs E.
    refine (calls_snoc_ind empty_tree (fun t evs =>
     (forall c r ns leaf, In (c, r) evs -> read_call c ns leaf -> ~ covers ps ns) ->
     forall v0 r0, In (ps, v0, r0) (nodes t) -> r0 = 0) _ _).
    - rewrite empty_nodes. intros _ v0 r0 [H|[]]. congruence.
    - intros t evs c t' r IH (cs & E) D N v0 r0 I.
      assert (IH' : forall v0 r0, In (ps, v0, r0) (nodes t) -> r0 = 0).
      { apply IH. intros c2 r2 ns leaf I2. apply (N c2 r2). apply in_app_iff. now left. }
      destruct (call_back _ _ _ _ D _ I) as [(e & J & P & V & k & K & Le & M & _)|[(v1 & S & V & H)|[_ H]]].
      + destruct e as [[ps1 v1] r1]. cbn in P, V, K, J, M. subst ps1 v1.
        assert (k = 0) as ->.
        { destruct (N.eq_dec k 0) as [K0|K0]; [exact K0|exfalso].
          destruct (M K0) as (ns & leaf & Rc & Cv). apply (N c r ns leaf).
          - apply in_app_iff. right. now left.
          - exact Rc.
          - apply coverb_covers; [exact (nodes_plain _ _ _ _ E J)|exact Cv]. }
        rewrite more_0 in K. subst. now apply (IH' v0).
      + cbn in H. destruct H as [H|(v2 & H)]; [easy|]. now apply (IH' v2).
      + exact H. }
  destruct (do_calls_app _ _ _ _ _ E) as (c1 & c2 & t1 & _ & _ & E2).
  destruct (do_calls_cons _ _ _ _ _ E2) as (c3 & t2 & D & E3).
  destruct S as (path & rq & -> & Sp). cbn [fst snd] in D.
  assert (I : exists r, In (ps, Some v, r) (nodes t2)).
  { cbn [do_call] in D. unfold tree_set in D.
    rewrite (names_spelled _ _ Sp) in D.
    destruct (create ps false t1) as [t3 m] eqn:C.
    apply create_created in C. destruct m; try discriminate. injection D as <-.
    destruct (created_set_nodes _ _ _ _ _ C p (fst v) rq (snd v) eq_refl) as (_ & _ & G).
    now destruct v. }
  assert (K : exists r, In (ps, Some v, r) (nodes t)).
  { clear - I E3 Later. revert c3 t2 E3 I. induction post as [|[c r] post IH]; intros c3 t2 E3 I.
    - destruct c3 as [|c c3]; cbn in E3; [injection E3 as <-; exact I|].
      destruct (do_call t2 c). destruct (do_calls n c3). discriminate.
    - destruct (do_calls_cons _ _ _ _ _ E3) as (c4 & t4 & D & E4). cbn in D.
      eapply IH; [|exact E4|].
      + intros e' v' J. apply Later. now right.
      + destruct I as (r0 & I).
        destruct (call_forth _ _ _ _ D _ I) as [([[ps' v'] r'] & J & P & V & _)|(v' & S & _)].
        * cbn in P, V. subst. now exists r'.
        * exfalso. apply (Later (c, r) v'); [now left|exact S]. }
  destruct K as (r & K). rewrite <- (Z _ _ _ E) with (v0 := Some v) (r0 := r); [exact K| |exact K].
  intros c r' ns leaf J Rc. apply in_app_iff in J. destruct J as [J|[J|J]].
  - apply (Rd c r' ns leaf); [apply in_app_iff; now left|exact Rc].
  - injection J as <- <-. destruct Rc as (p2 & [H|[H _]] & _); discriminate.
  - apply (Rd c r' ns leaf); [apply in_app_iff; now right|exact Rc].
Qed.
Print Assumptions C64_report_whole.

Definition ex_reads : list call :=
  [CSet "top.core*.width" "8" false "cfg.yaml";
   CSet "top.core0.depth" "2" false "cfg.yaml";
   CSet "top.core1.depth" "4" false "cmd line";
   CTry "top.core1.depth" true;
   CTry "top.core1.depht" true;
   CSet "top.core0.name" "x" false "cmd line"].

Ltac hist := vm_compute; reflexivity.
Ltac cov := repeat (constructor; [apply C63_glob; [name_ok|vm_compute; reflexivity]|]); constructor.
Ltac readables := repeat (constructor; [name_ok|]); constructor.

Example C64_report_ex :
  exists t evs, do_calls empty_tree ex_reads = (t, evs) /\
    total evs < 2 ^ 32 /\
    unread_nodes t =
      [(["top"; "core0"; "name"], ("x", "cmd line"));
       (["top"; "core0"; "depth"], ("2", "cfg.yaml"));
       (["top"; "core*"; "width"], ("8", "cfg.yaml"))] /\
    (* the hypotheses of the second theorem, for the second call *)
    exists pre e post, evs = (pre ++ e :: post)%list /\
      set_event e ["top"; "core0"; "depth"] ("2", "cfg.yaml") /\
      (forall e' v', In e' post ->
         ~ set_event e' ["top"; "core0"; "depth"] v') /\
      (forall c r ns leaf, In (c, r) (pre ++ post) -> read_call c ns leaf ->
         ~ covers ["top"; "core0"; "depth"] ns).
Proof.
  do 2 eexists. split; [hist|]. split; [hist|]. split; [hist|].
  eexists [_], _, _. split; [reflexivity|]. split.
  { exists "top.core0.depth", false. split; [reflexivity|spelled]. }
  split.
  - intros e' v' I (path & rq & -> & S). apply names_spelled in S.
    destruct I as [I|[I|[I|[I|[]]]]]; try discriminate; injection I; intros; subst;
      vm_compute in S; discriminate.
  - intros c r ns leaf I (path & Hc & S & _ & _) Cv.
    assert (Cb : coverb ["top"; "core0"; "depth"] ns = true).
    { apply coverb_covers; [|exact Cv]. repeat constructor. }
    apply names_spelled in S. rewrite <- S in Cb.
    destruct I as [I|[I|[I|[I|[I|[]]]]]]; injection I; intros; subst;
      destruct Hc as [Hc|[Hc _]]; try discriminate; injection Hc; intros; subst;
      vm_compute in Cb; discriminate.
Qed.

(** ** What one read marks *)

(** One read of a path marks every node that has a value (or every node at
    all, if the caller does not insist on a leaf) and whose path covers the
    path read, and no other node. A mark is at least one and at most as many
    reads as the path has names, modulo 2^32. *)
Theorem C64_marks : forall cs t0 evs c t r ns leaf,
  do_calls empty_tree cs = (t0, evs) -> do_call t0 c = (t, r) ->
  read_call c ns leaf ->
  Forall2 (fun e e' => e_path e' = e_path e /\ e_val e' = e_val e /\
    (covers (e_path e) ns /\ (e_val e <> None \/ leaf = false) ->
      exists k, 1 <= k <= N.of_nat (List.length ns) /\
        e_reads e' = (e_reads e + k) mod 2 ^ 32) /\
    (~ (covers (e_path e) ns /\ (e_val e <> None \/ leaf = false)) ->
      e_reads e' = e_reads e)) (nodes t0) (nodes t).
Proof.
  intros cs t0 evs c t r ns leaf E D (path & Hc & S & Ne & R).
  pose proof (fun e => nodes_plain _ _ _ e E) as Pl. cbv beta in Pl.
  destruct (read_effect _ _ _ _ _ _ D Hc) as [(ns2 & S2 & _ & _ & F)|[_ N]].
  2: { now apply (N ns S) in R. }
  assert (ns2 = ns) as ->.
  { rewrite <- (names_spelled _ _ S), <- (names_spelled _ _ S2). easy. }
  revert Pl F. generalize (nodes t0) (nodes t). clear.
  intros l l' Pl F. induction F as [|e e' l l' Re F IH]; constructor.
  - destruct Re as (A & B & k & K & Le & H1 & H0). split; [exact A|].
    split; [exact B|].
    pose proof (coverb_covers _ ns (Pl e (or_introl eq_refl))) as Cv.
    assert (Hh : hit ns leaf e = true <->
                 covers (e_path e) ns /\ (e_val e <> None \/ leaf = false)).
    { unfold hit. rewrite andb_true_iff, orb_true_iff, Cv, negb_true_iff.
      destruct (e_val e); intuition congruence. }
    split.
    + intros Y. apply Hh in Y. exists k. specialize (H1 Y).
      split; [lia|]. rewrite K. unfold more.
      now destruct (N.eqb_spec k 0); [lia|].
    + intros Y. rewrite <- Hh in Y. apply not_true_is_false in Y.
      rewrite K, (H0 Y). apply more_0.
  - apply IH. intros e2 I. apply Pl. now right.
Qed.
Print Assumptions C64_marks.

Example C64_marks_ex : exists t0 evs t r,
  do_calls empty_tree
    [CSet "a.x" "1" true ""; CSet "a.y" "3" true ""; CSet "*.x" "2" true ""]
    = (t0, evs) /\
  do_call t0 (CTry "a.x" true) = (t, r) /\
  read_call (CTry "a.x" true) ["a"; "x"] true /\
  nodes t0 = [([], None, 0); (["*"], None, 0);
              (["*"; "x"], Some ("2", ""), 0); (["a"], None, 0);
              (["a"; "y"], Some ("3", ""), 0); (["a"; "x"], Some ("1", ""), 0)] /\
  nodes t = [([], None, 0); (["*"], None, 0);
             (["*"; "x"], Some ("2", ""), 2); (["a"], None, 0);
             (["a"; "y"], Some ("3", ""), 0); (["a"; "x"], Some ("1", ""), 2)].
Proof.
  do 4 eexists. split; [hist|]. split; [hist|]. split.
  - exists "a.x". split; [now left|]. split; [spelled|]. split; [easy|]. readables.
  - split; hist.
Qed.

(** ** isRead *)

Lemma read_loop_yes : forall f nm kids,
  (forall k, f k = Yes \/ f k = No) ->
  (read_loop f nm kids = Yes \/ read_loop f nm kids = No) /\
  (read_loop f nm kids = Yes <->
   exists k, In k kids /\ matches (n_name k) nm = true /\ f k = Yes).
Proof.
  intros f nm kids Hf. induction kids as [|k kids [IH1 IH2]]; cbn [read_loop In].
  - split; [now right|]. split; [discriminate|]. now intros (k & [] & _).
  - destruct (matches (n_name k) nm) eqn:M.
    + destruct (Hf k) as [Fk|Fk]; rewrite Fk.
      * split; [now left|]. split; [|easy]. intros _. exists k. auto.
      * split; [exact IH1|]. rewrite IH2. split.
        -- intros (x & I & H). exists x. auto.
        -- intros (x & [<-|I] & H1 & H2); [congruence|]. exists x. auto.
    + split; [exact IH1|]. rewrite IH2. split.
      * intros (x & I & H). exists x. auto.
      * intros (x & [<-|I] & H1 & H2); [congruence|]. exists x. auto.
Qed.

Lemma recurs_read_nodes : forall names n, names <> [] ->
  Forall (fun x => x <> "" /\ wild x = false) names ->
  (recurs_is_read names n = Yes \/ recurs_is_read names n = No) /\
  (recurs_is_read names n = Yes <->
   exists ps v r, In (ps, Some v, r) (nodes n) /\ coverb ps names = true /\
     0 < r).
Proof.
  induction names as [|nm rest IH]; intros n Ne F; [easy|].
  inversion F as [|? ? [Nn W] Fr]; subst. cbn [recurs_is_read]. rewrite W.
  assert (Step : forall f, (forall k, f k = Yes \/ f k = No) ->
    (forall k, f k = Yes <-> exists ps v r, In (ps, Some v, r) (nodes k) /\
       coverb ps rest = true /\ 0 < r) ->
    (read_loop f nm (n_kids n) = Yes \/ read_loop f nm (n_kids n) = No) /\
    (read_loop f nm (n_kids n) = Yes <->
     exists ps v r, In (ps, Some v, r) (nodes n) /\
       coverb ps (nm :: rest) = true /\ 0 < r)).
  { intros f F1 F2. destruct (read_loop_yes f nm (n_kids n) F1) as [A B].
    split; [exact A|]. rewrite B. rewrite nodes_eq. split.
    - intros (k & I & M & Y). apply F2 in Y. destruct Y as (ps & v & r & J & C & L).
      exists (n_name k :: ps), v, r. split; [|cbn; rewrite M; auto].
      right. unfold kid_nodes. apply in_flat_map. exists k. split; [exact I|].
      apply in_push. exists ps, (Some v), r. auto.
    - intros (ps & v & r & [J|J] & C & L).
      + injection J as <- _ _. discriminate.
      + unfold kid_nodes in J. apply in_flat_map in J. destruct J as (k & I & J).
        apply in_push in J. destruct J as (ps' & v' & r' & Q & J).
        injection Q as -> <- <-. cbn in C. apply andb_true_iff in C.
        exists k. split; [exact I|]. split; [apply C|]. apply F2.
        exists ps', v, r. split; [exact J|]. split; [apply C|exact L]. }
  destruct rest as [|nm2 rest].
  - apply Step.
    + intros k. destruct (read_value k); auto.
    + intros k. unfold read_value, has_value.
      rewrite nodes_eq. split.
      * destruct (n_val k) as [v|] eqn:V; cbn; [|discriminate].
        destruct (N.ltb_spec 0 (n_reads k)); [|discriminate].
        intros _. exists [], v, (n_reads k). auto.
      * intros (ps & v & r & [J|J] & C & L).
        -- injection J as <- -> <-. cbn.
           destruct (N.ltb_spec 0 (n_reads k)); [easy|lia].
        -- apply kid_path in J. cbn in J. destruct ps; [easy|]. now cbn in C.
  - inversion Fr as [|? ? [Ne2 _] _]; subst.
    apply String.eqb_neq in Ne2. rewrite Ne2.
    apply Step; intros k; apply IH; auto; easy.
Qed.

Lemma is_read_nodes : forall t path ns, spells path ns -> ns <> [] ->
  Forall readable ns ->
  (is_read t path = Yes \/ is_read t path = No) /\
  (is_read t path = Yes <->
   exists ps v r, In (ps, Some v, r) (nodes t) /\ coverb ps ns = true /\ 0 < r).
Proof.
  intros t path ns S Ne R. unfold is_read. rewrite (names_spelled _ _ S).
  destruct ns as [|nm rest]; [easy|].
  assert (F : Forall (fun x => x <> "" /\ wild x = false) (nm :: rest)).
  { destruct S as [S _]. clear Ne. apply readable_wild in R.
    induction S as [|x l [S1 _] S IH]; constructor.
    - split; [exact S1|]. now inversion R.
    - apply IH. now inversion R. }
  inversion F as [|? ? [Nn _] _]; subst. apply String.eqb_neq in Nn. rewrite Nn.
  now apply recurs_read_nodes.
Qed.

(** Values stay and counters only grow. *)
Lemma calls_keep : forall evs cs t t' ps v r,
  do_calls t cs = (t', evs) -> In (ps, Some v, r) (nodes t) ->
  r + total evs < 2 ^ 32 ->
  exists v' r', In (ps, Some v', r') (nodes t') /\ r <= r' <= r + total evs.
Proof.
  induction evs as [|[c a] evs IH]; intros cs t t' ps v r E I L.
  - destruct cs as [|c cs]; cbn in E.
    + injection E as <-. exists v, r. split; [exact I|]. cbn. lia.
    + destruct (do_call t c). destruct (do_calls n cs). discriminate.
  - destruct (do_calls_cons _ _ _ _ _ E) as (c4 & t4 & D & E4). cbn in D.
    unfold total in L |- *. cbn [map weights fst] in L |- *.
    assert (K : exists v1 r1, In (ps, Some v1, r1) (nodes t4) /\
              r <= r1 <= r + weight c).
    { destruct (call_forth _ _ _ _ D _ I)
        as [([[ps' v'] r'] & J & P & V & k & K & Le & _)|(v' & S & J)].
      - cbn in P, V, K. subst ps' v' r'. exists v, (more r k).
        split; [exact J|]. rewrite more_small by lia. lia.
      - cbn in J. exists v', r. split; [exact J|]. lia. }
    destruct K as (v1 & r1 & J & B).
    destruct (IH _ _ _ _ _ _ E4 J) as (v2 & r2 & J2 & B2).
    + unfold total. lia.
    + exists v2, r2. split; [exact J2|]. unfold total in B2. lia.
Qed.

(** Once a parameter was set and then a path it covers was read, isRead says
    yes, for this and for every other path the parameter covers, whatever is
    called before, in between and afterwards. *)
Theorem C64_is_read : forall cs t a es b er d ps v c r ns leaf path ns',
  do_calls empty_tree cs = (t, (a ++ es :: b ++ er :: d)%list) ->
  total (a ++ es :: b ++ er :: d)%list < 2 ^ 32 ->
  set_event es ps v -> er = (c, r) -> read_call c ns leaf -> covers ps ns ->
  spells path ns' -> Forall readable ns' -> covers ps ns' ->
  is_read t path = Yes.
Proof.
  intros cs t a es b er d ps v c r ns leaf path ns' E L S -> Rc Cv Sp R Cv'.
  assert (Ne : ns' <> []).
  { intros ->. inversion Cv'; subst. inversion Cv; subst.
    now destruct Rc as (? & _ & _ & H & _). }
  apply (proj2 (is_read_nodes t path ns' Sp Ne R)).
  destruct (do_calls_app _ _ _ _ _ E) as (c1 & c2 & t1 & _ & E1 & E2).
  destruct (do_calls_cons _ _ _ _ _ E2) as (c3 & t2 & D & E3).
  destruct (do_calls_app _ _ _ _ _ E3) as (c4 & c5 & t3 & _ & E4 & E5).
  destruct (do_calls_cons _ _ _ _ _ E5) as (c6 & t4 & D2 & E6).
  destruct S as (pth & rq & -> & Sps). cbn [fst snd] in D, D2.
  assert (Ws : total (a ++ (CSet pth (fst v) rq (snd v), RSet SetTrue) :: b ++ (c, r) :: d) =
    total a + total b + weight c + total d).
  { unfold total. rewrite map_app. cbn [map fst]. rewrite map_app. cbn [map fst].
    rewrite weights_app. cbn [weights weight]. rewrite weights_app.
    cbn [weights]. lia. }
  rewrite Ws in L. clear Ws.
  assert (I : exists v0 r0, In (ps, Some v0, r0) (nodes t2) /\ r0 <= total a).
  { assert (L' : total (a ++ [(CSet pth (fst v) rq (snd v), RSet SetTrue)]) < 2 ^ 32).
    { rewrite total_snoc. cbn [weight]. lia. }
    assert (E1' : do_calls empty_tree (c1 ++ [CSet pth (fst v) rq (snd v)])%list =
             (t2, (a ++ [(CSet pth (fst v) rq (snd v), RSet SetTrue)])%list)).
    { clear - E1 D. revert D. revert E1. generalize empty_tree. revert a.
      induction c1 as [|x c1 IH]; intros a n E1 D; cbn [do_calls app] in *.
      - injection E1 as <- <-. now rewrite D.
      - destruct (do_call n x) as [t5 a5]. destruct (do_calls t5 c1) as [t6 l] eqn:E6.
        injection E1 as <- <-. now rewrite (IH _ _ E6 D). }
    pose proof (reads_bound _ _ _ E1' L') as Bd.
    cbn [do_call] in D. unfold tree_set in D.
    rewrite (names_spelled _ _ Sps) in D.
    destruct (create ps false t1) as [t5 m] eqn:C.
    apply create_created in C. destruct m; try discriminate. injection D as <-.
    destruct (created_set_nodes _ _ _ _ _ C p (fst v) rq (snd v) eq_refl) as (_ & _ & r0 & G).
    exists (fst v, snd v), r0. split; [exact G|]. apply Bd in G. cbn [e_reads snd] in G.
    rewrite total_snoc in G. cbn [weight] in G. lia. }
  destruct I as (v0 & r0 & I & B0).
  destruct (calls_keep _ _ _ _ _ _ _ E4 I ltac:(lia)) as (v1 & r1 & J & B1).
  assert (Pl : Forall (fun n => plain n = true) ps).
  { cbn [do_call] in D. unfold tree_set in D.
    rewrite (names_spelled _ _ Sps) in D.
    destruct (create ps false t1) as [t5 m] eqn:C.
    apply create_created in C. destruct m; try discriminate.
    pose proof (created_plain _ _ _ _ _ C p eq_refl) as F.
    eapply Forall_impl; [|exact F]. now intros ? []. }
  assert (K : exists v2 r2, In (ps, Some v2, r2) (nodes t4) /\
            1 <= r2 <= r1 + weight c).
  { destruct (call_forth _ _ _ _ D2 _ J)
      as [([[ps' v'] r'] & J2 & P & V & k & K & Le & _ & M)|(v' & S & J2)].
    - cbn in P, V, K, M. subst ps' v' r'. exists v1, (more r1 k).
      split; [exact J2|]. rewrite more_small by lia.
      assert (1 <= k); [|lia]. apply (M ltac:(easy) ns leaf Rc).
      now apply coverb_covers.
    - exfalso. destruct S as (p2 & rq2 & Q & _). injection Q as -> _.
      destruct Rc as (p3 & [H|[H _]] & _); discriminate. }
  destruct K as (v2 & r2 & J2 & B2).
  destruct (calls_keep _ _ _ _ _ _ _ E6 J2 ltac:(lia)) as (v3 & r3 & J3 & B3).
  exists ps, v3, r3. split; [exact J3|]. split; [now apply coverb_covers|lia].
Qed.
Print Assumptions C64_is_read.

(** If isRead says yes, a parameter that covers the path was set and a path
    covered by that parameter was read. Otherwise it says no. *)
Theorem C64_is_read_only : forall cs t evs path ns,
  do_calls empty_tree cs = (t, evs) ->
  spells path ns -> ns <> [] -> Forall readable ns ->
  is_read t path = No \/
  (is_read t path = Yes /\
   exists ps v es c r ns' leaf, In es evs /\ set_event es ps v /\
     covers ps ns /\ In (c, r) evs /\ read_call c ns' leaf /\ covers ps ns').
Proof.
  intros cs t evs path ns E S Ne R.
  destruct (is_read_nodes t path ns S Ne R) as [[Y|Y] Q]; [right|now left].
  split; [exact Y|]. apply Q in Y. destruct Y as (ps & v & r & I & C & L).
  pose proof (nodes_plain _ _ _ _ E I) as Pl. cbn in Pl.
  assert (Sv : exists es v', In es evs /\ set_event es ps v').
  { clear - E I. revert I. generalize v as w. generalize r as r9. clear v r.
    intros r9 w. revert r9 w. revert cs t evs E.
    refine (calls_snoc_ind empty_tree (fun t evs => forall r v,
      In (ps, Some v, r) (nodes t) ->
      exists es v', In es evs /\ set_event es ps v') _ _).
    - rewrite empty_nodes. intros r v [H|[]]. discriminate.
    - intros t evs c t' r IH _ D r0 v I.
      destruct (call_back _ _ _ _ D _ I) as [(e & J & P & V & _)|[(v0 & S & _)|[V _]]].
      + destruct e as [[ps0 v0] r1]. cbn in P, V. subst.
        destruct (IH _ _ J) as (es & v' & A & B). exists es, v'.
        split; [apply in_app_iff; now left|exact B].
      + exists (c, r), v0. split; [apply in_app_iff; right; now left|exact S].
      + discriminate. }
  assert (Rv : exists c r' ns' leaf, In (c, r') evs /\ read_call c ns' leaf /\
            coverb ps ns' = true).
  { revert I L. clear - E. generalize (Some v) as o. clear v. intros o. revert o r.
    revert cs t evs E.
    refine (calls_snoc_ind empty_tree (fun t evs => forall o r,
      In (ps, o, r) (nodes t) -> 0 < r ->
      exists c r' ns' leaf, In (c, r') evs /\ read_call c ns' leaf /\
            coverb ps ns' = true) _ _).
    - rewrite empty_nodes. intros v r [H|[]] L. injection H as _ _ <-. lia.
    - intros t evs c t' r IH _ D o r0 I L.
      assert (Old : forall o1 r1, In (ps, o1, r1) (nodes t) -> 0 < r1 ->
        exists c0 r' ns' leaf, In (c0, r') (evs ++ [(c, r)]) /\
          read_call c0 ns' leaf /\ coverb ps ns' = true).
      { intros o1 r1 J L1. destruct (IH _ _ J L1) as (c0 & r' & ns' & leaf & A & B).
        exists c0, r', ns', leaf. split; [apply in_app_iff; now left|exact B]. }
      destruct (call_back _ _ _ _ D _ I)
        as [(e & J & P & V & k & K & Le & M & _)|[(v0 & S & _ & H)|[_ H]]].
      + destruct e as [[ps0 v0] r1]. cbn in P, V, K, M. subst ps0 v0 r0.
        destruct (N.eq_dec k 0) as [->|K0].
        * rewrite more_0 in L. now apply (Old _ _ J).
        * destruct (M K0) as (ns' & leaf & Rc & Cv). exists c, r, ns', leaf.
          split; [apply in_app_iff; right; now left|auto].
      + cbn in H. destruct H as [H|(v1 & H)]; [lia|]. now apply (Old _ _ H).
      + cbn in H. lia. }
  destruct Sv as (es & v' & A1 & A2), Rv as (c & r' & ns' & leaf & B1 & B2 & B3).
  exists ps, v', es, c, r', ns', leaf.
  split; [exact A1|]. split; [exact A2|].
  split; [now apply coverb_covers|]. split; [exact B1|]. split; [exact B2|].
  now apply coverb_covers.
Qed.
Print Assumptions C64_is_read_only.

Example C64_is_read_ex :
  exists t a es b er d,
    do_calls empty_tree ex_reads = (t, (a ++ es :: b ++ er :: d)%list) /\
    total (a ++ es :: b ++ er :: d)%list < 2 ^ 32 /\
    set_event es ["top"; "core1"; "depth"] ("4", "cmd line") /\
    er = (CTry "top.core1.depth" true, RGot (Found (Some [0; 0; 0]%nat))) /\
    read_call (CTry "top.core1.depth" true) ["top"; "core1"; "depth"] true /\
    is_read t "top.core1.depth" = Yes /\ is_read t "top.core0.depth" = No.
Proof.
  eexists _, [_; _], _, [], _, [_; _].
  split; [hist|]. split; [hist|].
  split; [exists "top.core1.depth", false; split; [reflexivity|spelled]|].
  split; [reflexivity|]. split.
  - exists "top.core1.depth". split; [now left|]. split; [spelled|].
    split; [easy|]. readables.
  - split; hist.
Qed.

(** ** What the marks do not tell *)

(** Asking whether a parameter exists or has a value counts as reading it
    (sparta/simulation/ParameterTree.hpp 1304-1317, 1581-1589): the report of
    unread parameters misses a parameter whose value nobody has looked at. *)
Theorem C64_exists_refuted : exists t,
  t = fst (tree_set empty_tree "a.b" "1" false "") /\
  unread_nodes t = [(["a"; "b"], ("1", ""))] /\
  snd (tree_exists t "a.b" true) = Some true /\
  unread_nodes (fst (tree_exists t "a.b" true)) = [] /\
  unread_nodes (fst (tree_has_value t "a.b" true)) = [].
Proof. eexists. split; [reflexivity|]. vm_compute. auto. Qed.
Print Assumptions C64_exists_refuted.

(** Taking back a requirement counts as reading (sparta/simulation/
    ParameterTree.hpp 1402-1404). *)
Theorem C64_unrequire_refuted : exists t,
  t = fst (tree_set empty_tree "a.b" "1" true "") /\
  unread_nodes t = [(["a"; "b"], ("1", ""))] /\
  unread_nodes (fst (tree_unrequire t "a.b")) = [].
Proof. eexists. split; [reflexivity|]. vm_compute. auto. Qed.
Print Assumptions C64_unrequire_refuted.

(** A value set after the last read counts as read (sparta/simulation/
    ParameterTree.hpp 628-640: setValue leaves the read counter alone). *)
Theorem C64_overwrite_refuted : exists t evs,
  do_calls empty_tree
    [CSet "a" "1" false ""; CTry "a" true; CSet "a" "2" false ""] = (t, evs) /\
  reads t "a" ("2", "") /\ unread_nodes t = [] /\ is_read t "a" = Yes.
Proof.
  do 2 eexists. split; [hist|].
  split; [unfold reads; do 3 eexists; vm_compute; repeat split|].
  split; hist.
Qed.
Print Assumptions C64_overwrite_refuted.

(** A read marks also the parameters whose values it does not deliver: an
    overridden pattern counts as read although its value was never used
    (sparta/simulation/ParameterTree.hpp 1581-1589). *)
Theorem C64_shadow_refuted : exists t evs,
  do_calls empty_tree
    [CSet "*.x" "1" false ""; CSet "a.x" "2" false ""; CTry "a.x" true] =
    (t, evs) /\
  reads t "a.x" ("2", "") /\ unread_nodes t = [] /\ is_read t "b.x" = Yes.
Proof.
  do 2 eexists. split; [hist|].
  split; [unfold reads; do 3 eexists; vm_compute; repeat split|].
  split; hist.
Qed.
Print Assumptions C64_shadow_refuted.

(** A parameter can appear twice in the report, once with a value that can no
    longer be read: setting "a.x" again after a pattern that covers it makes
    a second node (sparta/simulation/ParameterTree.hpp 566-570). *)
Theorem C64_twice_refuted : exists t evs,
  do_calls empty_tree
    [CSet "a.x" "1" false ""; CSet "*.x" "2" false ""; CSet "a.x" "3" false ""]
    = (t, evs) /\
  unread_nodes t = [(["a"; "x"], ("3", "")); (["*"; "x"], ("2", ""));
                    (["a"; "x"], ("1", ""))].
Proof. do 2 eexists. split; hist. Qed.
Print Assumptions C64_twice_refuted.
