(** C66: the parameter tree knows which parameters are required. *)
From Coq Require Import NArith List Bool String Ascii Lia.
From Verif Require Import ParamTreeModel ParamTreeSpec ParamTreeProofs
  ParamTreeProps ParamTreeMergeProps ParamTreeReadProps.
Import ListNotations.
Open Scope string_scope.
Open Scope N_scope.

(** ** Reading leaves the requirements alone *)

Fixpoint bare (n : node) : node :=
  let 'Node a _ _ _ q k := n in Node a None 0 0 q (map bare k).

Lemma bare_name : forall n, n_name (bare n) = n_name n.
Proof. now destruct n. Qed.
Lemma bare_req : forall n, n_required (bare n) = n_required n.
Proof. now destruct n. Qed.
Lemma bare_kids : forall n, n_kids (bare n) = map bare (n_kids n).
Proof. now destruct n. Qed.
Lemma bare_with : forall n k, map bare k = map bare (n_kids n) ->
  bare (with_kids n k) = bare n.
Proof. destruct n; cbn. intros k ->. reflexivity. Qed.
Lemma bare_inc : forall n, bare (inc_read n) = bare n.
Proof. now destruct n. Qed.

Lemma map_bare_upd : forall i f l, (forall x, bare (f x) = bare x) ->
  map bare (upd i f l) = map bare l.
Proof.
  intros i f l H. revert i. induction l; intros [|i]; cbn; auto.
  - now rewrite H.
  - now rewrite IHl.
Qed.

Lemma bare_upd_at : forall p f n, (forall x, bare (f x) = bare x) ->
  bare (upd_at p f n) = bare n.
Proof.
  induction p as [|i p IH]; intros f n H; cbn [upd_at]; [apply H|].
  apply bare_with. apply map_bare_upd. intros. now apply IH.
Qed.

Lemma last_loop_bare : forall leaf nm kids k r,
  last_loop leaf nm kids = (k, r) -> map bare k = map bare kids.
Proof.
  induction kids as [|x kids IH]; intros k r E; cbn in E.
  - now injection E as <- <-.
  - destruct (last_loop leaf nm kids) as [r' [res bak]].
    specialize (IH _ _ eq_refl).
    destruct (matches (n_name x) nm); [destruct (has_value x || negb leaf)|];
      injection E as <- <-; cbn; rewrite ?bare_inc, IH; reflexivity.
Qed.

Lemma mid_loop_bare : forall f leaf nm,
  (forall n n' g, f n = (n', g) -> bare n' = bare n) ->
  forall kids k g, mid_loop f leaf nm kids = (k, g) ->
  map bare k = map bare kids.
Proof.
  intros f leaf nm Hf.
  induction kids as [|x kids IH]; intros k g E; cbn in E.
  - now injection E as <- <-.
  - destruct (matches (n_name x) nm).
    + destruct (f x) as [k1 g1] eqn:F. apply Hf in F.
      destruct g1 as [m| |].
      * match type of E with (let '(_, _) := ?X in _) = _ =>
          assert (S2 : bare (fst X) = bare k1) end.
        { destruct m as [p|]; [|reflexivity].
          match goal with |- context [if ?b then _ else _] => destruct b end;
            [|reflexivity]. cbn. apply bare_upd_at, bare_inc. }
        match type of E with (let '(_, _) := ?X in _) = _ =>
          destruct X as [k2 hit] end.
        destruct (mid_loop f leaf nm kids) as [r' g'].
        injection E as <- _. cbn. cbn in S2. rewrite S2, F.
        now rewrite (IH _ _ eq_refl).
      * injection E as <- <-. cbn. now rewrite F.
      * injection E as <- <-. cbn. now rewrite F.
    + destruct (mid_loop f leaf nm kids) as [r' g'].
      injection E as <- _. cbn. now rewrite (IH _ _ eq_refl).
Qed.

Lemma recurs_bare : forall leaf names n n' g,
  recurs_try_get leaf names n = (n', g) -> bare n' = bare n.
Proof.
  induction names as [|nm rest IH]; intros n n' g E; cbn in E.
  - now injection E as <- <-.
  - destruct (wild nm); [now injection E as <- <-|].
    destruct rest as [|nm2 rest].
    + destruct (last_loop leaf nm (n_kids n)) as [k [res bak]] eqn:L.
      injection E as <- <-. apply bare_with.
      eapply last_loop_bare; eauto.
    + destruct (String.eqb nm2 ""); [now injection E as <- <-|].
      destruct (mid_loop (recurs_try_get leaf (nm2 :: rest)) leaf nm
                  (n_kids n)) as [k g'] eqn:L.
      injection E as <- <-. apply bare_with.
      eapply mid_loop_bare; eauto.
Qed.

Lemma try_bare : forall t path leaf t' g,
  try_get t path leaf = (t', g) -> bare t' = bare t.
Proof.
  intros t path leaf t' g E. unfold try_get in E.
  destruct (names_of path) as [|nm rest]; [now injection E as <- <-|].
  destruct (String.eqb nm ""); [now injection E as <- <-|].
  eapply recurs_bare; eauto.
Qed.

(** ** The first node of a path *)

(** The requirements counted at the newest node that matches a path. *)
Fixpoint lookr (q : list string) (n : node) : option N :=
  match q with
  | [] => Some (n_required n)
  | c :: q' =>
      first_some (fun k => if matches (n_name k) c then lookr q' k else None)
        (n_kids n)
  end.

Lemma lookr_bare : forall q n, lookr q (bare n) = lookr q n.
Proof.
  induction q as [|c q IH]; intros n; cbn [lookr].
  - now rewrite bare_req.
  - rewrite bare_kids, first_some_map. apply first_some_ext.
    intros k. now rewrite bare_name, IH.
Qed.

Lemma bare_lookr : forall a b, bare a = bare b -> forall q, lookr q a = lookr q b.
Proof. intros a b E q. now rewrite <- (lookr_bare q a), E, lookr_bare. Qed.

Definition count_answer (o : option N) : answer :=
  match o with
  | Some q => if 0 <? q then Yes else No
  | None => NotFound
  end.

Lemma recurs_lookr : forall names n, names <> [] ->
  Forall (fun x => x <> "" /\ wild x = false) names ->
  recurs_required names n = count_answer (lookr names n).
Proof.
  induction names as [|nm rest IH]; intros n N F; [easy|].
  inversion F as [|? ? [Nn W] Fr]; subst. cbn [recurs_required].
  destruct rest as [|nm2 rest].
  - cbn [lookr]. induction (n_kids n) as [|k l IHl]; [reflexivity|].
    cbn [req_last first_some]. rewrite W.
    destruct (matches (n_name k) nm); [reflexivity|exact IHl].
  - inversion Fr as [|? ? [Ne2 _] _]; subst.
    apply String.eqb_neq in Ne2. rewrite Ne2.
    cbn [lookr]. induction (n_kids n) as [|k l IHl]; [reflexivity|].
    cbn [req_mid first_some].
    destruct (matches (n_name k) nm); [|exact IHl].
    rewrite IH by easy. cbn [lookr].
    destruct (first_some _ (n_kids k)) as [q|]; cbn [count_answer].
    + now destruct (0 <? q).
    + exact IHl.
Qed.

Lemma is_required_lookr : forall t path ns, spells path ns ->
  Forall readable ns ->
  is_required t path = match lookr ns t with
                       | Some q => if 0 <? q then Yes else No
                       | None => AnsAsserts
                       end.
Proof.
  intros t path ns S R. unfold is_required. rewrite (names_spelled _ _ S).
  destruct ns as [|nm rest]; [reflexivity|].
  assert (F : Forall (fun x => x <> "" /\ wild x = false) (nm :: rest)).
  { destruct S as [S _]. apply readable_wild in R.
    induction S as [|x l [S1 _] S IH]; constructor.
    - split; [exact S1|]. now inversion R.
    - apply IH. now inversion R. }
  inversion F as [|? ? [Nn _] _]; subst. apply String.eqb_neq in Nn. rewrite Nn.
  rewrite recurs_lookr by easy.
  destruct (lookr (nm :: rest) t) as [q|]; cbn [count_answer]; [|reflexivity].
  now destruct (0 <? q).
Qed.

(** ** Effect of creating and setting *)

Lemma with_kids_req : forall n k, n_required (with_kids n k) = n_required n.
Proof. now destruct n. Qed.

Lemma created_required : forall req names n n' m,
  created req names n n' m -> n_required n' = n_required n.
Proof. induction 1; rewrite ?with_kids_req; auto. Qed.

Lemma new_kids : forall (req : bool) nm,
  n_kids (if req then inc_required (fresh nm) else fresh nm) = [].
Proof. now intros []. Qed.

Definition no_prefix (names ns : list string) : Prop :=
  forall p r, names = (p ++ r)%list -> p <> [] -> Forall good_name p ->
    coverb p ns = false.

Lemma no_prefix_tail : forall nm rest c q, nm <> "" -> plain nm = true ->
  no_prefix (nm :: rest) (c :: q) -> matches nm c = true -> no_prefix rest q.
Proof.
  intros nm rest c q Ne P N M p r -> Np G.
  specialize (N (nm :: p) r eq_refl ltac:(easy)
                (Forall_cons _ (conj Ne P) G)).
  cbn in N. now rewrite M in N.
Qed.

Lemma no_prefix_head : forall nm rest c q, nm <> "" -> plain nm = true ->
  no_prefix (nm :: rest) (c :: q) -> matches nm c = true -> q <> [].
Proof.
  intros nm rest c q Ne P N M ->.
  specialize (N [nm] rest eq_refl ltac:(easy)
                (Forall_cons _ (conj Ne P) (Forall_nil _))).
  cbn in N. now rewrite M in N.
Qed.

Lemma created_lookr : forall req names n n' m,
  created req names n n' m -> forall ns, no_prefix names ns ->
  lookr ns n' = lookr ns n.
Proof.
  induction 1; intros q N; auto.
  - destruct q as [|c q]; cbn [lookr]; [now rewrite with_kids_req|].
    rewrite with_kids_kids, H1, !first_some_app. cbn [first_some].
    rewrite (created_name _ _ _ _ _ H4), H2.
    destruct (matches nm c) eqn:M; [|reflexivity].
    rewrite IHcreated; [reflexivity|]. eapply no_prefix_tail; eauto.
  - destruct q as [|c q]; cbn [lookr]; [now rewrite with_kids_req|].
    rewrite with_kids_kids. cbn [first_some].
    rewrite (created_name _ _ _ _ _ H4), H3, new_kid_name.
    destruct (matches nm c) eqn:M; [|reflexivity].
    rewrite IHcreated by (eapply no_prefix_tail; eauto).
    pose proof (no_prefix_head _ _ _ _ H H0 N M) as Nq.
    destruct q as [|c2 q]; [easy|]. cbn [lookr]. now rewrite H3, new_kids.
Qed.

(** The node made is the newest one for every path it covers. *)
Lemma created_upd_hit : forall req names n n' m,
  created req names n n' m -> forall p f, m = Got p ->
  (forall x, n_name (f x) = n_name x) ->
  exists x, node_at p n' = Some x /\
    forall ns, coverb names ns = true ->
      lookr ns (upd_at p f n') = Some (n_required (f x)).
Proof.
  induction 1; intros p f M Hf; try discriminate.
  - injection M as <-. exists n. split; [reflexivity|].
    intros [|c ns] C; [reflexivity|discriminate].
  - destruct m; try discriminate. injection M as <-.
    destruct (IHcreated p0 f eq_refl Hf) as (x & A & B).
    exists x. cbn [node_at upd_at]. rewrite with_kids_kids, nth_app_mid.
    split; [exact A|]. intros [|c ns] C; [discriminate|].
    cbn in C. apply andb_true_iff in C. destruct C as [C1 C2].
    rewrite upd_app_mid, with_kids_kids2. cbn [lookr].
    rewrite with_kids_kids, first_some_app. cbn [first_some].
    rewrite upd_at_name by exact Hf.
    rewrite (created_name _ _ _ _ _ H4), H2, C1, (B ns C2).
    rewrite first_some_none; [reflexivity|].
    intros y Hy. now rewrite (H3 y c Hy C1).
  - destruct m; try discriminate. injection M as <-.
    destruct (IHcreated p0 f eq_refl Hf) as (x & A & B).
    exists x. cbn [node_at upd_at]. rewrite with_kids_kids. cbn [nth_error upd].
    split; [exact A|]. intros [|c ns] C; [discriminate|].
    cbn in C. apply andb_true_iff in C. destruct C as [C1 C2].
    rewrite with_kids_kids2. cbn [lookr].
    rewrite with_kids_kids. cbn [first_some].
    rewrite upd_at_name by exact Hf.
    now rewrite (created_name _ _ _ _ _ H4), H3, new_kid_name, C1, (B ns C2).
Qed.

Lemma created_upd_miss : forall req names n n' m,
  created req names n n' m -> forall p v rq o ns, m = Got p ->
  coverb names ns = false ->
  lookr ns (upd_at p (set_value v rq o) n') = lookr ns n'.
Proof.
  induction 1; intros p v rq o ns M C; try discriminate.
  - injection M as <-. destruct ns as [|c ns]; [discriminate|].
    cbn [upd_at lookr]. now rewrite set_value_kids.
  - destruct m; try discriminate. injection M as <-.
    cbn [upd_at]. rewrite with_kids_kids, upd_app_mid, with_kids_kids2.
    destruct ns as [|c ns]; cbn [lookr]; [now rewrite !with_kids_req|].
    rewrite !with_kids_kids, !first_some_app. cbn [first_some].
    rewrite upd_at_name by apply set_value_name.
    rewrite (created_name _ _ _ _ _ H4), H2.
    cbn in C. destruct (matches nm c); [|reflexivity].
    now rewrite IHcreated.
  - destruct m; try discriminate. injection M as <-.
    cbn [upd_at]. rewrite with_kids_kids, with_kids_kids2. cbn [upd].
    destruct ns as [|c ns]; cbn [lookr]; [now rewrite !with_kids_req|].
    rewrite !with_kids_kids. cbn [first_some].
    rewrite upd_at_name by apply set_value_name.
    rewrite (created_name _ _ _ _ _ H4), H3, new_kid_name.
    cbn in C. destruct (matches nm c); [|reflexivity].
    now rewrite IHcreated.
Qed.

(** ** The counters stay small *)

Fixpoint maxreq (n : node) : N :=
  let 'Node _ _ _ _ q k := n in
  fold_right (fun x m => N.max (maxreq x) m) q k.

Definition kids_max (q : N) (k : list node) : N :=
  fold_right (fun x m => N.max (maxreq x) m) q k.

Lemma maxreq_eq : forall n, maxreq n = kids_max (n_required n) (n_kids n).
Proof. now destruct n. Qed.

Lemma kids_max_le : forall q k B,
  kids_max q k <= B <-> q <= B /\ Forall (fun x => maxreq x <= B) k.
Proof.
  intros q k B. unfold kids_max. induction k as [|x k IH]; cbn.
  - split; [|tauto]. intros. split; [easy|constructor].
  - rewrite N.max_lub_iff, IH. split.
    + intros (A & H & D). split; [exact H|]. now constructor.
    + intros (A & H). inversion H. auto.
Qed.

Lemma maxreq_le : forall n B, maxreq n <= B <->
  n_required n <= B /\ Forall (fun x => maxreq x <= B) (n_kids n).
Proof. intros. rewrite maxreq_eq. apply kids_max_le. Qed.

Lemma maxreq_bare : forall n, maxreq (bare n) = maxreq n.
Proof.
  induction n as [a v w r q k F] using node_ind'. cbn.
  induction F as [|x k Hx F IH]; cbn; [reflexivity|]. now rewrite Hx, IH.
Qed.

Lemma maxreq_unrequire : forall n, maxreq (node_unrequire n) = 0.
Proof.
  induction n as [a v w r q k F] using node_ind'. cbn.
  induction F as [|x k Hx F IH]; cbn; [reflexivity|]. now rewrite Hx, IH.
Qed.

Lemma maxreq_upd : forall p f n M M',
  (forall x, maxreq x <= M -> maxreq (f x) <= M') -> M <= M' ->
  maxreq n <= M -> maxreq (upd_at p f n) <= M'.
Proof.
  induction p as [|i p IH]; intros f n M M' Hf Le Ln; cbn [upd_at]; [auto|].
  apply maxreq_le in Ln. destruct Ln as [L1 L2]. apply maxreq_le.
  rewrite with_kids_req, with_kids_kids. split; [lia|].
  revert i. induction L2 as [|x k Hx F IHk]; intros [|i]; cbn [upd]; try constructor.
  - eapply IH; eauto.
  - eapply Forall_impl; [|exact F]. cbv beta. intros. lia.
  - lia.
  - apply IHk.
Qed.

Lemma maxreq_node_at : forall p n x, node_at p n = Some x ->
  n_required x <= maxreq n.
Proof.
  induction p as [|i p IH]; intros n x E; cbn in E.
  - injection E as ->. apply (maxreq_le x (maxreq x)). lia.
  - destruct (nth_error (n_kids n) i) as [k|] eqn:Q; [|discriminate].
    apply IH in E. etransitivity; [exact E|].
    pose proof (proj1 (maxreq_le n (maxreq n)) ltac:(lia)) as [_ F].
    rewrite Forall_forall in F. apply F. eapply nth_error_In; eauto.
Qed.

Lemma maxreq_new : forall (req : bool) nm,
  maxreq (if req then inc_required (fresh nm) else fresh nm) <= 1.
Proof. intros [] nm; vm_compute; discriminate. Qed.

Lemma created_max : forall req names n n' m,
  created req names n n' m -> forall B, 1 <= B -> maxreq n <= B ->
  maxreq n' <= B.
Proof.
  induction 1; intros B L1 Ln; auto.
  - apply maxreq_le in Ln. destruct Ln as [A F]. apply maxreq_le.
    rewrite with_kids_req, with_kids_kids. split; [exact A|].
    rewrite H1 in F. apply Forall_app in F. destruct F as [F1 F2].
    inversion F2; subst. apply Forall_app. split; [exact F1|].
    constructor; auto.
  - apply maxreq_le in Ln. destruct Ln as [A F]. apply maxreq_le.
    rewrite with_kids_req, with_kids_kids. split; [exact A|].
    constructor; [|exact F]. apply IHcreated; [exact L1|].
    rewrite H3. pose proof (maxreq_new req nm). lia.
Qed.

Lemma inc32_le : forall q, inc32 q <= q + 1.
Proof. intros q. unfold inc32. apply N.mod_le. easy. Qed.

Lemma set_value_max : forall v rq o x M, maxreq x <= M ->
  maxreq (set_value v rq o x) <= M + 1.
Proof.
  intros v rq o x M L. apply maxreq_le in L. destruct L as [A F].
  apply maxreq_le. rewrite set_value_kids. split.
  - destruct x as [a w0 w r q k]. cbn in A |- *. destruct rq; [|lia].
    pose proof (inc32_le q). lia.
  - eapply Forall_impl; [|exact F]. cbv beta. intros. lia.
Qed.

Lemma do_call_max : forall t c t' r M, do_call t c = (t', r) ->
  maxreq t <= M -> maxreq t' <= M + 1.
Proof.
  intros t c t' r M E L. destruct c as [path v rq o|path rq|path leaf|path];
    cbn [do_call] in E.
  - unfold tree_set in E.
    destruct (create (names_of path) false t) as [t1 m] eqn:C.
    apply create_created in C.
    destruct m; injection E as <- <-;
      try (eapply created_max; [exact C|lia|lia]).
    (* setting does not create required nodes *)
    assert (L1 : maxreq t1 <= M).
    { clear - C L. remember false as req eqn:Q.
      induction C; auto; subst.
      - apply maxreq_le in L. destruct L as [A F]. apply maxreq_le.
        rewrite with_kids_req, with_kids_kids. split; [exact A|].
        rewrite H1 in F. apply Forall_app in F. destruct F as [F1 F2].
        inversion F2; subst. apply Forall_app. split; [exact F1|].
        constructor; auto.
      - apply maxreq_le in L. destruct L as [A F]. apply maxreq_le.
        rewrite with_kids_req, with_kids_kids. split; [exact A|].
        constructor; [|exact F]. apply IHC; auto. cbn. lia. }
    eapply maxreq_upd; [|apply N.le_add_r|exact L1].
    intros x Lx. now apply set_value_max.
  - destruct (create (names_of path) rq t) as [t1 m] eqn:C.
    apply create_created in C. injection E as <- <-.
    eapply created_max; [exact C|lia|lia].
  - destruct (try_get t path leaf) as [t1 g] eqn:C. injection E as <- <-.
    apply try_bare in C. rewrite <- maxreq_bare, C, maxreq_bare. lia.
  - unfold tree_unrequire in E.
    destruct (try_get t path false) as [t1 g] eqn:C.
    apply try_bare in C.
    assert (L1 : maxreq t1 <= M) by (rewrite <- maxreq_bare, C, maxreq_bare; lia).
    destruct g as [[p|]| |]; injection E as <- <-; try lia.
    eapply maxreq_upd; [|apply N.le_add_r|exact L1].
    intros x _. rewrite maxreq_unrequire. lia.
Qed.

Lemma calls_max : forall cs t evs, do_calls empty_tree cs = (t, evs) ->
  maxreq t <= N.of_nat (List.length evs).
Proof.
  apply (calls_snoc_ind empty_tree (fun t evs =>
    maxreq t <= N.of_nat (List.length evs))).
  - cbn. lia.
  - intros t evs c t' r IH _ D. rewrite app_length. cbn [List.length].
    rewrite Nat2N.inj_add. exact (do_call_max _ _ _ _ _ D IH).
Qed.

(** ** Paths that begin with given names *)

(** A path begins with some names: it goes on with a dot or not at all. *)
Definition begins (path : string) (ps : list string) : Prop :=
  Forall (fun n => n <> "" /\ free_of "." n) ps /\
  exists s, path = join ps ++ s /\ (s = "" \/ exists s', s = String "." s').

Lemma split_begins : forall f s p r, (String.length s <= f)%nat -> s <> "" ->
  split_names f s = (p ++ r)%list -> p <> [] ->
  Forall (fun n => n <> "") p ->
  Forall (fun n => n <> "" /\ free_of "." n) p /\
  exists e, s = join p ++ e /\ (e = "" \/ exists e', e = String "." e').
Proof.
  induction f as [|f IH]; intros s p r L N E Np F.
  - destruct s; [easy|cbn in L; lia].
  - cbn [split_names] in E. destruct (next_name s) as [a o] eqn:Q.
    destruct (next_name_inv _ _ _ Q) as [G1 G2].
    destruct p as [|x p]; [easy|]. cbn in E. injection E as <- E.
    inversion F as [|? ? Na Fr]; subst.
    destruct p as [|y p].
    + split; [repeat constructor; easy|]. cbn [join].
      destruct o as [r0|].
      * destruct G2 as [-> _]. exists (String "." r0). split; [reflexivity|].
        right. now exists r0.
      * destruct G2 as [->| ->].
        -- exists "". split; [now rewrite app_nil_s|now left].
        -- exists ".". split; [reflexivity|right; now exists ""].
    + destruct o as [r0|]; [|discriminate]. destruct G2 as [-> R0].
      assert (Lr : (String.length r0 <= f)%nat).
      { rewrite length_app_s in L. cbn in L. destruct a; [easy|]. cbn in L. lia. }
      destruct (IH r0 (y :: p) r Lr R0 E ltac:(easy) Fr) as (A & e & B & D).
      split; [constructor; easy|]. exists e. split; [|exact D].
      change (join (a :: y :: p)) with (a ++ String "." (join (y :: p))).
      rewrite app_assoc_s. cbn [String.append]. now rewrite <- B.
Qed.

Lemma names_begin : forall path p r, names_of path = (p ++ r)%list -> p <> [] ->
  Forall (fun n => n <> "") p -> begins path p.
Proof.
  intros path p r E Np F. unfold names_of in E. destruct path as [|c s] eqn:Q.
  - destruct p; [easy|discriminate].
  - rewrite <- Q in *. apply (split_begins (String.length path) path p r); auto.
    + now rewrite Q.
Qed.

(** A call that can add nodes: its path. *)
Definition adds (c : call) (path : string) : Prop :=
  (exists v rq o, c = CSet path v rq o) \/ (exists rq, c = CCreate path rq).

(** ** A requirement holds *)

(** A parameter set as required covers a path; afterwards no requirement is
    taken back, and nothing is set or created whose path begins with names
    that cover the path; fewer than 2^32 - 1 calls altogether. Then the path
    is required. *)
Theorem C66_required : forall cs t pre p v o post ps path ns,
  do_calls empty_tree cs =
    (t, (pre ++ (CSet p v true o, RSet SetTrue) :: post)%list) ->
  N.of_nat (List.length pre) < 2 ^ 32 - 1 ->
  spells p ps -> covers ps ns ->
  (forall c r path', In (c, r) post -> c <> CUnrequire path') ->
  (forall c r path' ps', In (c, r) post -> adds c path' -> ps' <> [] ->
     begins path' ps' -> ~ covers ps' ns) ->
  (ns = [] -> post = []) ->
  spells path ns -> Forall readable ns ->
  is_required t path = Yes.
Proof.
  intros cs t pre p v o post ps path ns E Lp Sp Cv NoUn NoAdd Root S R.
  rewrite (is_required_lookr t path ns S R).
  destruct (do_calls_app _ _ _ _ _ E) as (c1 & c2 & t1 & _ & E1 & E2).
  destruct (do_calls_cons _ _ _ _ _ E2) as (c3 & t2 & D & E3).
  cbn [fst snd] in D. pose proof (calls_max _ _ _ E1) as Mx.
  assert (I : exists q, lookr ns t2 = Some q /\ 0 < q).
  { cbn [do_call] in D. unfold tree_set in D.
    rewrite (names_spelled _ _ Sp) in D.
    destruct (create ps false t1) as [t3 m] eqn:C.
    apply create_created in C. destruct m; try discriminate. injection D as <-.
    assert (Cb : coverb ps ns = true).
    { apply coverb_covers; [|exact Cv].
      pose proof (created_plain _ _ _ _ _ C p0 eq_refl) as F.
      eapply Forall_impl; [|exact F]. now intros ? []. }
    destruct (created_upd_hit _ _ _ _ _ C p0 (set_value v true o) eq_refl
                (set_value_name v true o)) as (x & A & B).
    exists (n_required (set_value v true o x)). split; [now apply B|].
    assert (Lx : n_required x <= N.max 1 (N.of_nat (List.length pre))).
    { etransitivity; [exact (maxreq_node_at _ _ _ A)|].
      eapply created_max; [exact C| |]; lia. }
    destruct x as [a w0 w r q k]. cbn in Lx |- *. unfold inc32.
    rewrite N.mod_small; [lia|].
    change (2 ^ 32) with 4294967296 in *. lia. }
  destruct I as (q & I & Q).
  assert (K : lookr ns t = Some q).
  { destruct ns as [|c0 ns].
    { rewrite (Root eq_refl) in *. destruct c3 as [|c c3]; cbn in E3.
      - now injection E3 as <-.
      - destruct (do_call t2 c). destruct (do_calls n c3). discriminate. }
    clear - I E3 NoUn NoAdd. revert c3 t2 E3 I.
    induction post as [|[c r] post IH]; intros c3 t2 E3 I.
    - destruct c3 as [|c c3]; cbn in E3; [injection E3 as <-; exact I|].
      destruct (do_call t2 c). destruct (do_calls n c3). discriminate.
    - destruct (do_calls_cons _ _ _ _ _ E3) as (c4 & t4 & D & E4). cbn [fst snd] in D.
      eapply IH; [| |exact E4|].
      + intros c' r' path' J. apply (NoUn c' r'). now right.
      + intros c' r' path' ps' J. apply (NoAdd c' r'). now right.
      + rewrite <- I. clear IH I E3 E4.
        assert (NP : forall path', adds c path' -> no_prefix (names_of path') (c0 :: ns)).
        { intros path' Ad pp rr Eq Np G. apply not_true_is_false. intros Cb.
          apply (NoAdd c r path' pp (or_introl eq_refl) Ad Np).
          - eapply names_begin; [exact Eq|exact Np|].
            eapply Forall_impl; [|exact G]. now intros ? [].
          - apply coverb_covers; [|exact Cb].
            eapply Forall_impl; [|exact G]. now intros ? []. }
        destruct c as [path v rq o|path rq|path leaf|path]; cbn [do_call] in D.
        * assert (N0 : no_prefix (names_of path) (c0 :: ns)).
          { apply NP. left. eauto. }
          unfold tree_set in D.
          destruct (create (names_of path) false t2) as [t3 m] eqn:C.
          apply create_created in C.
          destruct m; injection D as <- <-;
            try (eapply created_lookr; [exact C|exact N0]).
          rewrite (created_upd_miss _ _ _ _ _ C _ _ _ _ _ eq_refl).
          -- eapply created_lookr; [exact C|exact N0].
          -- destruct (names_of path) as [|x l] eqn:Nm; [reflexivity|].
             apply (N0 (x :: l) []); [now rewrite app_nil_r|easy|].
             exact (created_plain _ _ _ _ _ C _ eq_refl).
        * destruct (create (names_of path) rq t2) as [t3 m] eqn:C.
          apply create_created in C. injection D as <- <-.
          eapply created_lookr; [exact C|]. apply NP. right. eauto.
        * destruct (try_get t2 path leaf) as [t3 g] eqn:C. injection D as <- <-.
          apply bare_lookr. eapply try_bare; eauto.
        * exfalso. now apply (NoUn (CUnrequire path) r path (or_introl eq_refl)). }
  rewrite K. apply N.ltb_lt in Q. now rewrite Q.
Qed.
Print Assumptions C66_required.

(** ** Only what was asked for is required *)

Fixpoint reqd (ps : list string) (n : node) : Prop :=
  match ps with
  | [] => 0 < n_required n
  | p :: ps' => exists k, In k (n_kids n) /\ n_name k = p /\ reqd ps' k
  end.

Lemma reqd_bare : forall ps n, reqd ps (bare n) <-> reqd ps n.
Proof.
  induction ps as [|p ps IH]; intros n; cbn.
  - now rewrite bare_req.
  - rewrite bare_kids. split.
    + intros (k & I & N & V). apply in_map_iff in I.
      destruct I as (x & <- & I). exists x. rewrite bare_name in N.
      rewrite IH in V. auto.
    + intros (k & I & N & V). exists (bare k).
      rewrite bare_name, IH. split; [now apply in_map|auto].
Qed.

Lemma bare_reqd : forall a b, bare a = bare b ->
  forall ps, reqd ps a <-> reqd ps b.
Proof. intros a b E ps. now rewrite <- (reqd_bare ps a), E, reqd_bare. Qed.

Lemma reqd_unrequire : forall n ps, ~ reqd ps (node_unrequire n).
Proof.
  induction n as [a v w r q k F] using node_ind'. intros [|p ps]; cbn.
  - lia.
  - intros (x & I & _ & V). apply in_map_iff in I. destruct I as (y & <- & I).
    rewrite Forall_forall in F. now apply (F y I) in V.
Qed.

Lemma reqd_upd : forall p f n ps, (forall x ps, reqd ps (f x) -> reqd ps x) ->
  (forall x, n_name (f x) = n_name x) -> reqd ps (upd_at p f n) -> reqd ps n.
Proof.
  induction p as [|i p IH]; intros f n ps Hf Hn V; cbn [upd_at] in V; [auto|].
  destruct ps as [|s ps]; cbn [reqd] in V |- *; [now rewrite with_kids_req in V|].
  rewrite with_kids_kids in V. destruct V as (x & I & N & V).
  assert (G : exists y, In y (n_kids n) /\ (x = y \/ x = upd_at p f y)).
  { clear - I. revert i I. induction (n_kids n) as [|y l IHl]; intros [|i] I; cbn in I; try easy.
    - destruct I as [<-|I]; [exists y; cbn; auto|exists x; cbn; auto].
    - destruct I as [<-|I]; [exists y; cbn; auto|].
      destruct (IHl _ I) as (z & A & B). exists z. cbn. auto. }
  destruct G as (y & J & [->| ->]); [eauto|].
  exists y. split; [exact J|]. rewrite upd_at_name in N by exact Hn.
  split; [exact N|]. eapply IH; eauto.
Qed.

Lemma reqd_new : forall (req : bool) nm ps,
  reqd ps (if req then inc_required (fresh nm) else fresh nm) ->
  req = true /\ ps = [].
Proof.
  intros req nm [|p ps] H; destruct req; cbn in H; auto; try lia;
    now destruct H as (k & [] & _).
Qed.

Lemma created_reqd : forall req names n n' m,
  created req names n n' m -> forall ps, reqd ps n' -> reqd ps n \/
  (req = true /\ ps <> [] /\ Forall good_name ps /\
   exists r, names = (ps ++ r)%list).
Proof.
  induction 1; intros ps V; auto.
  - destruct ps as [|p ps]; cbn [reqd] in V |- *; [rewrite with_kids_req in V; now left|].
    rewrite with_kids_kids in V. destruct V as (x & I & N & V).
    rewrite H1. apply in_app_iff in I. destruct I as [I|[<-|I]].
    + left. exists x. split; [apply in_app_iff; auto|auto].
    + rewrite (created_name _ _ _ _ _ H4) in N.
      destruct (IHcreated _ V) as [W|(Q & Np & G & r & W)].
      * left. exists k. split; [apply in_app_iff; cbn; auto|auto].
      * right. split; [exact Q|]. split; [easy|]. split.
        -- constructor; [|exact G]. rewrite <- N, H2. now split.
        -- exists r. cbn. congruence.
    + left. exists x. split; [apply in_app_iff; cbn; auto|auto].
  - destruct ps as [|p ps]; cbn [reqd] in V |- *; [rewrite with_kids_req in V; now left|].
    rewrite with_kids_kids in V. destruct V as (x & I & N & V).
    destruct I as [<-|I]; [|left; eauto]. right.
    rewrite (created_name _ _ _ _ _ H4), H3, new_kid_name in N.
    destruct (IHcreated _ V) as [W|(Q & Np & G & r & W)].
    + rewrite H3 in W. apply reqd_new in W. destruct W as [-> ->].
      split; [easy|]. split; [easy|]. split.
      * constructor; [|constructor]. rewrite <- N. now split.
      * exists rest. cbn. congruence.
    + split; [exact Q|]. split; [easy|]. split.
      * constructor; [|exact G]. rewrite <- N. now split.
      * exists r. cbn. congruence.
Qed.

Lemma created_set_reqd : forall req names n n' m,
  created req names n n' m -> forall p v rq o ps, m = Got p ->
  reqd ps (upd_at p (set_value v rq o) n') ->
  (ps = names /\ rq = true) \/ reqd ps n'.
Proof.
  induction 1; intros p v rq o ps M V; try discriminate.
  - injection M as <-. cbn [upd_at] in V. destruct ps as [|s ps].
    + destruct rq; [now left|right]. destruct n; exact V.
    + right. cbn [reqd] in *. now rewrite set_value_kids in V.
  - destruct m; try discriminate. injection M as <-.
    cbn [upd_at] in V. rewrite with_kids_kids, upd_app_mid, with_kids_kids2 in V.
    destruct ps as [|q ps]; cbn [reqd] in V |- *; [rewrite with_kids_req in V |- *; now right|].
    rewrite with_kids_kids in V |- *. destruct V as (x & I & N & V).
    apply in_app_iff in I. destruct I as [I|[<-|I]].
    + right. exists x. split; [apply in_app_iff; auto|auto].
    + rewrite upd_at_name in N by apply set_value_name.
      apply (IHcreated _ _ _ _ _ eq_refl) in V. destruct V as [[-> ->]|V].
      * left. rewrite (created_name _ _ _ _ _ H4) in N. split; congruence.
      * right. exists k'. split; [apply in_app_iff; cbn; auto|auto].
    + right. exists x. split; [apply in_app_iff; cbn; auto|auto].
  - destruct m; try discriminate. injection M as <-.
    cbn [upd_at] in V. rewrite with_kids_kids, with_kids_kids2 in V.
    cbn [upd] in V.
    destruct ps as [|q ps]; cbn [reqd] in V |- *; [rewrite with_kids_req in V |- *; now right|].
    rewrite with_kids_kids in V |- *. destruct V as (x & I & N & V).
    destruct I as [<-|I].
    + rewrite upd_at_name in N by apply set_value_name.
      apply (IHcreated _ _ _ _ _ eq_refl) in V. destruct V as [[-> ->]|V].
      * left. rewrite (created_name _ _ _ _ _ H4), H3, new_kid_name in N.
        split; congruence.
      * right. exists k'. cbn. auto.
    + right. exists x. cbn. auto.
Qed.

(** A call that makes a path required: a setting that succeeded, or the
    creation of a path that begins with it. *)
Definition req_event (e : call * reply) (ps : list string) : Prop :=
  (exists path v o, e = (CSet path v true o, RSet SetTrue) /\ spells path ps) \/
  (exists path r, e = (CCreate path true, RMade r) /\ begins path ps).

Lemma do_call_reqd : forall t c t' r, do_call t c = (t', r) ->
  forall ps, reqd ps t' -> reqd ps t \/ req_event (c, r) ps.
Proof.
  intros t c t' r E ps V. destruct c as [path v rq o|path rq|path leaf|path];
    cbn [do_call] in E.
  - unfold tree_set in E.
    destruct (create (names_of path) false t) as [t1 m] eqn:C.
    apply create_created in C.
    assert (Old : reqd ps t1 -> reqd ps t).
    { intros W. destruct (created_reqd _ _ _ _ _ C _ W) as [X|[X _]]; [exact X|discriminate]. }
    destruct m; injection E as <- <-; auto.
    destruct (created_set_reqd _ _ _ _ _ C _ _ _ _ _ eq_refl V) as [[-> ->]|W]; [right|auto].
    left. exists path, v, o. split; [reflexivity|]. apply names_good.
    pose proof (created_plain _ _ _ _ _ C _ eq_refl) as F.
    eapply Forall_impl; [|exact F]. now intros ? [].
  - destruct (create (names_of path) rq t) as [t1 m] eqn:C.
    apply create_created in C. injection E as <- <-.
    destruct (created_reqd _ _ _ _ _ C _ V) as [X|(-> & Np & G & rr & X)]; [now left|right].
    right. exists path, m. split; [reflexivity|].
    eapply names_begin; [exact X|exact Np|].
    eapply Forall_impl; [|exact G]. now intros ? [].
  - destruct (try_get t path leaf) as [t1 g] eqn:C. injection E as <- <-.
    left. apply try_bare in C. now apply (bare_reqd _ _ C).
  - left. unfold tree_unrequire in E.
    destruct (try_get t path false) as [t1 g] eqn:C.
    apply try_bare in C. apply (bare_reqd _ _ C).
    destruct g as [[p|]| |]; injection E as <- <-; auto.
    eapply reqd_upd; [| |exact V].
    + intros x ps' W. now apply reqd_unrequire in W.
    + now intros [].
Qed.

Lemma calls_reqd : forall cs t evs, do_calls empty_tree cs = (t, evs) ->
  forall ps, reqd ps t -> exists e, In e evs /\ req_event e ps.
Proof.
  apply (calls_snoc_ind empty_tree (fun t evs =>
    forall ps, reqd ps t -> exists e, In e evs /\ req_event e ps)).
  - intros [|p ps] V; cbn in V; [lia|]. now destruct V as (k & [] & _).
  - intros t evs c t' r IH _ D ps V.
    destruct (do_call_reqd _ _ _ _ D ps V) as [W|W].
    + destruct (IH ps W) as (e & A & B). exists e.
      split; [apply in_app_iff; now left|exact B].
    + exists (c, r). split; [apply in_app_iff; right; now left|exact W].
Qed.

Lemma first_some_in : forall A B (f : A -> option B) l y,
  first_some f l = Some y -> exists x, In x l /\ f x = Some y.
Proof.
  induction l as [|a l IH]; cbn; intros y E; [discriminate|].
  destruct (f a) eqn:Q.
  - injection E as <-. exists a. auto.
  - destruct (IH _ E) as (x & I & H). exists x. auto.
Qed.

Lemma lookr_reqd : forall ns n q, lookr ns n = Some q -> 0 < q ->
  exists ps, coverb ps ns = true /\ reqd ps n.
Proof.
  induction ns as [|c ns IH]; intros n q E L; cbn [lookr] in E.
  - injection E as <-. exists []. auto.
  - apply first_some_in in E. destruct E as (k & I & E).
    destruct (matches (n_name k) c) eqn:M; [|discriminate].
    destruct (IH _ _ E L) as (ps & C & R). exists (n_name k :: ps).
    cbn. rewrite M. split; [exact C|]. exists k. auto.
Qed.

Lemma reqd_present : forall ps n, reqd ps n -> present ps n.
Proof.
  induction ps as [|p ps IH]; intros n R; cbn in *; [easy|].
  destruct R as (k & I & N & R). exists k. auto.
Qed.

(** A path is required only if a parameter that covers it was set as
    required, or created as required (itself or as the beginning of a longer
    path). *)
Theorem C66_required_only : forall cs t evs path ns,
  do_calls empty_tree cs = (t, evs) ->
  spells path ns -> Forall readable ns ->
  is_required t path = Yes ->
  exists e ps, In e evs /\ req_event e ps /\ covers ps ns.
Proof.
  intros cs t evs path ns E S R Y.
  rewrite (is_required_lookr t path ns S R) in Y.
  destruct (lookr ns t) as [q|] eqn:Q; [|discriminate].
  destruct (N.ltb_spec 0 q) as [L|L]; [|discriminate].
  destruct (lookr_reqd _ _ _ Q L) as (ps & C & Rq).
  destruct (calls_reqd _ _ _ E ps Rq) as (e & I & Re).
  exists e, ps. split; [exact I|]. split; [exact Re|].
  apply coverb_covers; [|exact C]. apply reqd_present in Rq.
  apply (calls_good _ _ _ E) in Rq. eapply Forall_impl; [|exact Rq]. now intros ? [].
Qed.
Print Assumptions C66_required_only.

(** ** Taking a requirement back *)

Lemma upd_at_twice : forall p f g n, upd_at p f (upd_at p g n) =
  upd_at p (fun x => f (g x)) n.
Proof.
  induction p as [|i p IH]; intros f g n; cbn [upd_at]; [reflexivity|].
  rewrite with_kids_kids, with_kids_kids2. f_equal.
  revert i. induction (n_kids n) as [|x l IHl]; intros [|i]; cbn [upd]; auto.
  - now rewrite IH.
  - now rewrite IHl.
Qed.

Definition first_at (rest : list string) (nm : string) (ks : list node) : option N :=
  first_some (fun k => if matches (n_name k) nm then lookr rest k else None) ks.

Lemma last_first : forall nm kids k res bak,
  last_loop false nm kids = (k, (res, bak)) ->
  match res with
  | Some i => exists x, nth_error k i = Some x /\
      forall f, (forall y, n_name (f y) = n_name y) ->
        first_at [] nm (upd i f k) = Some (n_required (f x))
  | None => bak = None /\ first_at [] nm k = None
  end.
Proof.
  induction kids as [|x kids IH]; intros k res bak E; cbn in E.
  - now injection E as <- <- <-.
  - destruct (last_loop false nm kids) as [r' [res' bak']].
    specialize (IH _ _ _ eq_refl).
    destruct (matches (n_name x) nm) eqn:M.
    + rewrite orb_true_r in E. injection E as <- <- <-.
      exists (inc_read x). split; [reflexivity|]. intros f Hf.
      unfold first_at. cbn [upd first_some]. rewrite Hf.
      replace (n_name (inc_read x)) with (n_name x) by now destruct x.
      now rewrite M.
    + injection E as <- <- <-. destruct res' as [i|]; cbn [option_map].
      * destruct IH as (y & A & B). exists y. split; [exact A|].
        intros f Hf. unfold first_at. cbn [upd first_some]. rewrite M. now apply B.
      * destruct IH as [-> B]. split; [reflexivity|].
        unfold first_at. cbn [first_some]. now rewrite M.
Qed.

Lemma mid_first : forall F nm rest,
  (forall k k1 g, F k = (k1, g) -> n_name k1 = n_name k /\
     exists m, g = Found m /\
     match m with
     | Some p => exists x, node_at p k1 = Some x /\
         forall f, (forall y, n_name (f y) = n_name y) ->
           lookr rest (upd_at p f k1) = Some (n_required (f x))
     | None => lookr rest k1 = None
     end) ->
  forall kids ks g, mid_loop F false nm kids = (ks, g) ->
  exists m, g = Found m /\
    match m with
    | Some p => exists i q y x, p = i :: q /\ nth_error ks i = Some y /\
        node_at q y = Some x /\
        forall f, (forall y, n_name (f y) = n_name y) ->
          first_at rest nm (upd i (upd_at q f) ks) = Some (n_required (f x))
    | None => first_at rest nm ks = None
    end.
Proof.
  intros F nm rest HF.
  induction kids as [|k kids IH]; intros ks g E; cbn in E.
  - injection E as <- <-. exists None. split; reflexivity.
  - destruct (mid_loop F false nm kids) as [r' g'] eqn:L.
    destruct (IH r' g' eq_refl) as (m' & -> & P'). clear IH.
    destruct (matches (n_name k) nm) eqn:M.
    + destruct (F k) as [k1 g1] eqn:Fk.
      destruct (HF _ _ _ Fk) as (Nk & m1 & -> & R1).
      destruct m1 as [p|]; cbn [negb orb] in E.
      * destruct R1 as (x & A & B). injection E as <- <-.
        exists (Some (0%nat :: p)). split; [reflexivity|].
        exists 0%nat, p, (upd_at p inc_read k1), (inc_read x).
        split; [reflexivity|]. split; [reflexivity|]. split.
        { apply node_at_upd_same; [exact A|now intros []]. }
        intros f Hf. unfold first_at. cbn [upd first_some].
        rewrite !upd_at_name by (try exact Hf; now intros []).
        rewrite Nk, M, upd_at_twice. rewrite (B (fun y => f (inc_read y))).
        -- reflexivity.
        -- intros y. rewrite Hf. now destruct y.
      * injection E as <- <-.
        assert (Z : first_at rest nm (k1 :: r') = first_at rest nm r').
        { unfold first_at. cbn [first_some]. now rewrite Nk, M, R1. }
        destruct m' as [p'|].
        -- destruct P' as (i & q & y & x & -> & A & B & D). cbn [next_kid].
           exists (Some (Datatypes.S i :: q)). split; [reflexivity|].
           exists (Datatypes.S i), q, y, x. split; [reflexivity|].
           split; [exact A|]. split; [exact B|]. intros f Hf.
           unfold first_at. cbn [upd first_some]. rewrite Nk, M, R1. now apply D.
        -- exists None. split; [reflexivity|]. now rewrite Z.
    + injection E as <- <-. destruct m' as [p'|].
      * destruct P' as (i & q & y & x & -> & A & B & D). cbn [next_kid].
        exists (Some (Datatypes.S i :: q)). split; [reflexivity|].
        exists (Datatypes.S i), q, y, x. split; [reflexivity|].
        split; [exact A|]. split; [exact B|]. intros f Hf.
        unfold first_at. cbn [upd first_some]. rewrite M. now apply D.
      * exists None. split; [reflexivity|]. unfold first_at in *.
        cbn [first_some]. now rewrite M.
Qed.

Lemma recurs_first : forall names n n' g, names <> [] ->
  Forall (fun x => x <> "" /\ wild x = false) names ->
  recurs_try_get false names n = (n', g) ->
  exists m, g = Found m /\
     match m with
     | Some p => exists x, node_at p n' = Some x /\
         forall f, (forall y, n_name (f y) = n_name y) ->
           lookr names (upd_at p f n') = Some (n_required (f x))
     | None => lookr names n' = None
     end.
Proof.
  induction names as [|nm rest IH]; intros n n' g N F E; [easy|].
  inversion F as [|? ? [Nn W] Fr]; subst. cbn in E. rewrite W in E.
  destruct rest as [|nm2 rest].
  - destruct (last_loop false nm (n_kids n)) as [k [res bak]] eqn:L.
    apply last_first in L. injection E as <- <-. eexists. split; [reflexivity|].
    destruct res as [i|].
    + destruct L as (x & A & B). exists x. cbn [node_at upd_at].
      rewrite with_kids_kids, A. split; [reflexivity|]. intros f Hf.
      cbn [lookr]. rewrite with_kids_kids. exact (B f Hf).
    + destruct L as [-> L]. cbn [option_map]. cbn [lookr].
      rewrite with_kids_kids. exact L.
  - inversion Fr as [|? ? [Ne2 _] _]; subst.
    apply String.eqb_neq in Ne2. rewrite Ne2 in E.
    destruct (mid_loop (recurs_try_get false (nm2 :: rest)) false nm (n_kids n))
      as [k g'] eqn:L.
    injection E as <- <-.
    apply (mid_first _ nm (nm2 :: rest)) in L.
    2: { intros x x1 gx Ex. split; [eapply recurs_name; exact Ex|].
         apply (IH x x1 gx); auto. easy. }
    destruct L as (m & -> & P). exists m. split; [reflexivity|].
    destruct m as [p|].
    + destruct P as (i & q & y & x & -> & A & B & D). exists x.
      cbn [node_at upd_at]. rewrite with_kids_kids, A. split; [exact B|].
      intros f Hf. rewrite with_kids_kids2.
      change (first_at (nm2 :: rest) nm (n_kids (with_kids n (upd i (upd_at q f) k))) = Some (n_required (f x))).
      rewrite with_kids_kids. exact (D f Hf).
    + change (first_at (nm2 :: rest) nm (n_kids (with_kids n k)) = None).
      now rewrite with_kids_kids.
Qed.

(** unrequire finds a path exactly if isRequired does, and afterwards the
    path is not required. *)
Theorem C66_unrequire : forall t path ns, spells path ns ->
  Forall readable ns ->
  (is_required t path = AnsAsserts /\ snd (tree_unrequire t path) = Some false) \/
  ((is_required t path = Yes \/ is_required t path = No) /\
   snd (tree_unrequire t path) = Some true /\
   is_required (fst (tree_unrequire t path)) path = No).
Proof.
  intros t path ns S R.
  rewrite !(is_required_lookr _ path ns S R).
  unfold tree_unrequire. destruct (try_get t path false) as [t1 g] eqn:T.
  pose proof (try_bare _ _ _ _ _ T) as B. rewrite <- (bare_lookr _ _ B ns).
  unfold try_get in T. rewrite (names_spelled _ _ S) in T.
  destruct ns as [|nm rest].
  - injection T as <- <-. right. cbn [lookr fst snd upd_at].
    split; [now destruct (0 <? n_required t); auto|]. split; [reflexivity|].
    now destruct t.
  - assert (F : Forall (fun x => x <> "" /\ wild x = false) (nm :: rest)).
    { destruct S as [S _]. apply readable_wild in R. clear T.
      induction S as [|x l [S1 _] S IH]; constructor.
      - split; [exact S1|]. now inversion R.
      - apply IH. now inversion R. }
    inversion F as [|? ? [Nn _] _]; subst. apply String.eqb_neq in Nn.
    rewrite Nn in T.
    apply recurs_first in T; [|easy|exact F].
    destruct T as (m & -> & P). destruct m as [p|].
    + right. destruct P as (x & A & P). cbn [fst snd].
      pose proof (P (fun y => y) (fun y => eq_refl)) as P1.
      assert (Id : forall q n, upd_at q (fun y => y) n = n).
      { clear. induction q as [|i q IH]; intros n; cbn [upd_at]; [reflexivity|].
        assert (U : forall l j, upd j (upd_at q (fun y => y)) l = l).
        { induction l as [|y l IHl]; intros [|j]; cbn [upd]; auto.
          - now rewrite IH.
          - now rewrite IHl. }
        rewrite U. now destruct n. }
      rewrite Id in P1. rewrite P1.
      split; [destruct (0 <? n_required x); auto|]. split; [reflexivity|].
      rewrite (P node_unrequire) by now intros [].
      destruct x. reflexivity.
    + left. rewrite P. auto.
Qed.
Print Assumptions C66_unrequire.

(** ** Concrete cases *)

Definition ex_required : list call :=
  [CSet "top.*.width" "8" true "cfg.yaml";
   CSet "top.core0.depth" "2" false "cfg.yaml";
   CTry "top.core0.width" true;
   CCreate "lib.core1" true].

Example C66_required_ex :
  exists t post,
    do_calls empty_tree ex_required =
      (t, ([] ++ (CSet "top.*.width" "8" true "cfg.yaml", RSet SetTrue)
             :: post)%list) /\
    spells "top.*.width" ["top"; "*"; "width"] /\
    covers ["top"; "*"; "width"] ["top"; "core1"; "width"] /\
    (forall c r path', In (c, r) post -> c <> CUnrequire path') /\
    is_required t "top.core1.width" = Yes /\
    is_required t "lib" = Yes /\ is_required t "lib.core1" = Yes /\
    is_required t "top.core0.depth" = No /\
    is_required t "top.core0.name" = AnsAsserts /\
    is_required (fst (tree_unrequire t "lib")) "lib.core1" = No.
Proof.
  do 2 eexists. split; [hist|]. split; [spelled|]. split; [cov|].
  split.
  - intros c r path' [I|[I|[I|[]]]]; injection I; intros; subst; discriminate.
  - vm_compute. auto 10.
Qed.

(** The hypothesis on later paths, for a concrete history. *)
Example C66_required_paths_ex :
  forall ps', ps' <> [] -> begins "lib.core1" ps' ->
    ~ covers ps' ["top"; "core1"; "width"].
Proof.
  intros ps' Np (F & s & E & Hs) C.
  inversion C as [|p c r q G C2]; subst.
  inversion F as [|? ? [Pn Pf] _]; subst.
  assert (H : exists z, "lib.core1" = p ++ z).
  { destruct r as [|x r].
    - exists s. exact E.
    - change (join (p :: x :: r)) with (p ++ String "." (join (x :: r))) in E.
      rewrite app_assoc_s in E. eauto. }
  destruct H as (z & H).
  assert (Pl : p = "l" \/ p = "li" \/ p = "lib").
  { destruct p as [|c1 p]; [easy|]. injection H as <- H.
    destruct p as [|c2 p]; [now left|]. injection H as <- H.
    destruct p as [|c3 p]; [now right; left|]. injection H as <- H.
    destruct p as [|c4 p]; [now right; right|]. injection H as <- H.
    cbn in Pf. now destruct Pf as (_ & _ & _ & X & _). }
  destruct Pl as [->|[->| ->]]; inversion G.
Qed.

(** ** What goes wrong *)

(** A required parameter stops being required when a longer path is set whose
    beginning covers it: the node made on the way hides the parameter
    (sparta/simulation/ParameterTree.hpp 498-501, 1643-1652). *)
Theorem C66_hidden_refuted : exists t evs,
  do_calls empty_tree
    [CSet "a.b" "1" true ""; CSet "*.b.c" "2" false ""] = (t, evs) /\
  snd (do_call t (CTry "a.b" true)) = RGot (Found (Some [1; 0]%nat)) /\
  is_required (fst (tree_set empty_tree "a.b" "1" true "")) "a.b" = Yes /\
  is_required t "a.b" = No.
Proof. do 2 eexists. split; [hist|]. vm_compute. auto. Qed.
Print Assumptions C66_hidden_refuted.

(** Setting a parameter again as not required does not make it optional
    (sparta/simulation/ParameterTree.hpp 628-640). *)
Theorem C66_optional_refuted : exists t evs,
  do_calls empty_tree [CSet "a" "1" true ""; CSet "a" "2" false ""] = (t, evs) /\
  reads t "a" ("2", "") /\ is_required t "a" = Yes.
Proof.
  do 2 eexists. split; [hist|].
  split; [unfold reads; do 3 eexists; vm_compute; repeat split|]. hist.
Qed.
Print Assumptions C66_optional_refuted.

(** Taking back the requirement of one path takes back that of others: the
    node found may be a pattern (sparta/simulation/ParameterTree.hpp
    653-658, 1402-1409). *)
Theorem C66_unrequire_others_refuted : exists t,
  t = fst (tree_set empty_tree "*.x" "1" true "") /\
  is_required t "a.x" = Yes /\
  is_required (fst (tree_unrequire t "b")) "a.x" = No.
Proof. eexists. split; [reflexivity|]. vm_compute. auto. Qed.
Print Assumptions C66_unrequire_others_refuted.

(** Nor does it reach every node below the path: "a.x" was set in an older
    node than the pattern that unrequire("a") finds. *)
Theorem C66_unrequire_below_refuted : exists t evs,
  do_calls empty_tree [CSet "a.x" "1" true ""; CSet "*.y" "2" true ""] =
    (t, evs) /\
  snd (tree_unrequire t "a") = Some true /\
  is_required (fst (tree_unrequire t "a")) "a.x" = Yes.
Proof. do 2 eexists. split; [hist|]. vm_compute. auto. Qed.
Print Assumptions C66_unrequire_below_refuted.
