(** C65: merging and copying parameter trees. *)
From Coq Require Import NArith List Bool String Ascii Lia.
From Verif Require Import ParamTreeModel ParamTreeSpec ParamTreeProofs
  ParamTreeProps.
Import ListNotations.
Open Scope string_scope.
Open Scope N_scope.

(** ** Lemmas *)

(** The step of the loop of [append]. *)
Definition app_step (c : node) (st : node * app_res) : node * app_res :=
  let '(m, r) := st in
  match r with
  | AppDone =>
      let '(m', g) := create [n_name c] (0 <? n_required c) m in
      match g with
      | Got p =>
          match node_at p m' with
          | Some x =>
              let '(x', r') := append c x in
              (upd_at p (fun _ => x') m', r')
          | None => (m', AppUnmodelled)
          end
      | Failed => (m', AppFailed)
      | _ => (m', AppUnmodelled)
      end
  | _ => st
  end.

Definition app_start (ot n : node) : node :=
  match n_val ot with
  | Some (x, o) => set_value x (0 <? n_required ot) o n
  | None => n
  end.

Lemma append_eq : forall ot n,
  append ot n = fold_right app_step (app_start ot n, AppDone) (n_kids ot).
Proof. intros [a [[x o]|] w r q k] n; reflexivity. Qed.

Lemma app_start_name : forall ot n, n_name (app_start ot n) = n_name n.
Proof.
  intros. unfold app_start. destruct (n_val ot) as [[]|];
    [apply set_value_name|easy].
Qed.
Lemma app_start_kids : forall ot n, n_kids (app_start ot n) = n_kids n.
Proof.
  intros. unfold app_start. destruct (n_val ot) as [[]|];
    [apply set_value_kids|easy].
Qed.
Lemma app_start_val : forall ot n, n_val (app_start ot n) =
  match n_val ot with Some v => Some v | None => n_val n end.
Proof.
  intros. unfold app_start. destruct (n_val ot) as [[]|];
    [apply set_value_val|easy].
Qed.

(** Making one child: where it sits. *)
Lemma created_one : forall req nm n n' p,
  created req [nm] n n' (Got p) ->
  nm <> "" /\ plain nm = true /\
  exists l1 k l2, n' = with_kids n (l1 ++ k :: l2) /\ p = [List.length l1] /\
    n_name k = nm /\
    (forall x c, In x l1 -> matches nm c = true ->
      matches (n_name x) c = false) /\
    (n_kids n = (l1 ++ k :: l2)%list /\
     priority_match nm (n_kids n) 0 = Some (List.length l1) \/
     (l1 = [] /\ priority_match nm (n_kids n) 0 = None /\
      has_value n = false /\ l2 = n_kids n /\
      k = (if req then inc_required (fresh nm) else fresh nm))).
Proof.
  intros req nm n n' p C. inversion C; subst.
  - match goal with X : created _ [] _ _ _ |- _ => inversion X; subst end.
    match goal with X : below _ _ = _ |- _ => injection X as <- end.
    split; [easy|]. split; [easy|]. exists l1, k', l2.
    split; [easy|]. split; [easy|]. split; [easy|]. split; [easy|]. left. easy.
  - match goal with X : created _ [] _ _ _ |- _ => inversion X; subst end.
    match goal with X : below _ _ = _ |- _ => injection X as <- end.
    split; [easy|]. split; [easy|].
    exists [], (if req then inc_required (fresh nm) else fresh nm), (n_kids n).
    split; [easy|]. split; [easy|].
    split; [apply new_kid_name|]. split; [easy|]. right. auto 10.
Qed.

(** One step, cut open. *)
Lemma app_step_inv : forall c m r n' r',
  app_step c (m, r) = (n', r') ->
  (r <> AppDone /\ n' = m /\ r' = r) \/
  (r = AppDone /\
   ((exists g, create [n_name c] (0 <? n_required c) m = (n', g) /\
       ((g = Failed /\ r' = AppFailed) \/
        (g <> Failed /\ (forall p, g <> Got p) /\ r' = AppUnmodelled))) \/
    (exists m' l1 k l2 k', created (0 <? n_required c) [n_name c] m m' (Got [List.length l1]) /\
       m' = with_kids m (l1 ++ k :: l2) /\ n_name k = n_name c /\
       (forall x d, In x l1 -> matches (n_name c) d = true ->
          matches (n_name x) d = false) /\
       (n_kids m = (l1 ++ k :: l2)%list /\
        priority_match (n_name c) (n_kids m) 0 = Some (List.length l1) \/
        (l1 = [] /\ priority_match (n_name c) (n_kids m) 0 = None /\
         has_value m = false /\ l2 = n_kids m /\
         k = (if 0 <? n_required c then inc_required (fresh (n_name c))
              else fresh (n_name c)))) /\
       append c k = (k', r') /\ n' = with_kids m (l1 ++ k' :: l2)))).
Proof.
  intros c m r n' r' E. cbn [app_step] in E.
  destruct r; [right; split; [easy|]|left; now injection E as <- <-..].
  destruct (create [n_name c] (0 <? n_required c) m) as [m' g] eqn:C.
  destruct g as [p| | |].
  - right. apply create_created in C.
    pose proof (created_one _ _ _ _ _ C) as (_ & _ & l1 & k & l2 & -> & -> & En & D & K).
    cbn [node_at] in E. rewrite with_kids_kids, nth_app_mid in E.
    destruct (append c k) as [k' r2] eqn:A. injection E as <- <-.
    exists (with_kids m (l1 ++ k :: l2)), l1, k, l2, k'.
    split; [easy|]. split; [easy|]. split; [easy|]. split; [easy|].
    split; [easy|]. split; [easy|].
    cbn [upd_at]. now rewrite with_kids_kids, upd_app_mid, with_kids_kids2.
  - left. exists NoNode. injection E as <- <-. split; [easy|]. right.
    split; [easy|]. split; easy.
  - left. exists Failed. injection E as <- <-. auto.
  - left. exists Unmodelled. injection E as <- <-. split; [easy|]. right.
    split; [easy|]. split; easy.
Qed.

Lemma append_name : forall ot n n' r, append ot n = (n', r) ->
  n_name n' = n_name n.
Proof.
  intros ot n n' r E. rewrite append_eq in E. revert n' r E.
  induction (n_kids ot) as [|c ks IH]; intros n' r E; cbn in E.
  - injection E as <- <-. apply app_start_name.
  - destruct (fold_right app_step (app_start ot n, AppDone) ks) as [m r0].
    specialize (IH _ _ eq_refl). rewrite <- IH.
    destruct (app_step_inv _ _ _ _ _ E)
      as [(_ & -> & _)|(_ & [(g & C & _)|(m' & l1 & k & l2 & k' & _ & _ & _ & _ & _ & _ & ->)])].
    + reflexivity.
    + apply create_created in C. now rewrite (created_name _ _ _ _ _ C).
    + apply with_kids_name.
Qed.

Lemma append_look : forall ot n n', append ot n = (n', AppDone) ->
  forall q, look q n' =
    match look q ot with Some v => Some v | None => look q n end.
Proof.
  induction ot as [a v w rd rq kids F] using node_ind'.
  intros n n' E q. rewrite append_eq in E.
  set (ot := Node a v w rd rq kids) in *.
  assert (G : forall ks m, incl ks kids ->
    fold_right app_step (app_start ot n, AppDone) ks = (m, AppDone) ->
    n_val m = n_val (app_start ot n) /\
    forall c q, look (c :: q) m =
      match first_some (fun k => if matches (n_name k) c then look q k else None) ks with
      | Some x => Some x
      | None => look (c :: q) (app_start ot n)
      end).
  { induction ks as [|c0 ks IH]; intros m I X; cbn in X.
    - injection X as <-. auto.
    - destruct (fold_right app_step (app_start ot n, AppDone) ks) as [m0 r0] eqn:Y.
      destruct (app_step_inv _ _ _ _ _ X)
        as [(N & _ & R)|(-> & [(g & _ & [[_ R]|(_ & _ & R)])|
             (m' & l1 & k & l2 & k' & C & -> & En & D & _ & A & ->)])];
        try congruence.
      destruct (IH m0) as [V L]; [intros x Hx; apply I; now right|easy|].
      split; [now rewrite with_kids_val|]. intros c q'.
      cbn [first_some]. specialize (L c q').
      pose proof (created_look _ _ _ _ _ C (c :: q')) as CL.
      rewrite <- CL in L. cbn [look] in L |- *.
      rewrite with_kids_kids in L |- *.
      rewrite first_some_app in L |- *. cbn [first_some] in L |- *.
      rewrite (append_name _ _ _ _ A), En in *.
      rewrite Forall_forall in F.
      rewrite (F c0 (I _ (or_introl eq_refl)) _ _ A q').
      destruct (matches (n_name c0) c) eqn:M.
      + assert (N1 : first_some (fun k0 => if matches (n_name k0) c then look q' k0 else None) l1 = None).
        { apply first_some_none. intros x Hx. now rewrite (D x c Hx M). }
        rewrite N1 in *. destruct (look q' c0); [reflexivity|exact L].
      + exact L. }
  destruct (G kids n') as [V L]; [easy|exact E|].
  destruct q as [|c q].
  - cbn [look]. rewrite V, app_start_val. reflexivity.
  - rewrite L. cbn [look]. rewrite app_start_kids. reflexivity.
Qed.

(** ** Values after a merge *)

(** After a merge that ends normally, a path covered by a value of the tree
    merged in reads that value, and every other path reads as before.
    ParameterTree::merge (sparta/simulation/ParameterTree.hpp 1449-1451). *)
Theorem C65_merge : forall t ot t' path ns,
  merge t ot = (t', AppDone) -> spells path ns -> Forall readable ns ->
  (forall v, reads t' path v <->
     reads ot path v \/ (reads_nothing ot path /\ reads t path v)) /\
  (reads_nothing t' path <-> reads_nothing ot path /\ reads_nothing t path).
Proof.
  intros t ot t' path ns E S R. unfold merge in E.
  pose proof (append_look _ _ _ E ns) as L.
  split.
  - intros v. rewrite !(reads_look _ path ns v S R), (nothing_look _ path ns S R), L.
    destruct (look ns ot); split.
    + now left.
    + intros [H|[H _]]; congruence.
    + right. auto.
    + intros [H|[_ H]]; [discriminate|exact H].
  - rewrite !(nothing_look _ path ns S R), L.
    destruct (look ns ot); intuition congruence.
Qed.
Print Assumptions C65_merge.

Example C65_merge_ex :
  exists t ot t',
    do_calls empty_tree [CSet "a.b" "1" true ""; CSet "a.c" "2" true ""] =
      (t, [(CSet "a.b" "1" true "", RSet SetTrue);
           (CSet "a.c" "2" true "", RSet SetTrue)]) /\
    do_calls empty_tree [CSet "*.b" "3" true "x"] =
      (ot, [(CSet "*.b" "3" true "x", RSet SetTrue)]) /\
    merge t ot = (t', AppDone) /\
    reads t' "a.b" ("3", "x") /\ reads t' "a.c" ("2", "") /\
    reads t' "q.b" ("3", "x") /\ reads_nothing t' "q.c".
Proof.
  do 3 eexists. split; [vm_compute; reflexivity|].
  split; [vm_compute; reflexivity|]. split; [vm_compute; reflexivity|].
  split; [unfold reads; do 3 eexists; vm_compute; repeat split|].
  split; [unfold reads; do 3 eexists; vm_compute; repeat split|].
  split; [unfold reads; do 3 eexists; vm_compute; repeat split|].
  unfold reads_nothing; do 2 eexists; split; [vm_compute; reflexivity|now left].
Qed.

(** ** When a merge works *)

Fixpoint present (ps : list string) (n : node) : Prop :=
  match ps with
  | [] => True
  | p :: ps' => exists k, In k (n_kids n) /\ n_name k = p /\ present ps' k
  end.

Definition good_name (x : string) : Prop := x <> "" /\ plain x = true.

Definition good_tree (n : node) : Prop :=
  forall ps, present ps n -> Forall good_name ps.

Lemma good_kid : forall n k, good_tree n -> In k (n_kids n) ->
  good_name (n_name k) /\ good_tree k.
Proof.
  intros n k G I. split.
  - specialize (G [n_name k]). cbn in G.
    assert (F : Forall good_name [n_name k]) by (apply G; eauto).
    now inversion F.
  - intros ps P. specialize (G (n_name k :: ps)). cbn in G.
    assert (F : Forall good_name (n_name k :: ps)) by (apply G; eauto).
    now inversion F.
Qed.

Lemma append_outcome : forall ot n n' r, good_tree ot ->
  append ot n = (n', r) ->
  r <> AppUnmodelled /\
  (forall ps, valued ps n' -> valued ps n \/ valued ps ot) /\
  (r = AppFailed -> exists ps ns, (valued ps n \/ valued ps ot) /\
     present ns ot /\ extends ns ps).
Proof.
  induction ot as [a v w rd rq kids F] using node_ind'.
  intros n n' r Gd E. rewrite append_eq in E.
  set (ot := Node a v w rd rq kids) in *.
  change (n_kids ot) with kids in E.
  assert (St : forall ps, valued ps (app_start ot n) ->
                 valued ps n \/ valued ps ot).
  { intros [|p ps] V.
    - cbn in V |- *. rewrite app_start_val in V.
      destruct (n_val ot) eqn:X; [right; cbn in X; now rewrite X|now left].
    - left. cbn in V |- *. now rewrite app_start_kids in V. }
  assert (G : forall ks m r, incl ks kids ->
    fold_right app_step (app_start ot n, AppDone) ks = (m, r) ->
    r <> AppUnmodelled /\
    (forall ps, valued ps m -> valued ps n \/ valued ps ot) /\
    (r = AppFailed -> exists ps ns, (valued ps n \/ valued ps ot) /\
       present ns ot /\ extends ns ps)).
  2: { apply (G kids n' r); [easy|exact E]. }
  induction ks as [|c0 ks IH]; intros m r0 I X; cbn in X.
  { injection X as <- <-. split; [easy|]. split; [exact St|easy]. }
  destruct (fold_right app_step (app_start ot n, AppDone) ks) as [m0 r1] eqn:Y.
  destruct (IH m0 r1) as (U & V & Fl); [intros x Hx; apply I; now right|easy|].
  assert (Ic : In c0 kids) by (apply I; now left).
  destruct (good_kid ot c0 Gd Ic) as [[Gn Gp] Gc].
  destruct (app_step_inv _ _ _ _ _ X)
    as [(N & -> & ->)|(-> & [(g & C & H)|
         (m' & l1 & k & l2 & k' & C & -> & En & D & K & A & ->)])].
  - auto.
  - apply create_created in C. split; [|split].
    + destruct H as [[_ ->]|(Nf & Ng & ->)]; [easy|]. exfalso.
      destruct g as [p| | |]; [now apply (Ng p)| |easy|].
      * apply created_nonode in C; [|easy]. destruct C as [C|[]]. congruence.
      * apply created_unmod in C; [|easy]. destruct C as (x & [<-|[]] & P).
        congruence.
    + intros ps Vp. apply V. eapply created_valued; eauto.
    + intros ->. destruct H as [[-> _]|(_ & _ & H)]; [|discriminate].
      apply created_failed in C; [|easy]. destruct C as [_ (ps & Xt & Vp)].
      exists ps, [n_name c0]. split; [now apply V|]. split; [|exact Xt].
      cbn. exists c0. auto.
  - rewrite Forall_forall in F.
    destruct (F c0 Ic k k' r0 Gc A) as (U1 & V1 & F1).
    assert (Vk : forall ps, valued ps k -> valued (n_name c0 :: ps) m0).
    { intros ps Vp. destruct K as [[K _]|(_ & _ & _ & _ & K)].
      - cbn. exists k. rewrite K. split; [apply in_app_iff; cbn; auto|auto].
      - rewrite K in Vp. now apply valued_new in Vp. }
    split; [exact U1|]. split.
    + intros [|p ps] Vp.
      { apply V. cbn in Vp |- *. now rewrite with_kids_val in Vp. }
      cbn [valued] in Vp. rewrite with_kids_kids in Vp.
      destruct Vp as (x & Ix & Nx & Vx). apply in_app_iff in Ix.
      assert (O : forall y, In y l1 \/ In y l2 -> In y (n_kids m0)).
      { intros y Hy. destruct K as [[K _]|(-> & _ & _ & -> & _)].
        - rewrite K. apply in_app_iff. cbn. tauto.
        - now destruct Hy. }
      destruct Ix as [Ix|[<-|Ix]].
      * apply V. cbn. exists x. auto.
      * rewrite (append_name _ _ _ _ A), En in Nx. subst p.
        destruct (V1 _ Vx) as [W|W]; [now apply V, Vk|].
        right. cbn. exists c0. auto.
      * apply V. cbn. exists x. auto.
    + intros ->. destruct (F1 eq_refl) as (ps & ns & W & P & (x & rr & ->)).
      exists (n_name c0 :: ps), (n_name c0 :: ps ++ x :: rr)%list.
      split; [|split].
      * destruct W as [W|W]; [now apply V, Vk|]. right. cbn. exists c0. auto.
      * cbn. exists c0. auto.
      * now exists x, rr.
Qed.

(** Nodes of a tree come from calls. *)
Definition call_path (c : call) : option string :=
  match c with
  | CSet p _ _ _ => Some p
  | CCreate p _ => Some p
  | _ => None
  end.

Lemma present_strip : forall ps n, present ps (strip n) <-> present ps n.
Proof.
  induction ps as [|p ps IH]; intros n; cbn; [easy|].
  rewrite strip_kids. split.
  - intros (k & I & N & V). apply in_map_iff in I.
    destruct I as (x & <- & I). exists x. rewrite strip_name in N.
    rewrite IH in V. auto.
  - intros (k & I & N & V). exists (strip k).
    rewrite strip_name, IH. split; [now apply in_map|auto].
Qed.

Lemma strip_present : forall a b, strip a = strip b ->
  forall ps, present ps a <-> present ps b.
Proof. intros a b E ps. now rewrite <- (present_strip ps a), E, present_strip. Qed.

Lemma upd_at_present : forall p f n ps,
  (forall x, n_kids (f x) = n_kids x /\ n_name (f x) = n_name x) ->
  present ps (upd_at p f n) -> present ps n.
Proof.
  induction p as [|i p IH]; intros f n ps H P; cbn [upd_at] in P.
  - destruct ps; cbn in *; [easy|]. destruct (H n) as [-> _] in P. exact P.
  - destruct ps as [|s ps]; [easy|]. cbn [present] in P |- *.
    rewrite with_kids_kids in P. destruct P as (k & I & N & P).
    assert (X : forall j l, In k (upd j (upd_at p f) l) ->
              In k l \/ exists y, In y l /\ k = upd_at p f y).
    { clear. intros j l. revert j. induction l; intros [|j] Q; cbn in Q; auto.
      - destruct Q as [<-|Q]; [right; exists a; cbn; auto|left; now right].
      - destruct Q as [<-|Q]; [left; now left|].
        destruct (IHl _ Q) as [?|(y & ? & ?)]; [left; now right|].
        right. exists y. split; [now right|easy]. }
    destruct (X _ _ I) as [J|(y & J & ->)]; [now exists k|].
    exists y. split; [easy|]. split.
    + rewrite upd_at_name in N; [easy|]. apply H.
    + eapply IH; eauto.
Qed.

Lemma created_present : forall req names n n' m,
  created req names n n' m -> forall ps, present ps n' ->
  present ps n \/ (exists r, names = (ps ++ r)%list /\ Forall good_name ps).
Proof.
  induction 1; intros ps P; auto.
  - destruct ps as [|p ps]; [now left|]. cbn [present] in P |- *.
    rewrite with_kids_kids in P. destruct P as (x & I & N & P).
    rewrite H1. apply in_app_iff in I. destruct I as [I|[<-|I]].
    + left. exists x. split; [apply in_app_iff; auto|auto].
    + rewrite (created_name _ _ _ _ _ H4) in N. rewrite H2 in N. subst p.
      destruct (IHcreated _ P) as [Q|(r & -> & G)].
      * left. exists k. split; [apply in_app_iff; cbn; auto|auto].
      * right. exists r. split; [easy|]. now repeat constructor.
    + left. exists x. split; [apply in_app_iff; cbn; auto|auto].
  - destruct ps as [|p ps]; [now left|]. cbn [present] in P |- *.
    rewrite with_kids_kids in P. destruct P as (x & I & N & P).
    destruct I as [<-|I]; [|left; eauto].
    rewrite (created_name _ _ _ _ _ H4), H3, new_kid_name in N. subst p.
    destruct (IHcreated _ P) as [Q|(r & -> & G)].
    + right. destruct ps as [|p ps].
      * exists rest. split; [easy|]. now repeat constructor.
      * cbn in Q. rewrite H3 in Q. destruct req; now destruct Q as (? & [] & _).
    + right. exists r. split; [easy|]. now repeat constructor.
Qed.

Lemma do_call_present : forall t c t' r, do_call t c = (t', r) ->
  forall ps, present ps t' -> present ps t \/
    exists path rest, call_path c = Some path /\
      names_of path = (ps ++ rest)%list /\ Forall good_name ps.
Proof.
  intros t c t' r E ps P. destruct c as [path v rq o|path rq|path leaf|path];
    cbn [do_call] in E.
  - unfold tree_set in E.
    destruct (create (names_of path) false t) as [t1 m] eqn:C.
    apply create_created in C.
    assert (P1 : present ps t1).
    { destruct m; injection E as <- <-; auto.
      eapply upd_at_present; [|exact P]. intros x. now destruct x. }
    destruct (created_present _ _ _ _ _ C ps P1) as [Q|(rr & Q & G)];
      [now left|right; eexists _, rr; cbn; eauto].
  - destruct (create (names_of path) rq t) as [t1 m] eqn:C.
    apply create_created in C. injection E as <- <-.
    destruct (created_present _ _ _ _ _ C ps P) as [Q|(rr & Q & G)];
      [now left|right; eexists _, rr; cbn; eauto].
  - destruct (try_get t path leaf) as [t1 g] eqn:C. injection E as <- <-.
    left. apply try_strip in C. now apply (strip_present _ _ C).
  - destruct (tree_unrequire t path) as [t1 g] eqn:C. injection E as <- <-.
    left. apply unrequire_strip in C. now apply (strip_present _ _ C).
Qed.

Lemma calls_present : forall evs cs t t',
  do_calls t cs = (t', evs) -> forall ps, present ps t' -> present ps t \/
    exists c r path rest, In (c, r) evs /\ call_path c = Some path /\
      names_of path = (ps ++ rest)%list /\ Forall good_name ps.
Proof.
  induction evs as [|[c r] evs IH]; intros cs t t' E ps V.
  - destruct cs as [|c cs]; cbn in E; [injection E as <-; now left|].
    destruct (do_call t c). destruct (do_calls n cs). discriminate.
  - destruct (do_calls_cons _ _ _ _ _ E) as (cs' & t1 & D & R).
    cbn in D. destruct (IH _ _ _ R ps V) as [W|(c' & r' & path & rest & I & S)].
    + destruct (do_call_present _ _ _ _ D ps W) as [X|(path & rest & S)];
        [now left|right].
      exists c, r, path, rest. split; [now left|exact S].
    + right. exists c', r', path, rest. split; [now right|exact S].
Qed.

Lemma calls_good : forall cs t evs, do_calls empty_tree cs = (t, evs) ->
  good_tree t.
Proof.
  intros cs t evs E ps P.
  destruct (calls_present _ _ _ _ E ps P) as [Q|(c & r & path & rest & _ & _ & _ & G)];
    [|exact G].
  destruct ps; [constructor|]. cbn in Q. now destruct Q as (? & [] & _).
Qed.

Lemma empty_valued : forall ps, ~ valued ps empty_tree.
Proof. intros [|p ps]; cbn; [easy|]. now intros (k & [] & _). Qed.

(** Merging two trees, each built from nothing, works if no path set in either
    is a proper beginning of a path set or created in the second. *)
Theorem C65_merge_works : forall cs1 t e1 cs2 ot e2,
  do_calls empty_tree cs1 = (t, e1) -> do_calls empty_tree cs2 = (ot, e2) ->
  (forall c r path, In (c, r) e2 -> call_path c = Some path ->
     exists ns, spells path ns /\
       forall e ps v, In e e1 \/ In e e2 -> set_event e ps v ->
         ~ extends ns ps) ->
  snd (merge t ot) = AppDone.
Proof.
  intros cs1 t e1 cs2 ot e2 E1 E2 H. unfold merge.
  destruct (append ot t) as [t' r] eqn:A.
  destruct (append_outcome _ _ _ _ (calls_good _ _ _ E2) A) as (U & _ & Fl).
  destruct r; [reflexivity|exfalso|easy].
  destruct (Fl eq_refl) as (ps & ns & V & P & X).
  destruct (calls_present _ _ _ _ E2 ns P)
    as [Q|(c & r & path & rest & I & Cp & Nm & G)].
  - destruct X as (x & rr & ->). destruct ps; cbn in Q; now destruct Q as (? & [] & _).
  - destruct (H c r path I Cp) as (ns2 & S2 & N2).
    rewrite (names_spelled _ _ S2) in Nm. subst ns2.
    assert (X2 : extends (ns ++ rest) ps).
    { destruct X as (x & rr & ->). exists x, (rr ++ rest)%list.
      now rewrite <- app_assoc. }
    destruct V as [V|V].
    + destruct (calls_valued _ _ _ _ E1 ps V) as [W|(p & v & rq & o & J & S)];
        [now apply empty_valued in W|].
      apply (N2 _ ps (v, o) (or_introl J)); [|exact X2]. now exists p, rq.
    + destruct (calls_valued _ _ _ _ E2 ps V) as [W|(p & v & rq & o & J & S)];
        [now apply empty_valued in W|].
      apply (N2 _ ps (v, o) (or_intror J)); [|exact X2]. now exists p, rq.
Qed.
Print Assumptions C65_merge_works.

Example C65_merge_works_ex :
  exists t e1 ot e2,
    do_calls empty_tree [CSet "a.b.c" "1" true ""] = (t, e1) /\
    do_calls empty_tree [CSet "a.*" "3" true "x"; CCreate "a.z" true] = (ot, e2) /\
    (forall c r path, In (c, r) e2 -> call_path c = Some path ->
       exists ns, spells path ns /\
         forall e ps v, In e e1 \/ In e e2 -> set_event e ps v ->
           ~ extends ns ps) /\
    snd (merge t ot) = AppDone.
Proof.
  do 4 eexists. split; [vm_compute; reflexivity|].
  split; [vm_compute; reflexivity|]. split; [|vm_compute; reflexivity].
  assert (Q : forall e ps v,
    In e [(CSet "a.b.c" "1" true "", RSet SetTrue)] \/
    In e [(CSet "a.*" "3" true "x", RSet SetTrue);
          (CCreate "a.z" true, RMade (Got [0%nat; 0%nat]))] ->
    set_event e ps v -> (2 <= List.length ps)%nat).
  { intros e ps v I (p & rq & -> & S). apply names_spelled in S.
    cbn in I. decompose [or] I; try contradiction;
      match goal with X : _ = _ |- _ => inversion X; subst end;
      vm_compute; lia. }
  assert (Z : forall ns e ps v, (List.length ns <= 2)%nat ->
    In e [(CSet "a.b.c" "1" true "", RSet SetTrue)] \/
    In e [(CSet "a.*" "3" true "x", RSet SetTrue);
          (CCreate "a.z" true, RMade (Got [0%nat; 0%nat]))] ->
    set_event e ps v -> ~ extends ns ps).
  { intros ns e ps v L I Se (x & r & ->). apply (Q e ps v I) in Se.
    rewrite app_length in L. cbn in L. lia. }
  intros c r path [I|[I|[]]] Cp; injection I as <- <-; injection Cp as <-.
  - exists ["a"; "*"]. split; [spelled|]. intros. eapply Z; eauto.
  - exists ["a"; "z"]. split; [spelled|]. intros. eapply Z; eauto.
Qed.

(** ** Copies *)

(** What a user sees of a node: name, value, origin and whether it is
    required; numbers of writes and reads are left out. *)
Fixpoint view (n : node) : node :=
  let 'Node a v _ _ q k := n in
  Node a v 0 0 (if 0 <? q then 1 else 0) (map view k).

(** No child of a node would be used again for the name of a newer one. *)
Fixpoint tidy (n : node) : Prop :=
  let 'Node _ _ _ _ _ kids := n in
  (fix go (l : list node) : Prop :=
     match l with
     | [] => True
     | k :: r => priority_match (n_name k) r 0 = None /\ tidy k /\ go r
     end) kids.

Fixpoint tidy_kids (l : list node) : Prop :=
  match l with
  | [] => True
  | k :: r => priority_match (n_name k) r 0 = None /\ tidy k /\ tidy_kids r
  end.

Lemma tidy_eq : forall n, tidy n <-> tidy_kids (n_kids n).
Proof.
  intros [a v w r q k]. cbn [tidy n_kids].
  induction k; cbn; [easy|]. tauto.
Qed.

Lemma priority_names : forall nm l1 l2 i,
  map n_name l1 = map n_name l2 ->
  priority_match nm l1 i = priority_match nm l2 i.
Proof.
  induction l1 as [|a l1 IH]; intros [|b l2] i E; cbn in E; try discriminate;
    [reflexivity|].
  injection E as E1 E2. cbn [priority_match]. rewrite E1.
  rewrite (IH l2 (Datatypes.S i) E2). reflexivity.
Qed.

Lemma tidy_kids_mid : forall l1 k l2 k',
  n_name k' = n_name k -> tidy k' -> tidy_kids (l1 ++ k :: l2) ->
  tidy_kids (l1 ++ k' :: l2).
Proof.
  induction l1 as [|a l1 IH]; intros k l2 k' N T H; cbn in *.
  - destruct H as (A & _ & B). rewrite N. auto.
  - destruct H as (A & B & D). split; [|split; [easy|now apply (IH k)]].
    rewrite <- A. apply priority_names. rewrite !map_app. cbn. now rewrite N.
Qed.

Lemma created_tidy : forall req names n n' m,
  created req names n n' m -> tidy n -> tidy n'.
Proof.
  induction 1; intros T; auto.
  - apply tidy_eq. apply tidy_eq in T. rewrite with_kids_kids. rewrite H1 in T.
    apply (tidy_kids_mid _ k); auto.
    + now rewrite (created_name _ _ _ _ _ H4).
    + apply IHcreated. clear - T. induction l1 as [|a l1 IH]; cbn [List.app tidy_kids] in T;
        destruct T as (_ & T1 & T2); [exact T1|exact (IH T2)].
  - apply tidy_eq. apply tidy_eq in T. rewrite with_kids_kids. cbn. split; [|split; [|easy]].
    + now rewrite (created_name _ _ _ _ _ H4), H3, new_kid_name.
    + apply IHcreated. rewrite H3. now destruct req.
Qed.

Lemma tidy_kids_map : forall f l,
  (forall x, n_name (f x) = n_name x) -> (forall x, In x l -> tidy x -> tidy (f x)) ->
  tidy_kids l -> tidy_kids (map f l).
Proof.
  intros f l N. induction l as [|a l IH]; intros T H; cbn in *; [easy|].
  destruct H as (A & B & D). split; [|split; auto].
  rewrite N, <- A. apply priority_names. rewrite map_map.
  apply map_ext. intros. apply N.
Qed.

Lemma strip_tidy : forall n, tidy (strip n) <-> tidy n.
Proof.
  induction n as [a v w r q k F] using node_ind'.
  rewrite !tidy_eq, strip_kids. cbn [n_kids].
  induction F as [|x k Hx F IH]; cbn [map tidy_kids]; [easy|].
  rewrite Hx, IH, strip_name.
  rewrite (priority_names (n_name x) (map strip k) k); [easy|].
  rewrite map_map. apply map_ext. apply strip_name.
Qed.

Lemma upd_at_tidy : forall p f n,
  (forall x, n_kids (f x) = n_kids x /\ n_name (f x) = n_name x) ->
  tidy n -> tidy (upd_at p f n).
Proof.
  induction p as [|i p IH]; intros f n H T; cbn [upd_at]; rewrite tidy_eq in *.
  - destruct (H n) as [-> _]. exact T.
  - rewrite with_kids_kids. revert i.
    induction (n_kids n) as [|a l IHl]; intros i; [now destruct i|].
    destruct T as (A & B & D). destruct i as [|i]; cbn.
    + split; [|split; [now apply IH|easy]].
      rewrite upd_at_name; [easy|apply H].
    + split; [|split; [easy|now apply IHl]].
      rewrite <- A. apply priority_names. clear - H.
      revert i. induction l; intros [|i]; cbn; auto.
      * rewrite upd_at_name; [easy|apply H].
      * now rewrite IHl.
Qed.

Lemma calls_tidy : forall evs cs t t',
  do_calls t cs = (t', evs) -> tidy t -> tidy t'.
Proof.
  induction evs as [|[c r] evs IH]; intros cs t t' E T.
  - destruct cs as [|c cs]; cbn in E; [injection E as <-; easy|].
    destruct (do_call t c). destruct (do_calls n cs). discriminate.
  - destruct (do_calls_cons _ _ _ _ _ E) as (cs' & t1 & D & R).
    apply (IH _ _ _ R). clear - D T. cbn [fst snd] in D.
    destruct c as [path v rq o|path rq|path leaf|path]; cbn [do_call] in D.
    + unfold tree_set in D.
      destruct (create (names_of path) false t) as [t2 m] eqn:C.
      apply create_created in C. apply (created_tidy _ _ _ _ _ C) in T.
      destruct m; injection D as <- <-; auto.
      apply upd_at_tidy; [now intros []|easy].
    + destruct (create (names_of path) rq t) as [t2 m] eqn:C.
      apply create_created in C. apply (created_tidy _ _ _ _ _ C) in T.
      now injection D as <- <-.
    + destruct (try_get t path leaf) as [t2 g] eqn:C. injection D as <- <-.
      apply try_strip in C. rewrite <- strip_tidy, C. now apply strip_tidy.
    + destruct (tree_unrequire t path) as [t2 g] eqn:C. injection D as <- <-.
      apply unrequire_strip in C. rewrite <- strip_tidy, C. now apply strip_tidy.
Qed.

Lemma view_name : forall n, n_name (view n) = n_name n.
Proof. now destruct n. Qed.

Lemma append_copy : forall c n k', tidy c -> n_kids n = [] ->
  append c n = (k', AppDone) ->
  n_name k' = n_name n /\ n_val k' = n_val (app_start c n) /\
  n_required k' = n_required (app_start c n) /\
  map view (n_kids k') = map view (n_kids c).
Proof.
  induction c as [a v w rd rq kids F] using node_ind'.
  intros n k' T Nk E. rewrite append_eq in E.
  set (ot := Node a v w rd rq kids) in *.
  change (n_kids ot) with kids in *.
  apply tidy_eq in T. change (n_kids ot) with kids in T.
  assert (Sk : n_kids (app_start ot n) = []) by now rewrite app_start_kids.
  assert (Sn : n_name (app_start ot n) = n_name n) by apply app_start_name.
  set (st := app_start ot n) in *. clearbody st.
  assert (G : forall ks m, incl ks kids -> tidy_kids ks ->
    fold_right app_step (st, AppDone) ks = (m, AppDone) ->
    n_name m = n_name n /\ n_val m = n_val st /\
    n_required m = n_required st /\ map view (n_kids m) = map view ks).
  { induction ks as [|c0 ks IH]; intros m I Tk X; cbn in X.
    - injection X as <-. rewrite Sk. auto.
    - destruct (fold_right app_step (st, AppDone) ks) as [m0 r0] eqn:Y.
      destruct Tk as (P0 & T0 & Tk).
      destruct (app_step_inv _ _ _ _ _ X)
        as [(N & _ & R)|(-> & [(g & _ & [[_ R]|(_ & _ & R)])|
             (m' & l1 & k & l2 & k2 & C & Em & En & D & K & A & Ek)])];
        try congruence.
      destruct (IH m0) as (B1 & B2 & B3 & B4);
        [intros x Hx; apply I; now right|easy|easy|].
      assert (NK : map n_name (n_kids m0) = map n_name ks).
      { assert (Z : map n_name (map view (n_kids m0)) = map n_name (map view ks))
          by now rewrite B4.
        rewrite !map_map in Z. rewrite <- (map_ext _ _ view_name (n_kids m0)),
          <- (map_ext _ _ view_name ks). exact Z. }
      destruct K as [[_ K]|(-> & _ & _ & -> & Kk)].
      { rewrite (priority_names (n_name c0) _ _ 0%nat NK) in K. congruence. }
      rewrite Forall_forall in F.
      assert (Kn : n_kids k = []) by (rewrite Kk; now destruct (0 <? n_required c0)).
      destruct (F c0 (I _ (or_introl eq_refl)) k k2 T0 Kn A) as (F1 & F2 & F3 & F4).
      rewrite Ek, with_kids_name, with_kids_val, with_kids_kids.
      split; [exact B1|]. split; [exact B2|]. split.
      { rewrite <- B3. now destruct m0. }
      cbn [List.app map]. rewrite B4. f_equal.
      destruct k2 as [a2 v2 w2 r2 q2 kk2], c0 as [a0 v0 w0 r0 q0 kk0].
      cbn [n_name n_val n_required n_kids] in *.
      cbn [view]. rewrite F4, F1, En, F2, F3.
      rewrite app_start_val. cbn [n_val].
      assert (Z : n_val k = None) by (rewrite Kk; now destruct (0 <? q0)).
      rewrite Z. f_equal; [now destruct v0|].
      unfold app_start. cbn [n_val n_required]. rewrite Kk.
      destruct v0 as [[]|]; destruct (0 <? q0); reflexivity. }
  exact (G kids k' (incl_refl _) T E).
Qed.

(** A copy of a tree built by calls shows the same nodes with the same
    values, origins and demands. ParameterTree's copy constructor
    (sparta/simulation/ParameterTree.hpp 1198-1202). *)
Theorem C65_copy : forall cs ot evs t,
  do_calls empty_tree cs = (ot, evs) -> copy_tree ot = (t, AppDone) ->
  n_val t = n_val ot /\ map view (n_kids t) = map view (n_kids ot).
Proof.
  intros cs ot evs t E C.
  assert (T : tidy ot) by (apply (calls_tidy _ _ _ _ E); easy).
  destruct (append_copy ot empty_tree t T eq_refl C) as (_ & V & _ & K).
  split; [|exact K]. rewrite V, app_start_val. now destruct (n_val ot).
Qed.
Print Assumptions C65_copy.

(** Every path reads the same in the copy. *)
Theorem C65_copy_reads : forall ot t path ns,
  copy_tree ot = (t, AppDone) -> spells path ns -> Forall readable ns ->
  (forall v, reads t path v <-> reads ot path v) /\
  (reads_nothing t path <-> reads_nothing ot path).
Proof.
  intros ot t path ns E S R. unfold copy_tree in E.
  assert (N : reads_nothing empty_tree path).
  { apply (nothing_look _ path ns S R). now destruct ns. }
  assert (V : forall v, ~ reads empty_tree path v).
  { intros v. rewrite (reads_look _ path ns v S R). now destruct ns. }
  destruct (C65_merge _ _ _ path ns E S R) as [A B]. split.
  - intros v. rewrite A. specialize (V v). tauto.
  - rewrite B. tauto.
Qed.
Print Assumptions C65_copy_reads.

(** Copying a tree built by calls works if no path set is a proper beginning
    of a path set or created. *)
Theorem C65_copy_works : forall cs ot evs,
  do_calls empty_tree cs = (ot, evs) ->
  (forall c r path, In (c, r) evs -> call_path c = Some path ->
     exists ns, spells path ns /\
       forall e ps v, In e evs -> set_event e ps v -> ~ extends ns ps) ->
  snd (copy_tree ot) = AppDone.
Proof.
  intros cs ot evs E H.
  apply (C65_merge_works [] empty_tree [] cs ot evs eq_refl E).
  intros c r path I Cp. destruct (H c r path I Cp) as (ns & S & N).
  exists ns. split; [exact S|]. intros e ps v [[]|J]. now apply N.
Qed.
Print Assumptions C65_copy_works.

Example C65_copy_ex :
  exists ot evs t,
    do_calls empty_tree
      [CSet "a.b" "1" true "f"; CSet "a.*" "2" false "g"; CCreate "z" true;
       CTry "a.b" true; CSet "a.b" "3" true "h"] = (ot, evs) /\
    copy_tree ot = (t, AppDone) /\ reads t "a.b" ("3", "h") /\
    reads t "a.q" ("2", "g") /\ List.length (n_kids t) = 2%nat /\
    (forall c r path, In (c, r) evs -> call_path c = Some path ->
       (List.length (names_of path) <= 2)%nat).
Proof.
  do 3 eexists. split; [vm_compute; reflexivity|].
  split; [vm_compute; reflexivity|].
  split; [unfold reads; do 3 eexists; vm_compute; repeat split|].
  split; [unfold reads; do 3 eexists; vm_compute; repeat split|].
  split; [reflexivity|].
  intros c r path I Cp. cbn in I. decompose [or] I; try contradiction;
    match goal with X : _ = _ |- _ => injection X as <- <- end;
    try discriminate; injection Cp as <-; vm_compute; lia.
Qed.

(** A tree in which a parameter has a value and others sit below it (set in
    the order that works) cannot be copied: the copy constructor fails. *)
Theorem C65_copy_refuted : exists cs ot evs,
  cs = [CSet "a.b" "1" true ""; CSet "a" "2" true ""] /\
  do_calls empty_tree cs = (ot, evs) /\
  reads ot "a.b" ("1", "") /\ reads ot "a" ("2", "") /\
  snd (copy_tree ot) = AppFailed.
Proof.
  do 3 eexists. split; [reflexivity|]. split; [vm_compute; reflexivity|].
  split; [unfold reads; do 3 eexists; vm_compute; repeat split|].
  split; [unfold reads; do 3 eexists; vm_compute; repeat split|].
  vm_compute. reflexivity.
Qed.
Print Assumptions C65_copy_refuted.

(** Assigning a tree to itself empties it. *)
Theorem C65_self_assign_refuted : exists t t',
  t = fst (tree_set empty_tree "a" "1" true "") /\ reads t "a" ("1", "") /\
  assign t None = (t', AppDone) /\ reads_nothing t' "a".
Proof.
  do 2 eexists. split; [reflexivity|].
  split; [unfold reads; do 3 eexists; vm_compute; repeat split|].
  split; [vm_compute; reflexivity|].
  unfold reads_nothing; do 2 eexists; split; [vm_compute; reflexivity|now left].
Qed.
Print Assumptions C65_self_assign_refuted.

(** Assigning another tree makes the tree read like that one. *)
Theorem C65_assign : forall t ot t' path ns,
  assign t (Some ot) = (t', AppDone) -> spells path ns -> Forall readable ns ->
  (forall v, reads t' path v <-> reads ot path v) /\
  (reads_nothing t' path <-> reads_nothing ot path).
Proof. intros t ot t' path ns E. now apply C65_copy_reads. Qed.
Print Assumptions C65_assign.

Example C65_assign_ex : exists t',
  assign (fst (tree_set empty_tree "a" "1" true ""))
    (Some (fst (tree_set empty_tree "b.*" "2" true ""))) = (t', AppDone) /\
  reads t' "b.x" ("2", "") /\ reads_nothing t' "a".
Proof.
  eexists. split; [vm_compute; reflexivity|].
  split; [unfold reads; do 3 eexists; vm_compute; repeat split|].
  unfold reads_nothing; do 2 eexists; split; [vm_compute; reflexivity|now left].
Qed.

(** A merge that fails has already changed the tree. *)
Theorem C65_failed_merge_refuted : exists t ot t',
  do_calls empty_tree [CSet "a" "1" true ""; CSet "b" "2" true ""] =
    (t, [(CSet "a" "1" true "", RSet SetTrue);
         (CSet "b" "2" true "", RSet SetTrue)]) /\
  do_calls empty_tree [CSet "b" "3" true ""; CSet "a.x" "4" true ""] =
    (ot, [(CSet "b" "3" true "", RSet SetTrue);
          (CSet "a.x" "4" true "", RSet SetTrue)]) /\
  merge t ot = (t', AppFailed) /\ reads t "b" ("2", "") /\
  reads t' "b" ("3", "").
Proof.
  do 3 eexists. split; [vm_compute; reflexivity|].
  split; [vm_compute; reflexivity|]. split; [vm_compute; reflexivity|].
  split; unfold reads; do 3 eexists; vm_compute; repeat split.
Qed.
Print Assumptions C65_failed_merge_refuted.
