(** C63: reading a parameter from the parameter tree delivers the latest
    value set for it, whether it was set by its path or by a pattern. *)
From Coq Require Import NArith List Bool String Ascii Lia.
From Verif Require Import ParamTreeModel ParamTreeSpec ParamTreeProofs.
Import ListNotations.
Open Scope string_scope.
Open Scope N_scope.

(** Reading a path delivers a node with this value and origin. *)
Definition reads (t : node) (path : string) (v : string * string) : Prop :=
  exists t' p x, try_get t path true = (t', Found (Some p)) /\
    node_at p t' = Some x /\ n_val x = Some v.

(** Reading a path delivers no value: no node, or a node without one. *)
Definition reads_nothing (t : node) (path : string) : Prop :=
  exists t' g, try_get t path true = (t', g) /\
    (g = Found None \/
     exists p x, g = Found (Some p) /\ node_at p t' = Some x /\
       n_val x = None).

(** A call that set a parameter, with the names its path spells. *)
Definition set_event (e : call * reply) (ps : list string)
    (v : string * string) : Prop :=
  exists path rq, e = (CSet path (fst v) rq (snd v), RSet SetTrue) /\
    spells path ps.

Lemma readable_wild : forall ns, Forall readable ns ->
  Forall (fun x => wild x = false) ns.
Proof. intros ns F. eapply Forall_impl; [|exact F]. intros. now apply wild_readable. Qed.

Lemma reads_look : forall t path ns v, spells path ns ->
  Forall readable ns -> (reads t path v <-> look ns t = Some v).
Proof.
  intros t path ns v S R. apply readable_wild in R.
  unfold reads. destruct (try_get t path true) as [t' g] eqn:T.
  pose proof (try_hit _ _ _ _ _ S R T) as H. unfold hit_spec in H.
  destruct (look ns t) as [w|].
  - destruct H as (p & x & -> & A & B). split.
    + intros (t2 & p2 & x2 & E & A2 & B2). congruence.
    + intros E. injection E as ->. now exists t', p, x.
  - split; [|discriminate]. intros (t2 & p2 & x2 & E & A2 & B2).
    destruct H as [->|(p & x & -> & A & B)]; congruence.
Qed.

Lemma nothing_look : forall t path ns, spells path ns ->
  Forall readable ns -> (reads_nothing t path <-> look ns t = None).
Proof.
  intros t path ns S R. apply readable_wild in R.
  unfold reads_nothing. destruct (try_get t path true) as [t' g] eqn:T.
  pose proof (try_hit _ _ _ _ _ S R T) as H. unfold hit_spec in H.
  destruct (look ns t) as [w|].
  - destruct H as (p & x & -> & A & B). split; [|discriminate].
    intros (t2 & g2 & E & [->|(p2 & x2 & -> & A2 & B2)]); congruence.
  - split; [reflexivity|]. intros _. exists t', g. auto.
Qed.

(** ** Tactics for the examples *)

(** Spelling of a concrete path. *)
Ltac spelled :=
  split; [repeat (constructor; [split; [discriminate|cbn; repeat split; discriminate]|]); constructor
         |first [left; reflexivity | right; split; [discriminate|reflexivity]]].

(** A concrete name is readable or regular. *)
Ltac name_ok :=
  cbn; repeat split; let Q := fresh in intros Q; repeat (destruct Q as [Q|Q]; try discriminate); easy.

(** ** Patterns *)

(** A pattern accepts exactly the names its wildcards allow.
    ParameterTree::Node::matches (sparta/simulation/ParameterTree.hpp
    438-442). *)
Theorem C63_glob : forall pat name, regular pat ->
  (matches pat name = true <-> glob pat name).
Proof. intros. apply matches_glob. now apply plain_regular. Qed.
Print Assumptions C63_glob.

Example C63_glob_ex :
  regular "co*e?[1]+" /\
  matches "co*e?[1]+" "core[1]x" = true /\
  matches "co*e?[1]+" "core0[1]x" = true /\
  matches "co*e?[1]+" "core0[1]" = false /\
  matches "co*e?[1]+" "core00[1]x" = false.
Proof.
  split; [name_ok|]. repeat split; vm_compute; reflexivity.
Qed.

(** ** The latest value *)

(** Whatever tree one starts from and whatever is called: if a parameter set
    (by path or pattern) covers a path and nothing set later covers it, then
    reading the path delivers that value and origin. *)
Theorem C63_latest : forall t0 cs t pre e post ps v path ns,
  do_calls t0 cs = (t, (pre ++ e :: post)%list) ->
  set_event e ps v -> covers ps ns ->
  (forall e' ps' v', In e' post -> set_event e' ps' v' -> ~ covers ps' ns) ->
  spells path ns -> Forall readable ns ->
  reads t path v.
Proof.
  intros t0 cs t pre e post ps v path ns E (pth & rq & -> & Sp) C Later S R.
  apply (reads_look t path ns v S R).
  destruct (do_calls_app _ _ _ _ _ E) as (c1 & c2 & t1 & _ & _ & E2).
  destruct (do_calls_cons _ _ _ _ _ E2) as (c3 & t2 & D & E3).
  cbn [fst snd] in D.
  rewrite (calls_look_none _ _ _ _ ns E3).
  - rewrite (do_call_look _ _ _ _ D ns).
    destruct (set_true_names _ _ _ _ _ _ D) as [S2 P2].
    rewrite (names_spelled _ _ Sp) in *.
    apply (coverb_covers _ _ P2) in C. rewrite C. now destruct v.
  - intros p2 v2 rq2 o2 ps2 I Sp2. apply (Later _ _ (v2, o2) I).
    now exists p2, rq2.
Qed.
Print Assumptions C63_latest.

(** If nothing set during the calls covers a path, reading it delivers what
    it delivered before. *)
Theorem C63_others : forall t0 cs t evs path ns,
  do_calls t0 cs = (t, evs) ->
  (forall e ps v, In e evs -> set_event e ps v -> ~ covers ps ns) ->
  spells path ns -> Forall readable ns ->
  (forall v, reads t path v <-> reads t0 path v) /\
  (reads_nothing t path <-> reads_nothing t0 path).
Proof.
  intros t0 cs t evs path ns E None_ S R.
  assert (L : look ns t = look ns t0).
  { apply (calls_look_none _ _ _ _ ns E).
    intros p2 v2 rq2 o2 ps2 I Sp2. apply (None_ _ _ (v2, o2) I).
    now exists p2, rq2. }
  split.
  - intros v. rewrite !(reads_look _ path ns v S R), L. reflexivity.
  - rewrite !(nothing_look _ path ns S R), L. reflexivity.
Qed.
Print Assumptions C63_others.

(** From an empty tree: a path that nothing set covers has no value. *)
Theorem C63_unset : forall cs t evs path ns,
  do_calls empty_tree cs = (t, evs) ->
  (forall e ps v, In e evs -> set_event e ps v -> ~ covers ps ns) ->
  spells path ns -> Forall readable ns ->
  reads_nothing t path.
Proof.
  intros cs t evs path ns E None_ S R.
  apply (C63_others _ _ _ _ _ _ E None_ S R).
  apply (nothing_look _ path ns S R). now destruct ns.
Qed.
Print Assumptions C63_unset.

Definition ex_calls : list call :=
  [CSet "top.core0.width" "4" true "arch.yaml";
   CSet "top.core*.width" "8" false "cfg.yaml";
   CSet "top.core0.depth" "2" false "cfg.yaml";
   CTry "top.core0.width" true;
   CSet "top.core1.width" "16" true "cmd line";
   CCreate "top.*.width" true;
   CSet "top..width" "3" true "typo";
   CUnrequire "top"].

Example C63_latest_ex :
  (* core0 was overridden by the pattern, core1 overrides the pattern *)
  let '(t, evs) := do_calls empty_tree ex_calls in
  reads t "top.core0.width" ("8", "cfg.yaml") /\
  reads t "top.core1.width." ("16", "cmd line") /\
  reads t "top.core7.width" ("8", "cfg.yaml") /\
  reads_nothing t "top.core7.depth" /\
  exists pre post,
    evs = (pre ++ (CSet "top.core*.width" "8" false "cfg.yaml", RSet SetTrue)
             :: post)%list /\
    set_event (CSet "top.core*.width" "8" false "cfg.yaml", RSet SetTrue)
      ["top"; "core*"; "width"] ("8", "cfg.yaml") /\
    covers ["top"; "core*"; "width"] ["top"; "core0"; "width"].
Proof.
  destruct (do_calls empty_tree ex_calls) as [t evs] eqn:E.
  vm_compute in E. injection E as <- <-.
  split; [unfold reads; do 3 eexists; vm_compute; repeat split|].
  split; [unfold reads; do 3 eexists; vm_compute; repeat split|].
  split; [unfold reads; do 3 eexists; vm_compute; repeat split|].
  split; [unfold reads_nothing; do 2 eexists; split; [vm_compute; reflexivity|now left]|].
  eexists [_], _. split; [reflexivity|]. split.
  - exists "top.core*.width", false. split; [reflexivity|spelled].
  - repeat (constructor; [apply C63_glob; [name_ok|vm_compute; reflexivity]|]).
    constructor.
Qed.

Example C63_others_ex :
  let '(t, evs) := do_calls empty_tree
     [CSet "a.b" "1" true ""; CSet "a.c*" "2" true ""] in
  ~ covers ["a"; "b"] ["a"; "d"] /\ ~ covers ["a"; "c*"] ["a"; "d"] /\
  spells "a.d" ["a"; "d"] /\ Forall readable ["a"; "d"] /\
  reads_nothing t "a.d".
Proof.
  destruct (do_calls empty_tree _) as [t evs] eqn:E.
  vm_compute in E. injection E as <- <-.
  assert (N : forall p, regular p -> matches p "d" = false ->
                ~ covers ["a"; p] ["a"; "d"]).
  { intros p Rp M C. inversion C as [|? ? ? ? _ C2]; subst.
    inversion C2 as [|? ? ? ? G _]; subst.
    apply (C63_glob p "d" Rp) in G. congruence. }
  split; [apply N; [name_ok|reflexivity]|].
  split; [apply N; [name_ok|reflexivity]|].
  split; [spelled|]. split; [repeat (constructor; [name_ok|]); constructor|].
  unfold reads_nothing; do 2 eexists; split; [vm_compute; reflexivity|now left].
Qed.

(** ** When setting succeeds *)

(** Setting a parameter works on every tree built from nothing, provided no
    earlier setting used a path that is a proper beginning of the new one. *)
Theorem C63_set_works : forall cs t evs path ns v rq o,
  do_calls empty_tree cs = (t, evs) ->
  spells path ns -> Forall regular ns ->
  (forall e ps w, In e evs -> set_event e ps w -> ~ extends ns ps) ->
  snd (tree_set t path v rq o) = SetTrue.
Proof.
  intros cs t evs path ns v rq o E S R Ne. unfold tree_set.
  rewrite (names_spelled _ _ S).
  destruct (create ns false t) as [t' m] eqn:C. apply create_created in C.
  destruct m; [reflexivity|exfalso..].
  - apply created_nonode in C; [|reflexivity]. destruct S as [S _].
    rewrite Forall_forall in S. now destruct (S _ C).
  - apply created_failed in C; [|reflexivity].
    destruct C as [_ (ps & X & V)].
    destruct (calls_valued _ _ _ _ E ps V) as [W|(p2 & v2 & rq2 & o2 & I & S2)].
    + destruct ps; cbn in W; [easy|]. now destruct W as (k & [] & _).
    + apply (Ne _ ps (v2, o2) I); [|exact X]. now exists p2, rq2.
  - apply created_unmod in C; [|reflexivity]. destruct C as (x & I & P).
    rewrite Forall_forall in R. specialize (R x I).
    apply plain_regular in R. congruence.
Qed.
Print Assumptions C63_set_works.

Example C63_set_works_ex :
  exists t evs,
    do_calls empty_tree [CSet "a.b.c" "1" true ""; CSet "*.b" "2" true ""] =
      (t, evs) /\
    spells "a.b" ["a"; "b"] /\ Forall regular ["a"; "b"] /\
    ~ extends ["a"; "b"] ["a"; "b"; "c"] /\ ~ extends ["a"; "b"] ["*"; "b"] /\
    snd (tree_set t "a.b" "3" true "") = SetTrue.
Proof.
  do 2 eexists. split; [vm_compute; reflexivity|]. split; [spelled|].
  split; [repeat (constructor; [name_ok|]); constructor|].
  split; [intros (x & r & H); discriminate|].
  split; [intros (x & r & H); discriminate|]. vm_compute. reflexivity.
Qed.

(** A setting that succeeds had a path of non-empty names; any other outcome
    is reported, and a failed assertion leaves the tree as it was. *)
Theorem C63_set_reports : forall t path v rq o,
  (snd (tree_set t path v rq o) = SetTrue -> exists ns, spells path ns) /\
  (snd (tree_set t path v rq o) = SetFailed ->
     fst (tree_set t path v rq o) = t) /\
  (snd (tree_set t path v rq o) = SetFalse -> forall ns, ~ spells path ns).
Proof.
  intros t path v rq o. unfold tree_set.
  destruct (create (names_of path) false t) as [t' m] eqn:C.
  apply create_created in C. destruct m; cbn; repeat split; try discriminate.
  - intros _. exists (names_of path).
    pose proof (created_plain _ _ _ _ _ C p eq_refl) as F.
    apply names_good. clear - F. induction F as [|? ? [] ? IH]; auto.
  - intros _ ns S. apply created_nonode in C; [|reflexivity].
    rewrite (names_spelled _ _ S) in C. destruct S as [S _].
    rewrite Forall_forall in S. now destruct (S _ C).
  - intros _. now apply created_failed in C.
Qed.
Print Assumptions C63_set_reports.

Example C63_set_reports_ex :
  snd (tree_set empty_tree "a.*.b" "1" true "") = SetTrue /\
  snd (tree_set empty_tree "a..b" "1" true "") = SetFalse /\
  snd (tree_set (fst (tree_set empty_tree "a" "1" true "")) "a.b" "1" true "")
    = SetFailed.
Proof. vm_compute. auto. Qed.

(** "It cannot fail" (documentation of set, sparta/simulation/
    ParameterTree.hpp 1233-1238) is false: once "a" has a value, "a.b" cannot
    be set. Setting the two the other way round works. *)
Theorem C63_cannot_fail_refuted : exists t,
  t = fst (tree_set empty_tree "a" "1" true "") /\
  snd (tree_set t "a.b" "2" true "") = SetFailed /\
  exists t2, t2 = fst (tree_set empty_tree "a.b" "2" true "") /\
    snd (tree_set t2 "a" "1" true "") = SetTrue.
Proof. eexists. split; [reflexivity|]. split; [reflexivity|]. eexists. split; reflexivity. Qed.
Print Assumptions C63_cannot_fail_refuted.

(** A parameter whose name holds a bracket or a parenthesis can be set but
    never read: these characters count as wildcards, and reading asserts that
    there are none (sparta/simulation/ParameterTree.hpp 1574-1577). *)
Theorem C63_bracket_refuted : exists t,
  tree_set empty_tree "core[0].width" "4" true "" = (t, SetTrue) /\
  snd (try_get t "core[0].width" true) = Asserts.
Proof. eexists. split; [vm_compute; reflexivity|vm_compute; reflexivity]. Qed.
Print Assumptions C63_bracket_refuted.

(** Walking down from node to node (getChild, operator[]) does not find what
    the full path finds: the newest match of the first name hides the older
    ones. *)
Theorem C63_walk_refuted : exists t t1 i n,
  do_calls empty_tree [CSet "a.x" "1" true ""; CSet "*.y" "2" true ""] =
    (t, [(CSet "a.x" "1" true "", RSet SetTrue);
         (CSet "*.y" "2" true "", RSet SetTrue)]) /\
  reads t "a.x" ("1", "") /\
  try_get t "a" true = (t1, Found (Some [i])) /\
  node_at [i] t1 = Some n /\ get_child n "x" = Some None.
Proof.
  do 4 eexists. split; [vm_compute; reflexivity|].
  split; [unfold reads; do 3 eexists; vm_compute; repeat split|].
  split; [vm_compute; reflexivity|]. split; vm_compute; reflexivity.
Qed.
Print Assumptions C63_walk_refuted.

(** exists() answers differently for nodes without a value: true for a path of
    one name, false for a longer one (sparta/simulation/ParameterTree.hpp
    1591-1599 against 1618). *)
Theorem C63_exists_refuted : exists t,
  t = fst (tree_set empty_tree "a.b.c" "1" true "") /\
  snd (tree_exists t "a" true) = Some true /\
  snd (tree_exists t "a.b" true) = Some false /\
  snd (tree_exists t "a.b" false) = Some true.
Proof. eexists. split; [reflexivity|]. vm_compute. auto. Qed.
Print Assumptions C63_exists_refuted.

(** A node obtained from create and given its value later keeps its old place:
    the value set last is not the one read. *)
Theorem C63_handle_refuted : exists t p n t1,
  create (names_of "a.x") false empty_tree = (t, Got p) /\
  tree_set t "*.x" "1" true "" = (t1, SetTrue) /\
  (* the node made first, one place further back now *)
  node_at [1; 0]%nat t1 = Some n /\ n_name n = "x" /\
  reads (upd_at [1; 0]%nat (set_value "2" true "") t1) "a.x" ("1", "").
Proof.
  do 4 eexists. split; [vm_compute; reflexivity|].
  split; [vm_compute; reflexivity|]. split; [vm_compute; reflexivity|].
  split; [reflexivity|]. unfold reads; do 3 eexists; vm_compute; repeat split.
Qed.
Print Assumptions C63_handle_refuted.
