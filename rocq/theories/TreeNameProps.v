(** Properties of the device tree. *)
From Coq Require Import NArith Bool String Ascii Arith Permutation Decimal DecimalString List Lia.
From Verif Require Import ParamTreeModel ParamTreeSpec ParamTreeProofs TreeNameModel
  TreeNameSpec TreeNameProofs TreeNameInv TreeNameFacts TreeNamePriv TreeNameFind TreeNameLoc.
Import ListNotations.
Open Scope string_scope.
Open Scope nat_scope.

(** The trees that can be built. *)
Definition built (s : st) : Prop := exists h, run [] h = Some s.

Lemma built_good : forall s, built s -> good s.
Proof. intros s [h E]. eapply run_good; [exact good_init|exact E]. Qed.

(** A node of the default kind: no group. *)
Definition plain_node (name : string) : op := New name "" idx_none false false.

(** The tree of the examples:
      0 top (root) with 1 a (also called al), 3 (no name, core 0), 6 p
      1 a with 2 b1 (group b, 1), 7 b2 (group b, 2)
      2 b1 with 4 x
      6 p (private) with 5 q
    and 8 z, not connected. *)
Definition ex_hist : list op :=
  [New "top" "" idx_none false true; plain_node "a"; New "b1" "b" 1 true false;
   New "" "core" 0 true false; plain_node "x"; plain_node "q"; plain_node "p";
   New "b2" "b" 2 true false; plain_node "z"; AddAlias 1 "al"; AddAlias 1 "al";
   AddChild 0 1; AddChild 1 2; AddChild 0 3; AddChild 2 4; Private 6; AddChild 6 5;
   AddChild 0 6; AddChild 1 7; AddChild 4 1; AddAlias 2 "late"].
Definition ex_tree : st :=
  match run [] ex_hist with Some s => s | None => [] end.

Lemma ex_built : built ex_tree.
Proof. exists ex_hist. vm_compute. reflexivity. Qed.

(** ** C71: paths and locations *)

(** The child a name means is the first one that answers to it. *)
Theorem C71_child : forall s i x k, built s ->
  child_called s i x = Some k <-> meant s i x k.
Proof. intros s i x k B. apply called_meant. now apply built_good. Qed.

Example C71_child_ex :
  built ex_tree /\ child_called ex_tree 0 "al" = Some 1 /\
  child_called ex_tree 0 "core0" = Some 3 /\ child_called ex_tree 1 "b2" = Some 7 /\
  child_called ex_tree 0 "core1" = None /\ child_called ex_tree 0 "" = None.
Proof.
  split; [apply ex_built|]. repeat (split; [vm_compute; reflexivity|]). vm_compute. reflexivity.
Qed.
Print Assumptions C71_child.

(** By its name and by each of its aliases a child is found, whatever else
    was added before or later. *)
Theorem C71_own_name : forall s p k t x, built s ->
  nth_error s k = Some t -> t_up t = Some p ->
  (x = t_name t /\ x <> "" \/ In x (t_alias t)) ->
  child_called s p x = Some k.
Proof.
  intros s p k t x B E U X. apply built_good in B. apply called_meant; auto.
  apply own_meant with t; auto; [exists t; auto| |].
  - destruct X as [[-> _]|X]; cbn; auto.
  - destruct X as [[_ N]|X]; auto. intros ->.
    destruct (g_valid s B k t E) as (_ & _ & F). rewrite Forall_forall in F.
    destruct (F _ X) as [_ Z]. easy.
Qed.

Example C71_own_name_ex :
  built ex_tree /\
  match nth_error ex_tree 1 with
  | Some t => t_up t = Some 0 /\ t_name t = "a" /\ In "al" (t_alias t)
  | None => False
  end /\ child_called ex_tree 0 "a" = Some 1 /\ child_called ex_tree 0 "al" = Some 1.
Proof.
  split; [apply ex_built|]. split; [vm_compute; auto|].
  split; vm_compute; reflexivity.
Qed.
Print Assumptions C71_own_name.

Lemma route_lt : forall s i ns j, good s -> route s i ns j -> i < length s -> j < length s.
Proof.
  intros s i ns j G R. induction R as [i|i p ns j C R IH|i k x ns j X M R IH]; intros L; auto.
  - apply IH. eapply child_lt'; eauto.
  - apply IH. destruct M as (a & b & K & _). apply (child_lt s k i). apply kid_child; auto.
    rewrite K. apply in_elt.
Qed.

(** getChild goes from node to node as the path says; a node of another
    privacy level is refused. hasChild says whether it is found. *)
Theorem C71_path : forall s all i path ns, built s -> i < length s ->
  written path ns ->
  (forall j, get_child all s i path = Some j <->
     route s i ns j /\ (all = true \/ same_level s i j)) /\
  (has_child all s i path = true <-> exists j, get_child all s i path = Some j).
Proof.
  intros s all i path ns B L W. apply built_good in B. apply written_names in W. split.
  - intros j. unfold get_child. destruct (String.eqb_spec path "") as [->|N].
    + cbn in W. subst ns. split.
      * intros E. injection E as <-. split; [constructor|now right].
      * intros [R _]. inversion R. reflexivity.
    + rewrite W. split.
      * intros E. destruct (walk s i ns) as [k|] eqn:K; [|discriminate].
        apply walk_route in K; auto. pose proof (route_lt _ _ _ _ B K L) as Lk.
        pose proof (may_sees all s i k L Lk) as MS.
        rewrite <- negb_orb in E. destruct (all || sees s i k) eqn:V; [|discriminate].
        injection E as <-. split; [exact K|]. now apply MS.
      * intros [R M]. pose proof (route_lt _ _ _ _ B R L) as Lj.
        apply walk_route in R; auto. rewrite R, <- negb_orb.
        apply (may_sees all s i j L Lj) in M. now rewrite M.
  - unfold has_child, get_child. destruct (String.eqb path ""); [split; eauto|].
    destruct (walk s i (names_of path)) as [k|].
    + destruct (negb all && negb (sees s i k)); split; try discriminate; eauto.
      intros [j E]. discriminate.
    + split; [discriminate|]. intros [j E]. discriminate.
Qed.

Example C71_path_ex :
  built ex_tree /\ written "..a.b2" [""; ""; "a"; "b2"] /\
  get_child false ex_tree 4 "..a.b2" = None /\
  get_child false ex_tree 2 "..a.b2" = Some 7 /\
  get_child false ex_tree 0 "p" = None /\ get_child true ex_tree 0 "p" = Some 6 /\
  has_child false ex_tree 0 "al.b1.x." = true.
Proof.
  split; [apply ex_built|]. split; [apply written_names; vm_compute; reflexivity|].
  repeat (split; [vm_compute; reflexivity|]). vm_compute. reflexivity.
Qed.
Print Assumptions C71_path.

(** The location of a node is that of its parent, a dot, and its name; and
    the part of it behind a node above leads from that node back to it, if
    every node on the way has a name. *)
Theorem C71_location : forall s, built s ->
  (forall i p, child_of s i p -> exists a t, location s p = Some a /\
     nth_error s i = Some t /\ location s i = Some (a ++ "." ++ t_name t)) /\
  (forall a d j, below s a d j -> a < length s -> d <> [] ->
     Forall (fun k => exists t, nth_error s k = Some t /\ t_name t <> "") d ->
     exists la path, location s a = Some la /\ location s j = Some (la ++ "." ++ path) /\
       get_child true s a path = Some j).
Proof.
  intros s B0. pose proof (built_good s B0) as G. split.
  - intros i p C. destruct (location_up s i p G C) as (a & A1 & A2).
    destruct C as (t & E & U). exists a, t. split; [exact A1|]. split; [exact E|].
    rewrite A2. unfold name_of. now rewrite E.
  - intros a d j B L N F. destruct (location_some s a G L) as [la La].
    assert (F' : Forall (fun k => name_of s k <> "") d).
    { eapply Forall_impl; [|exact F]. intros k (t & E & Z). unfold name_of. now rewrite E. }
    assert (NN : map (name_of s) d <> []) by (destruct d; easy).
    exists la, (join (map (name_of s) d)). split; [exact La|]. split.
    + rewrite (location_below s a d j G B la La), (dotted_join _ NN). reflexivity.
    + assert (W : written (join (map (name_of s) d)) (map (name_of s) d)).
      { apply join_written. apply Forall_map. eapply Forall_impl; [|exact F'].
        intros k Z. split; [exact Z|now apply name_free]. }
      apply (C71_path s true a _ _ B0 L W). split; [now apply below_route|now left].
Qed.

Example C71_location_ex :
  built ex_tree /\ below ex_tree 0 [1; 2; 4] 4 /\
  location ex_tree 4 = Some "top.a.b1.x" /\ get_child true ex_tree 0 "a.b1.x" = Some 4 /\
  location ex_tree 8 = Some "~z" /\ location ex_tree 3 = Some "top.".
Proof.
  split; [apply ex_built|]. split.
  - repeat (eapply b_down; [eexists; split; [vm_compute; reflexivity|reflexivity]|]).
    constructor.
  - repeat (split; [vm_compute; reflexivity|]). vm_compute. reflexivity.
Qed.
Print Assumptions C71_location.

(** Two nodes below one node with the same location are one node, if all
    nodes on the two ways have names. *)
Theorem C71_unique : forall s a d i e j, built s -> a < length s ->
  below s a d i -> below s a e j ->
  Forall (fun k => exists t, nth_error s k = Some t /\ t_name t <> "") (d ++ e) ->
  location s i = location s j -> i = j.
Proof.
  intros s a d i e j B0 L Bi Bj F E. pose proof (built_good s B0) as G.
  destruct (location_some s a G L) as [la La].
  rewrite (location_below _ _ _ _ G Bi _ La), (location_below _ _ _ _ G Bj _ La) in E.
  assert (Q : dotted (map (name_of s) d) = dotted (map (name_of s) e)).
  { apply app_inj_s with la. congruence. }
  assert (F' : Forall (fun k => name_of s k <> "") (d ++ e)).
  { eapply Forall_impl; [|exact F]. intros k (t & Ek & Z). unfold name_of. now rewrite Ek. }
  apply Forall_app in F' as [Fd Fe].
  apply dotted_inj in Q; [|apply Forall_map, Forall_forall; intros; now apply name_free..].
  pose proof (below_route _ _ _ _ G Bi Fd) as R1. pose proof (below_route _ _ _ _ G Bj Fe) as R2.
  rewrite Q in R1. apply walk_route in R1, R2; auto. congruence.
Qed.

Example C71_unique_ex :
  built ex_tree /\ below ex_tree 0 [1; 2] 2 /\ below ex_tree 0 [1; 7] 7 /\
  location ex_tree 2 = Some "top.a.b1" /\ location ex_tree 7 = Some "top.a.b2".
Proof.
  split; [apply ex_built|].
  split; [repeat (eapply b_down; [eexists; split; [vm_compute; reflexivity|reflexivity]|]); constructor|].
  split; [repeat (eapply b_down; [eexists; split; [vm_compute; reflexivity|reflexivity]|]); constructor|].
  split; vm_compute; reflexivity.
Qed.
Print Assumptions C71_unique.

(** Without names it is not so: two nodes of one group, both without a name,
    have one location. *)
Theorem C71_unique_refuted :
  exists s i j, built s /\ i <> j /\ child_of s i 0 /\ child_of s j 0 /\
    location s i = location s j /\ location s i <> None.
Proof.
  pose (h := [New "top" "" idx_none false true; New "" "core" 0 true false;
              New "" "core" 1 true false; AddChild 0 1; AddChild 0 2]).
  pose (s := match run [] h with Some s => s | None => [] end).
  exists s, 1, 2. split; [exists h; vm_compute; reflexivity|]. split; [lia|].
  split; [exists (mkT "" "core" 0 true false [] 0 (Some 0) [] []); split; vm_compute; reflexivity|].
  split; [exists (mkT "" "core" 1 true false [] 0 (Some 0) [] []); split; vm_compute; reflexivity|].
  split; vm_compute; [reflexivity|discriminate].
Qed.
Print Assumptions C71_unique_refuted.

(** The privacy level of a node is the number of calls of
    makeSubtreePrivate on it and on the nodes above it, modulo 2^32. From a
    node, one below it has the same level exactly if no call, or a multiple of
    2^32 calls, was made on it and the nodes between. *)
Theorem C71_privacy : forall h s, run [] h = Some s ->
  (forall r t d i ti, nth_error s r = Some t -> t_up t = None -> below s r d i ->
     nth_error s i = Some ti ->
     t_priv ti = (hits (marks [] h) (r :: d) mod 2 ^ 32)%N) /\
  (forall i d j, below s i d j -> i < length s ->
     (same_level s i j <-> (hits (marks [] h) d mod 2 ^ 32 = 0)%N)).
Proof.
  intros h s E. pose proof (run_good _ _ _ good_init E) as G.
  pose proof (tally_run h [] [] s good_init tally_init E) as [_ T]. cbn [app] in T.
  set (m := marks [] h) in *.
  assert (PERM : forall a b, Permutation a b -> hits m a = hits m b).
  { intros a b P. unfold hits. f_equal. f_equal. apply filter_ext. intros x.
    apply eq_true_iff_eq. rewrite !existsb_eq. split; apply Permutation_in; auto.
    now apply Permutation_sym. }
  split.
  - intros r t d i ti Er Ur B Ei. destruct (g_chain s G i ti Ei) as [l C].
    rewrite (T _ _ _ Ei C).
    destruct (below_chain _ _ _ _ B [] (ch_top s r t Er Ur)) as (c & Cc & Q).
    rewrite (chain_fun _ _ _ C _ Cc), Q. f_equal. apply PERM.
    rewrite Permutation_app_comm. cbn. apply perm_skip. symmetry. apply Permutation_rev.
  - intros i d j B L.
    destruct (at_ s i) as [ti|] eqn:Ei; [|unfold at_ in Ei; apply nth_error_None in Ei; lia].
    destruct (g_chain s G i ti Ei) as [ci Ci].
    destruct (below_chain _ _ _ _ B _ Ci) as (cj & Cj & Q).
    assert (Ej : exists tj, at_ s j = Some tj) by (inversion Cj; eauto). destruct Ej as [tj Ej].
    unfold same_level. unfold at_ in Ei, Ej. rewrite Ei, Ej. cbn [option_map].
    pose proof (T i ti ci Ei Ci) as Pi. pose proof (T j tj cj Ej Cj) as Pj.
    rewrite Q in Pj. rewrite hits_app_r in Pj.
    2:{ pose proof (chain_nodup _ _ _ Cj) as ND. rewrite Q in ND.
        apply SharedPtrSafety.NoDup_app_iff' in ND as (_ & _ & D). exact D. }
    rewrite (PERM (rev d) d) in Pj by (symmetry; apply Permutation_rev).
    rewrite Pi, Pj. generalize (hits m d) (hits m (i :: ci)). clear.
    assert (Z : (2 ^ 32 <> 0)%N) by easy. revert Z. generalize (2 ^ 32)%N. intros M Z x y.
    split.
    + intros Q. injection Q as Q. rewrite N.add_mod in Q by assumption.
      pose proof (N.mod_lt x M Z) as Lx. pose proof (N.mod_lt y M Z) as Ly.
      revert Q Lx Ly. generalize (x mod M)%N (y mod M)%N. intros a b Q La Lb.
      destruct (N.lt_ge_cases (a + b) M) as [H1|H1].
      * rewrite (N.mod_small (a + b)) in Q by assumption. clear - Q. lia.
      * exfalso. assert (W : ((a + b) mod M = a + b - M)%N).
        { symmetry. apply N.mod_unique with 1%N; clear - La Lb H1; lia. }
        rewrite W in Q. clear - Q La Lb H1. lia.
    + intros Q. f_equal. rewrite N.add_mod by assumption. rewrite Q. cbn [N.add].
      now rewrite N.mod_mod.
Qed.

Example C71_privacy_ex :
  run [] ex_hist = Some ex_tree /\ marks [] ex_hist = [6] /\
  below ex_tree 0 [6; 5] 5 /\ hits (marks [] ex_hist) [6; 5] = 1%N /\
  map t_priv ex_tree = [0; 0; 0; 0; 0; 1; 1; 0; 0]%N.
Proof.
  split; [vm_compute; reflexivity|]. split; [vm_compute; reflexivity|].
  split; [repeat (eapply b_down; [eexists; split; [vm_compute; reflexivity|reflexivity]|]); constructor|].
  split; vm_compute; reflexivity.
Qed.
Print Assumptions C71_privacy.

(** Privacy is not kept by getChild: from inside a private subtree a path
    through the parent reaches into another private subtree; only the levels
    of the two ends are compared. findChildren does not find the node. *)
Theorem C71_private_refuted :
  exists h s i path j, run [] h = Some s /\
    get_child false s i path = Some j /\
    In j (marks [] h) /\ (forall d, ~ below s j d i) /\
    find_children false s i path = Some [].
Proof.
  pose (h := [New "top" "" idx_none false true; plain_node "a"; plain_node "b";
              Private 1; Private 2; AddChild 0 1; AddChild 0 2]).
  pose (s := match run [] h with Some s => s | None => [] end).
  assert (E : run [] h = Some s) by (vm_compute; reflexivity).
  exists h, s, 1, ".b", 2. split; [exact E|]. split; [vm_compute; reflexivity|].
  split; [vm_compute; auto|]. split; [|vm_compute; reflexivity].
  intros d B. pose proof (run_good _ _ _ good_init E) as G.
  assert (C : chain s 1 [0]).
  { eapply ch_up; [vm_compute; reflexivity|reflexivity|].
    eapply ch_top; [vm_compute; reflexivity|reflexivity]. }
  pose proof (below_pos _ _ _ _ _ G C B) as Q. destruct d as [|x [|y d]]; cbn in Q; try discriminate.
  destruct (length d); discriminate.
Qed.
Print Assumptions C71_private_refuted.

(** ** C72: patterns *)

Lemma regular_plain : forall ps, Forall regular ps <-> forallb plain ps = true.
Proof.
  intros ps. rewrite forallb_forall, Forall_forall.
  split; intros H x X; apply plain_regular; auto.
Qed.

(** findChildren finds exactly the nodes that the parts of the pattern lead
    to: from a node to its parent for an empty part, otherwise to the children
    that answer to a text the part accepts, without those of another privacy
    level unless all are asked for. *)
Theorem C72_found : forall s all i pattern parts, built s ->
  written pattern parts -> Forall regular parts ->
  exists res, find_children all s i pattern = Some res /\
    forall j, In j (map fst res) <->
      exists ts, finds s (fun a b => all = true \/ same_level s a b) i parts j ts.
Proof.
  intros s all i pattern parts B W R. apply built_good in B. apply written_names in W.
  apply regular_plain in R. unfold find_children. rewrite W, R.
  eexists. split; [reflexivity|]. intros j. split.
  - intros I0. apply in_map_iff in I0 as ([j' r] & E & I0). cbn in E. subst j'.
    destruct (find_sound _ _ _ _ _ _ B R I0) as (ts & F & _). eauto.
  - intros [ts F]. eapply find_complete; eauto.
Qed.

Example C72_found_ex :
  built ex_tree /\ written "?l.b*" ["?l"; "b*"] /\ Forall regular ["?l"; "b*"] /\
  find_children false ex_tree 0 "?l.b*" = Some [(2, ["a"; "1"]); (7, ["a"; "2"])] /\
  find_children false ex_tree 0 "+" = Some [(1, ["a"]); (3, ["core0"])] /\
  find_children true ex_tree 0 "+" = Some [(1, ["a"]); (3, ["core0"]); (6, ["p"])].
Proof.
  split; [apply ex_built|]. split; [apply written_names; vm_compute; reflexivity|].
  split; [apply regular_plain; vm_compute; reflexivity|].
  repeat (split; [vm_compute; reflexivity|]). vm_compute. reflexivity.
Qed.
Print Assumptions C72_found.

(** The wildcards of a text. *)
Fixpoint wildcards (p : string) : nat :=
  match p with
  | EmptyString => 0
  | String c r => (if existsb (Ascii.eqb c) ["*"; "?"; "+"]%char then 1 else 0) + wildcards r
  end.

Lemma fills_wildcards : forall p r x, fills p r x -> length r = wildcards p.
Proof.
  intros p r x F. induction F as [|c p r x N1 N2 N3 F IH| | | | ];
    cbn [wildcards existsb Ascii.eqb Bool.eqb length orb]; try lia.
  apply Ascii.eqb_neq in N1, N2, N3. now rewrite N1, N2, N3.
Qed.

Lemma finds_wildcards : forall s see i parts j ts, finds s see i parts j ts ->
  length (List.concat ts) = list_sum (map wildcards parts).
Proof.
  intros s see i parts j ts F.
  induction F as [i|i p ns j ts C F IH|i k pat x ns j w ts N C An Fl M F IH]; cbn; auto.
  rewrite app_length, IH, (fills_wildcards _ _ _ Fl). reflexivity.
Qed.

(** The texts given with a node that was found: one for each wildcard, and
    in some order those with which the pattern leads to the node; in the order
    of the pattern if at most one wildcard lies behind the first part with a
    name. *)
Theorem C72_texts : forall s all i pattern parts res j r, built s ->
  written pattern parts -> find_children all s i pattern = Some res -> In (j, r) res ->
  length r = list_sum (map wildcards parts) /\
  exists ts, finds s (fun a b => all = true \/ same_level s a b) i parts j ts /\
    Permutation r (List.concat ts) /\
    (length (List.concat (tl ts)) <= 1 -> r = List.concat ts).
Proof.
  intros s all i pattern parts res j r B W E I0. apply built_good in B. apply written_names in W.
  unfold find_children in E. rewrite W in E. destruct (forallb plain parts) eqn:P; [|discriminate].
  injection E as <-. destruct (find_sound _ _ _ _ _ _ B P I0) as (ts & F & Q1 & Q2).
  split; [|eauto]. rewrite (Permutation_length Q1). eapply finds_wildcards; eauto.
Qed.

Example C72_texts_ex :
  built ex_tree /\ written "?l.b*" ["?l"; "b*"] /\
  find_children false ex_tree 0 "?l.b*" = Some [(2, ["a"; "1"]); (7, ["a"; "2"])] /\
  fills "b*" ["2"] "b2" /\ answers ex_tree 7 "b2".
Proof.
  split; [apply ex_built|]. split; [apply written_names; vm_compute; reflexivity|].
  split; [vm_compute; reflexivity|]. split; [apply caps_sound; vm_compute; reflexivity|].
  apply answers_keys. eexists. split; [vm_compute; reflexivity|]. vm_compute. auto.
Qed.
Print Assumptions C72_texts.

(** With three parts the texts come in another order: those of the second
    and third part are exchanged. *)
Theorem C72_texts_refuted :
  exists s r, built s /\
    find_children false s 0 "a*.b*.c*" = Some [(3, r)] /\
    r = ["1"; "3"; "2"] /\
    (forall ts, finds s (fun a b => false = true \/ same_level s a b) 0 ["a*"; "b*"; "c*"] 3 ts ->
       List.concat ts = ["1"; "2"; "3"]).
Proof.
  pose (h := [New "top" "" idx_none false true; plain_node "a1"; plain_node "b2"; plain_node "c3";
              AddChild 0 1; AddChild 1 2; AddChild 2 3]).
  pose (s := match run [] h with Some s => s | None => [] end).
  assert (E : run [] h = Some s) by (vm_compute; reflexivity).
  pose proof (run_good _ _ _ good_init E) as G.
  assert (KD : forall k p, child_of s k p -> k = S p /\ p < 3).
  { intros k p C. pose proof C as C'. apply child_lt in C.
    destruct C' as (t & Et & U). change (length s) with 4 in C.
    destruct k as [|[|[|[|k]]]]; [..|lia]; vm_compute in Et; injection Et as <-; cbn in U;
      try discriminate; injection U as <-; split; lia. }
  assert (AN : forall k x, answers s k x -> x = nth k ["top"; "a1"; "b2"; "c3"] "").
  { intros k x A. apply answers_keys in A as (t & Et & X). pose proof (at_lt _ _ _ Et) as L.
    change (length s) with 4 in L.
    destruct k as [|[|[|[|k]]]]; [..|lia]; vm_compute in Et; injection Et as <-;
      destruct X as [<-|[]]; reflexivity. }
  assert (ST : forall c w x y, c <> "*"%char -> c <> "?"%char -> c <> "+"%char ->
     fills (String c "*") w x -> x = String c y -> w = [y]).
  { intros c w x y N1 N2 N3 F ->. inversion F; subst; try congruence.
    match goal with Z : fills "*" _ _ |- _ => inversion Z; subst; try congruence end.
    match goal with Z : fills "" _ _ |- _ => inversion Z; subst end.
    now rewrite app_nil_s. }
  exists s, ["1"; "3"; "2"]. split; [exists h; exact E|]. split; [vm_compute; reflexivity|].
  split; [reflexivity|]. intros ts F.
  inversion F as [| |i1 k1 p1 x1 n1 j1 w1 t1 A1 B1 C1 D1 E1 F1]; subst.
  inversion F1 as [| |i2 k2 p2 x2 n2 j2 w2 t2 A2 B2 C2 D2 E2 F2]; subst.
  inversion F2 as [| |i3 k3 p3 x3 n3 j3 w3 t3 A3 B3 C3 D3 E3 F3]; subst.
  inversion F3; subst.
  apply KD in B1 as [-> _], B2 as [-> _], B3 as [_ _].
  apply AN in C1, C2, C3. cbn in C1, C2, C3.
  assert (W1 : w1 = ["1"]) by (eapply ST; [| | |exact D1|exact C1]; easy).
  assert (W2 : w2 = ["2"]) by (eapply ST; [| | |exact D2|exact C2]; easy).
  assert (W3 : w3 = ["3"]) by (eapply ST; [| | |exact D3|exact C3]; easy).
  subst. reflexivity.
Qed.
Print Assumptions C72_texts_refuted.

(** Without parts that go up, no node is found twice. *)
Theorem C72_once : forall s all i pattern parts res, built s ->
  written pattern parts -> Forall (fun x => x <> "") parts ->
  find_children all s i pattern = Some res -> NoDup (map fst res).
Proof.
  intros s all i pattern parts res B W N E. apply built_good in B. apply written_names in W.
  unfold find_children in E. rewrite W in E. destruct (forallb plain parts) eqn:P; [|discriminate].
  injection E as <-. now apply find_nodup.
Qed.

Example C72_once_ex :
  built ex_tree /\ written "a*.b*" ["a*"; "b*"] /\
  option_map (map fst) (find_children false ex_tree 0 "a*.b*") = Some [2; 7] /\
  option_map (map fst) (find_children false ex_tree 1 "*..") = Some [1; 1].
Proof.
  split; [apply ex_built|]. split; [apply written_names; vm_compute; reflexivity|].
  split; vm_compute; reflexivity.
Qed.
Print Assumptions C72_once.

Lemma word_fills : forall x, all_word x = true -> fills x [] x.
Proof.
  induction x as [|c x IH]; intros H; [constructor|]. cbn in H. apply andb_true_iff in H as [H1 H2].
  apply fl_char; auto; intros ->; discriminate.
Qed.

Lemma word_plain : forall x, all_word x = true -> plain x = true.
Proof.
  intros x H. apply plain_regular. induction x as [|c x IH]; [exact Logic.I|].
  cbn in H. apply andb_true_iff in H as [H1 H2]. split; [|exact (IH H2)].
  intros Z. cbn [In] in Z.
  repeat (destruct Z as [Z|Z]; [rewrite <- Z in H1; vm_compute in H1; discriminate|]). destruct Z.
Qed.

Lemma uint_word : forall u, all_word (NilEmpty.string_of_uint u) = true.
Proof. induction u; cbn; auto. Qed.

Lemma dec_word : forall n, all_word (dec n) = true.
Proof.
  intros n. unfold dec, NilZero.string_of_uint. destruct (N.to_uint n) eqn:Q; auto;
    apply uint_word.
Qed.

Lemma word_app : forall a b, all_word (a ++ b) = all_word a && all_word b.
Proof. induction a as [|c a IH]; intros b; cbn; auto. now rewrite IH, andb_assoc. Qed.

Lemma answers_word : forall s k x, good s -> answers s k x -> all_word x = true.
Proof.
  intros s k x G (t & E & X). destruct (g_valid s G k t E) as (V1 & V2 & V3).
  assert (VN : forall y, valid_name y = true -> all_word y = true).
  { intros y V. unfold valid_name in V. now apply andb_true_iff in V as [_ V]. }
  destruct X as [[-> _]|[X|[_ ->]]]; auto.
  - rewrite Forall_forall in V3. apply VN. now apply V3.
  - rewrite word_app, dec_word, andb_true_r. unfold valid_group in V2.
    rewrite !andb_true_iff in V2. tauto.
Qed.

(** What getChild finds by a path, findChildren finds by the same text, if
    private nodes are not left out. *)
Theorem C72_path : forall s i path j, built s -> i < length s ->
  get_child true s i path = Some j ->
  exists res, find_children true s i path = Some res /\ In j (map fst res).
Proof.
  intros s i path j B0 L E. pose proof (built_good s B0) as G.
  assert (W : written path (names_of path)) by now apply written_names.
  apply (C71_path s true i path _ B0 L W) in E as [R _].
  assert (X : forall ns, route s i ns j -> Forall regular ns /\
     exists ts, finds s (fun a b => true = true \/ same_level s a b) i ns j ts).
  { clear - G. intros ns R. induction R as [i|i p ns j C R [IH1 [ts IH2]]|i k x ns j X M R [IH1 [ts IH2]]].
    - split; [constructor|]. exists []. constructor.
    - split; [constructor; [exact Logic.I|auto]|]. exists ts. apply f_up with p; auto.
    - destruct M as (a & b & K & A & _). pose proof (answers_word s k x G A) as Wd. split.
      + constructor; auto. apply plain_regular. now apply word_plain.
      + exists ([] :: ts). apply f_down with k x; auto.
        * apply kid_child; auto. rewrite K. apply in_elt.
        * now apply word_fills. }
  destruct (X _ R) as [Rg [ts F]].
  destruct (C72_found s true i path _ B0 W Rg) as (res & E & Q). exists res.
  split; [exact E|]. apply Q. eauto.
Qed.

Example C72_path_ex :
  built ex_tree /\ get_child true ex_tree 0 "p.q" = Some 5 /\
  find_children true ex_tree 0 "p.q" = Some [(5, [])] /\
  find_children false ex_tree 0 "p.q" = Some [].
Proof.
  split; [apply ex_built|]. repeat (split; [vm_compute; reflexivity|]). vm_compute. reflexivity.
Qed.
Print Assumptions C72_path.

(** The last example in the documentation of findChildren
    (sparta/simulation/TreeNode.hpp 1386-1417) finds nothing: two dots at the
    beginning go up twice. *)
Theorem C72_example_refuted :
  exists s ca g, built s /\ location s ca = Some "a.ca" /\ location s g = Some "a.dee.g" /\
    find_children false s ca "..dee.g" = Some [] /\
    find_children false s ca ".dee.g" = Some [(g, [])].
Proof.
  pose (h := [New "a" "" idx_none false true; plain_node "bee"; plain_node "ca"; plain_node "dee";
              plain_node "ee"; plain_node "be"; plain_node "g"; AddChild 0 1; AddChild 0 2;
              AddChild 0 3; AddChild 0 4; AddChild 0 5; AddChild 3 6]).
  pose (s := match run [] h with Some s => s | None => [] end).
  exists s, 2, 6. split; [exists h; vm_compute; reflexivity|].
  repeat (split; [vm_compute; reflexivity|]). vm_compute. reflexivity.
Qed.
Print Assumptions C72_example_refuted.

(** getDeepestMatchingPath does not give back the path of a node that
    exists: its name comes twice. *)
Theorem C72_deepest_refuted :
  exists s, built s /\ get_child false s 0 "a" = Some 1 /\
    deepest s 0 "a" = Some "a.a" /\ get_child true s 0 "a.a" = None.
Proof.
  pose (h := [New "top" "" idx_none false true; plain_node "a"; AddChild 0 1]).
  pose (s := match run [] h with Some s => s | None => [] end).
  exists s. split; [exists h; vm_compute; reflexivity|].
  repeat (split; [vm_compute; reflexivity|]). vm_compute. reflexivity.
Qed.
Print Assumptions C72_deepest_refuted.

(** ** C73: matching a location *)

(** For a pattern of parts that are not empty: a node matches from a starting
    point exactly if it lies below it, as many levels as the pattern has parts,
    and every node on the way has a name or an alias that its part accepts.
    Then findChildren finds it from there. *)
Theorem C73_matches : forall s i start parts, built s -> parts <> [] ->
  Forall (fun p => p <> "" /\ free_of "." p /\ regular p) parts ->
  location_matches s i (join parts) start <> Throws /\
  (location_matches s i (join parts) start = Yes <->
   exists d, below s start d i /\ Forall2 (called_like s) d parts) /\
  (location_matches s i (join parts) start = Yes ->
   exists res, find_children true s start (join parts) = Some res /\ In i (map fst res)).
Proof.
  intros s i start parts B0 N F. pose proof (built_good s B0) as G.
  assert (F1 : Forall (fun p => p <> "" /\ free_of "." p) parts)
    by (eapply Forall_impl; [|exact F]; cbn; tauto).
  assert (F2 : Forall regular parts) by (eapply Forall_impl; [|exact F]; cbn; tauto).
  assert (F3 : Forall (fun p => plain p = true) (rev parts)).
  { apply Forall_rev. eapply Forall_impl; [|exact F2]. cbn. intros p. apply plain_regular. }
  assert (F4 : Forall (fun p => p <> "") (rev parts))
    by (apply Forall_rev; eapply Forall_impl; [|exact F1]; cbn; tauto).
  assert (J : join parts <> "") by now apply join_nonempty.
  unfold location_matches. apply String.eqb_neq in J. rewrite J, prev_join by assumption.
  destruct (lmp_spec s (rev parts) start i G F3 F4) as [L1 L2].
  { intros Z. apply N. rewrite <- (rev_involutive parts), Z. reflexivity. }
  assert (Q : lmp s start i (rev parts) = Yes <->
     exists d, below s start d i /\ Forall2 (called_like s) d parts).
  { rewrite L1. assert (RV : forall A B (R : A -> B -> Prop) l m, Forall2 R l m -> Forall2 R (rev l) (rev m)).
    { clear. intros A B R l m H. induction H; cbn; [constructor|]. apply Forall2_app; auto. }
    split; intros (d & B & X); exists d; (split; [exact B|]).
    - rewrite <- (rev_involutive d), <- (rev_involutive parts). now apply RV.
    - now apply RV. }
  split; [exact L2|]. split; [exact Q|]. intros Y. apply Q in Y as (d & B & X).
  assert (F5 : Forall (fun p => p <> "") parts)
    by (eapply Forall_impl; [|exact F1]; cbn; tauto).
  destruct (called_like_finds s d parts start i B X F5) as [ts T].
  assert (W : written (join parts) parts) by now apply join_written.
  destruct (C72_found s true start _ _ B0 W F2) as (res & E & Z). exists res.
  split; [exact E|]. apply Z. eauto.
Qed.

Example C73_matches_ex :
  built ex_tree /\ join ["a?"; "b+"] = "a?.b+" /\
  location_matches ex_tree 2 "a?.b+" 0 = Yes /\ location_matches ex_tree 2 "b?" 0 = Not /\
  location_matches ex_tree 2 "b?" 1 = Yes /\ location_matches ex_tree 4 "a?.b+" 0 = Not.
Proof.
  split; [apply ex_built|]. repeat (split; [vm_compute; reflexivity|]). vm_compute. reflexivity.
Qed.
Print Assumptions C73_matches.

(** It is not the inverse of findChildren: a node known only by its group is
    found but does not match, and a pattern that ends with a dot finds a node
    but asking whether that node matches throws. *)
Theorem C73_inverse_refuted :
  (exists s, built s /\ find_children false s 0 "core0" = Some [(1, [])] /\
     location_matches s 1 "core0" 0 = Not) /\
  (exists s, built s /\ find_children false s 0 "a." = Some [(1, [])] /\
     location_matches s 1 "a." 0 = Throws).
Proof.
  split.
  - pose (h := [New "top" "" idx_none false true; New "" "core" 0 true false; AddChild 0 1]).
    pose (s := match run [] h with Some s => s | None => [] end).
    exists s. split; [exists h; vm_compute; reflexivity|]. split; vm_compute; reflexivity.
  - pose (h := [New "top" "" idx_none false true; plain_node "a"; AddChild 0 1]).
    pose (s := match run [] h with Some s => s | None => [] end).
    exists s. split; [exists h; vm_compute; reflexivity|]. split; vm_compute; reflexivity.
Qed.
Print Assumptions C73_inverse_refuted.

(** A pattern that begins with a dot, to go up, is not refused as the
    documentation says; the dot is passed over. *)
Theorem C73_up_refuted :
  exists s, built s /\ find_children false s 0 ".a" = Some [] /\
    location_matches s 1 ".a" 0 = Yes /\ location_matches s 1 "..a" 0 = Throws.
Proof.
  pose (h := [New "top" "" idx_none false true; plain_node "a"; AddChild 0 1]).
  pose (s := match run [] h with Some s => s | None => [] end).
  exists s. split; [exists h; vm_compute; reflexivity|].
  repeat (split; [vm_compute; reflexivity|]). vm_compute. reflexivity.
Qed.
Print Assumptions C73_up_refuted.

(** ** C74: building *)

(** addChild succeeds exactly if the new child is no root and has no parent,
    the parent is not the child itself or below it, none of the children it has
    answers to the name or an alias of the new one, and none of the same group
    has its index, both indexable. *)
Theorem C74_add : forall s p c, built s ->
  (exists s', step s (AddChild p c) = Fine s') <-> may_add s p c.
Proof. intros s p c B. apply add_iff. now apply built_good. Qed.

Example C74_add_ex :
  built ex_tree /\ (exists s', step ex_tree (AddChild 4 8) = Fine s') /\
  step ex_tree (AddChild 4 1) = No /\ step ex_tree (AddChild 8 0) = No /\
  step ex_tree (AddChild 8 8) = No.
Proof.
  split; [apply ex_built|]. split.
  - exists (match step ex_tree (AddChild 4 8) with Fine s => s | _ => [] end).
    vm_compute. reflexivity.
  - repeat (split; [vm_compute; reflexivity|]). vm_compute. reflexivity.
Qed.
Print Assumptions C74_add.

(** Then the child comes last among the children of the parent, and no other
    family tie and no name changes. *)
Theorem C74_added : forall s p c s', built s -> step s (AddChild p c) = Fine s' ->
  length s' = length s /\
  (forall q, kids s' q = if q =? p then (kids s q ++ [c])%list else kids s q) /\
  (forall k q, child_of s' k q <-> child_of s k q \/ k = c /\ q = p) /\
  (forall k x, answers s' k x <-> answers s k x).
Proof. intros s p c s' B E. apply add_effect; auto. now apply built_good. Qed.

Example C74_added_ex :
  built ex_tree /\
  let s' := match step ex_tree (AddChild 1 8) with Fine s => s | _ => [] end in
  step ex_tree (AddChild 1 8) = Fine s' /\ kids ex_tree 1 = [2; 7] /\ kids s' 1 = [2; 7; 8].
Proof.
  split; [apply ex_built|]. cbv zeta. repeat (split; [vm_compute; reflexivity|]).
  vm_compute. reflexivity.
Qed.
Print Assumptions C74_added.

(** Every node has one way to the top: the root, the level and the relation
    to the nodes above it are those of this way; and a parent and its children
    agree on each other. *)
Theorem C74_tree : forall s, built s ->
  (forall i, i < length s -> exists r d t, below s r d i /\ nth_error s r = Some t /\
     t_up t = None /\ root s i = Some r /\ level s i = Some (length d)) /\
  (forall i a depth, i < length s -> exists b, descendant s i a depth = Some b /\
     (b = true <-> exists d, below s a d i /\
        match depth with Some n => length d <= n | None => True end)) /\
  (forall a d d' i, a < length s -> below s a d i -> below s a d' i -> d = d') /\
  (forall k p, In k (kids s p) <-> child_of s k p) /\ (forall p, NoDup (kids s p)).
Proof.
  intros s B. apply built_good in B. split; [|split; [|split; [|split]]].
  - intros i L. now apply level_spec.
  - intros i a depth L. now apply descendant_spec.
  - intros a d d' i L B1 B2. eapply below_len; eauto.
  - intros k p. now apply kid_child.
  - intros p. unfold kids. destruct (nth_error s p) as [t|] eqn:E; [|constructor].
    apply (g_nodup s B p t E).
Qed.

Example C74_tree_ex :
  built ex_tree /\ root ex_tree 4 = Some 0 /\ level ex_tree 4 = Some 3 /\
  descendant ex_tree 4 1 None = Some true /\ descendant ex_tree 4 1 (Some 1) = Some false /\
  descendant ex_tree 4 1 (Some 2) = Some true /\ descendant ex_tree 4 7 None = Some false.
Proof.
  split; [apply ex_built|]. repeat (split; [vm_compute; reflexivity|]). vm_compute. reflexivity.
Qed.
Print Assumptions C74_tree.

(** Groups: the nodes of a group below a node are its children of that group
    with its privacy level; indexable ones have different indices; and the
    greatest index is what getGroupIndexMax gives. *)
Theorem C74_groups : forall s i g, built s -> g <> "" -> g <> builtin ->
  (forall k, In k (in_group s i g) <-> exists t, child_of s k i /\
     nth_error s k = Some t /\ t_group t = g /\ same_level s i k) /\
  (forall k k' t t', In k (in_group s i g) -> In k' (in_group s i g) ->
     nth_error s k = Some t -> nth_error s k' = Some t' -> t_ix t = true -> t_ix t' = true ->
     t_idx t = t_idx t' -> k = k') /\
  ((in_group s i g = [] /\ group_max s i g = idx_none) \/
   ((exists k t, In k (in_group s i g) /\ nth_error s k = Some t /\ t_idx t = group_max s i g) /\
    (forall k t, In k (in_group s i g) -> nth_error s k = Some t -> (t_idx t <= group_max s i g)%N) /\
    group_max s i g <> idx_none)).
Proof.
  intros s i g B NG NB. apply built_good in B. split; [|split].
  - intros k. now apply group_members.
  - intros k k' t t' I1 I2 E E' X X' Q. destruct (Nat.eq_dec k k') as [|NE]; auto. exfalso.
    apply group_members in I1 as (u & C & Eu & Gu & _); auto.
    apply group_members in I2 as (u' & C' & Eu' & Gu' & _); auto.
    assert (u = t) by congruence. assert (u' = t') by congruence. subst u u'.
    apply kid_child in C, C'; auto. unfold kids in C, C'.
    destruct (nth_error s i) as [ti|] eqn:Ei; [|easy].
    assert (Z : t_idx t = idx_none) by (apply (g_clash s B i ti k k' t t'); auto; congruence).
    destruct (g_valid s B k t E) as (_ & V & _). unfold valid_group in V.
    rewrite Gu in V. apply andb_true_iff in V as [_ V].
    apply String.eqb_neq in NG, NB. rewrite NG, NB, Z in V. cbn in V. discriminate.
  - now apply group_max_spec.
Qed.

Example C74_groups_ex :
  built ex_tree /\ in_group ex_tree 1 "b" = [2; 7] /\ group_max ex_tree 1 "b" = 2%N /\
  in_group ex_tree 0 "b" = [] /\
  step ex_tree (AddChild 1 8) <> No /\
  run ex_tree [New "b3" "b" 2 true false; AddChild 1 9] =
    run ex_tree [New "b3" "b" 2 true false].
Proof.
  split; [apply ex_built|]. repeat (split; [vm_compute; reflexivity|]).
  split; [vm_compute; discriminate|]. vm_compute. reflexivity.
Qed.
Print Assumptions C74_groups.

(** Adding a node that has a parent already is a critical error, but then the
    node is a child of both and keeps the first as its parent. *)
Theorem C74_two_parents_refuted :
  exists s s', built s /\ step s (AddChild 1 2) = Broken s' /\
    In 2 (kids s' 0) /\ In 2 (kids s' 1) /\ parent s' 2 = Some 0.
Proof.
  pose (h := [New "top" "" idx_none false true; plain_node "a"; plain_node "b";
              AddChild 0 1; AddChild 0 2]).
  pose (s := match run [] h with Some s => s | None => [] end).
  exists s, (match step s (AddChild 1 2) with Broken s' => s' | _ => [] end).
  split; [exists h; vm_compute; reflexivity|]. split; [vm_compute; reflexivity|].
  split; [vm_compute; auto|]. split; [vm_compute; auto|]. vm_compute. reflexivity.
Qed.
Print Assumptions C74_two_parents_refuted.

(** Two underscores one after the other. *)
Definition two_underscores (x : string) : Prop := exists a b, x = a ++ "__" ++ b.

(** What the check of names does guarantee: letters, digits and underscores
    only, no digit first, no reserved word, not two underscores first. *)
Theorem C74_names : forall s k t, built s -> nth_error s k = Some t ->
  Forall (fun x => every (fun c => wordc c = true) x /\ ~ In x reserved /\
            (forall c r, x = String c r -> digitc c = false) /\
            (forall r, x <> "__" ++ r))
    (t_name t :: t_alias t) /\
  (forall i, child_of s k i -> forall k' t', child_of s k' i -> nth_error s k' = Some t' ->
     k <> k' -> t_name t <> "" -> t_name t <> t_name t').
Proof.
  intros s k t B E. pose proof (built_good s B) as G.
  assert (V : forall x, valid_name x = true ->
     every (fun c => wordc c = true) x /\ ~ In x reserved /\
     (forall c r, x = String c r -> digitc c = false) /\ (forall r, x <> "__" ++ r)).
  { intros x V. unfold valid_name in V. rewrite !andb_true_iff, !negb_true_iff in V.
    destruct V as (((V1 & V2) & V3) & V4). split; [|split; [|split]].
    - clear - V4. induction x as [|c x IH]; [exact Logic.I|]. cbn in V4.
      apply andb_true_iff in V4 as [A B]. split; auto.
    - intros Z. assert (existsb (String.eqb x) reserved = true); [|congruence].
      apply existsb_exists. exists x. split; auto. apply String.eqb_refl.
    - intros c r ->. exact V3.
    - intros r ->. cbn in V2. discriminate. }
  destruct (g_valid s G k t E) as (V1 & _ & V3). split.
  - constructor; [now apply V|]. eapply Forall_impl; [|exact V3]. intros a [A _]. now apply V.
  - intros i C k' t' C' E' NE N Q.
    pose proof (own_meant s i k t (t_name t) G C E (or_introl eq_refl) N) as M1.
    assert (N' : t_name t' <> "") by congruence.
    pose proof (own_meant s i k' t' (t_name t') G C' E' (or_introl eq_refl) N') as M2.
    rewrite <- Q in M2. apply called_meant in M1, M2; auto. congruence.
Qed.

Example C74_names_ex :
  built ex_tree /\ option_map t_name (nth_error ex_tree 2) = Some "b1" /\
  step ex_tree (plain_node "1b") = No /\ step ex_tree (plain_node "a b") = No /\
  step ex_tree (plain_node "class") = No /\ step ex_tree (plain_node "__a") = No.
Proof.
  split; [apply ex_built|]. repeat (split; [vm_compute; reflexivity|]). vm_compute. reflexivity.
Qed.
Print Assumptions C74_names.

(** Two underscores one after the other are documented as forbidden
    (sparta/simulation/TreeNode.hpp 894-900) but accepted in the middle and,
    because of a wrong offset, at the end of a name; and with one character
    behind them they are refused. *)
Theorem C74_underscores_refuted :
  exists s, built s /\ map t_name s = ["ab__cd"; "a__"] /\
    Forall (fun t => two_underscores (t_name t)) s /\ step s (plain_node "a__b") = No.
Proof.
  pose (h := [plain_node "ab__cd"; plain_node "a__"; plain_node "a__b"]).
  pose (s := match run [] h with Some s => s | None => [] end).
  exists s. split; [exists h; vm_compute; reflexivity|]. split; [vm_compute; reflexivity|].
  split; [|vm_compute; reflexivity].
  assert (Q : s = [mkT "ab__cd" "" idx_none false false [] 0 None [] [];
                   mkT "a__" "" idx_none false false [] 0 None [] []]) by (vm_compute; reflexivity).
  rewrite Q. constructor; [exists "ab", "cd"; reflexivity|].
  constructor; [exists "a", ""; reflexivity|constructor].
Qed.
Print Assumptions C74_underscores_refuted.
