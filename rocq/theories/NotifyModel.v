(** Notifications: observers register on a node of the device tree, sources
    below that node post, and the observers are called.

    Sources (paths below /repo/sparta):
    - sparta/log/NotificationSource.hpp ("ns")
    - sparta/simulation/TreeNode.hpp ("tn")
    - src/TreeNode.cpp ("tc")
    - sparta/simulation/VirtualGlobalTreeNode.hpp ("vg")

    Simplifications, for the whole file:
    - nodes are known by numbers instead of addresses, and 0 is the virtual
      global node; the number of a new node is chosen by the caller and is
      refused if in use;
    - the tree stays in its building phase, no node is destroyed or moved, and
      checks of node names, groups and notification names succeed;
    - data types are numbers; ANY_TYPE is not among them (tn 3812 rules it out
      for registration);
    - an observer is a number standing for the pair of object and method;
    - observers and callbacks do not call back into the tree: registering or
      deregistering from within an observer changes the vector being iterated
      over (ns 970-972) and is not modelled;
    - MirrorNotificationSource is left out. *)
From Coq Require Import NArith Bool String Ascii Arith List Lia.
Import ListNotations.
Open Scope string_scope.
Open Scope nat_scope.

(** ** Lists of names *)

(** The characters that separate names, " \t," (tc 2594, 2605). *)
Definition sepc (c : ascii) : bool :=
  Ascii.eqb c " " || Ascii.eqb c (ascii_of_nat 9) || Ascii.eqb c ",".

(** The characters that may stand between a name and its comma, " \t"
    (tc 2617). *)
Definition blankc (c : ascii) : bool :=
  Ascii.eqb c " " || Ascii.eqb c (ascii_of_nat 9).

(** find_first_not_of and find_first_of (tc 2594, 2605, 2617): the characters
    before the position found, and those from there on (none for npos). *)
Fixpoint cut (f : ascii -> bool) (s : string) : string * string :=
  match s with
  | EmptyString => (EmptyString, EmptyString)
  | String c r =>
      if f c then let (a, b) := cut f r in (String c a, b) else (EmptyString, s)
  end.

(** TreeNode::parseNotificationNameString (tc 2589-2628); [None] is the
    exception of 2619. Every round consumes a character, so the length of the
    text is fuel enough; the result without fuel is never used. *)
Fixpoint parse_names (fuel : nat) (s : string) : option (list string) :=
  match fuel with
  | O => None
  | S fuel' =>
      match snd (cut sepc s) with
      | EmptyString => Some [EmptyString]
      | t =>
          let (name, rest) := cut (fun c => negb (sepc c)) t in
          match snd (cut blankc rest) with
          | EmptyString => Some [name]
          | String c r =>
              if Ascii.eqb c "," then
                option_map (cons name) (parse_names fuel' (String c r))
              else None
          end
      end
  end.

(** The call with fuel for the whole text (tc 2589). *)
Definition names_in (s : string) : option (list string) :=
  parse_names (S (String.length s)) s.

(** ** Observers and sources *)

(** TreeNode::delegate (tn 2964-3130), together with the data type under which
    it is kept: [object_ptr] and [stub_ptr] are one number, the method stub
    being particular to the data type. *)
Record reg := mkReg {
  r_at : nat;         (* obs_point *)
  r_type : nat;
  r_obj : nat;        (* object_ptr, stub_ptr *)
  r_name : string     (* name_ptr *)
}.

(** delegate::operator== (tn 3051-3056) and delegate::equals (tn 3019-3041). *)
Definition reg_eqb (a b : reg) : bool :=
  (r_type a =? r_type b) && (r_obj a =? r_obj b) && (r_at a =? r_at b)
  && String.eqb (r_name a) (r_name b).

(** ObservationStateChange (ns 99-104). *)
Inductive change := SoleReg | SoleDereg | AnyReg | AnyDereg.

(** Equality of kinds of change: cb->getType() == to_call (ns 695). *)
Definition change_eqb (a b : change) : bool :=
  match a, b with
  | SoleReg, SoleReg | SoleDereg, SoleDereg | AnyReg, AnyReg
  | AnyDereg, AnyDereg => true
  | _, _ => false
  end.

(** The members of NotificationSourceBase (ns 466-491, 716). *)
Record src := mkSrc {
  s_type : nat;                    (* noti_tinfo_ *)
  s_name : string;                 (* noti_id_ *)
  s_dels : list reg;               (* dels_ *)
  s_pts : list nat;                (* obs_nodes_ *)
  s_seen : bool;                   (* observed_ *)
  s_posts : N;                     (* num_posts_ *)
  s_cbs : list (change * nat)      (* obs_state_change_cbs_ *)
}.

(** A node of the tree: its number, whether its privacy level differs from its
    parent's (tc 736-751), the observers registered on it in order
    ([obs_local_], tn 4647, all types in one list: only the order within a
    type is ever looked at), its own notification source if it is one, and its
    children ([children_]). *)
Inductive node :=
  Nd (id : nat) (priv : bool) (obs : list reg) (s : option src)
     (kids : list node).

(** The number of a node. *)
Definition n_id (n : node) : nat := let 'Nd i _ _ _ _ := n in i.
(** Is the node private below its parent (tc 742-747). *)
Definition n_priv (n : node) : bool := let 'Nd _ p _ _ _ := n in p.
(** The observers registered on the node (tn 4647). *)
Definition n_obs (n : node) : list reg := let 'Nd _ _ o _ _ := n in o.
(** The notification source the node is, if any. *)
Definition n_src (n : node) : option src := let 'Nd _ _ _ s _ := n in s.
(** The children of a node, public and private (tn 4443-4446). *)
Definition n_kids (n : node) : list node := let 'Nd _ _ _ _ k := n in k.

(** What the outside sees: a call of an observer (tn 3121-3125: observer,
    origin, observation point, data), or a call of an observation state
    callback (ns 693-698: callback, source, kind, number of observers). *)
Inductive event :=
| Deliver (obj origin at_ : nat) (data : N)
| StateCb (cb s : nat) (c : change) (count : nat).

(** Everything: the observers on the virtual global node and its own children,
    the trees that have no parent, and the keys of [parentless_map_]
    (tn 4713), oldest first (the source goes through them by address; only the
    order of state callbacks of different sources depends on it). *)
Record forest := mkForest {
  f_obs : list reg;
  f_kids : list node;
  f_roots : list node;
  f_tracked : list nat
}.

Section Names.

(** matchesGlobLike (tc 1530-1535): does a pattern match a name. Everything
    below holds for any such function; ParamTreeModel.matches models it. *)
Variable glob : string -> string -> bool.

(** TreeNode::notificationCategoryMatch (tc 2669-2686); interned strings are
    the same pointer exactly if they are equal. *)
Definition cat_match (query name : string) : bool :=
  String.eqb query "" || String.eqb query name || glob query name.

(** NotificationSourceBase::canGenerateNotification_ (ns 569-582). *)
Definition can_gen (ty : nat) (query : string) (s : src) : bool :=
  (s_type s =? ty) && cat_match query (s_name s).

(** delegate::observes (tn 3076-3080) among the delegates of one data type
    (tc 2633-2636, 2653-2656). *)
Definition observes (at_ ty : nat) (name : string) (d : reg) : bool :=
  (r_type d =? ty) && (r_at d =? at_) && cat_match (r_name d) name.

(** TreeNode::getDelegatesRegisteredForNotification (tc 2650-2667). *)
Definition delegates_for (ty : nat) (name : string) (n : nat * list reg)
  : list reg :=
  filter (observes (fst n) ty name) (snd n).

(** TreeNode::hasObserversRegisteredForNotification (tc 2630-2648). *)
Definition has_observers (ty : nat) (name : string) (n : nat * list reg)
  : bool :=
  existsb (observes (fst n) ty name) (snd n).

(** NotificationSourceBase::determineObs_Nodes_ (ns 611-638): [chain] is the
    node, its parent and so on up to the root, each with its observers, and
    [g] the observers on the virtual global node. *)
Definition determine (chain : list (nat * list reg)) (g : list reg) (s : src)
  : src :=
  let all := (chain ++ [(0, g)])%list in
  let dels := flat_map (delegates_for (s_type s) (s_name s)) all in
  mkSrc (s_type s) (s_name s) dels
        (map fst (filter (has_observers (s_type s) (s_name s)) all))
        (negb (length dels =? 0)) (s_posts s) (s_cbs s).

(** TreeNode::informAddedChildSubtree_ (tc 1634-1648) with
    NotificationSourceBase::onAddedAsChild_ (ns 597-599): [up] is the parent,
    its parent and so on. The calls to getParent of determineObs_Nodes_ are
    replaced by what the recursion has passed on the way down. *)
Fixpoint inform (up : list (nat * list reg)) (g : list reg) (n : node)
  : node :=
  let 'Nd i p o s ks := n in
  Nd i p o (option_map (determine ((i, o) :: up) g) s)
     (map (inform ((i, o) :: up) g) ks).

(** NotificationSourceBase::invokeObservationStateChangeCallbacks_
    (ns 683-706). *)
Definition invoke (i : nat) (s : src) (c : change) : list event :=
  map (fun cb => StateCb (snd cb) i c (length (s_dels s)))
      (filter (fun cb => change_eqb (fst cb) c) (s_cbs s)).

(** NotificationSourceBase::notificationObserverAdded_ (ns 495-521) of source
    [i]; its two assertions hold whenever it is called (tc 2434-2438). *)
Definition added (r : reg) (i : nat) (s : src) : src * list event :=
  let pts := if existsb (Nat.eqb (r_at r)) (s_pts s) then s_pts s
             else (s_pts s ++ [r_at r])%list in
  let s' := mkSrc (s_type s) (s_name s) (s_dels s ++ [r]) pts true
                  (s_posts s) (s_cbs s) in
  (s', ((if s_seen s then [] else invoke i s' SoleReg)
        ++ invoke i s' AnyReg)%list).

(** std::find and erase (ns 537-540, 554-557): the first equal one goes. *)
Fixpoint erase {A} (f : A -> bool) (l : list A) : list A :=
  match l with
  | [] => []
  | x :: r => if f x then r else x :: erase f r
  end.

(** NotificationSourceBase::notificationObserverRemoved_ (ns 525-565). *)
Definition removed (r : reg) (i : nat) (s : src) : src * list event :=
  let dels := erase (reg_eqb r) (s_dels s) in
  let seen := negb (length dels =? 0) in
  let pts := if existsb (fun d => r_at d =? r_at r) dels then s_pts s
             else erase (Nat.eqb (r_at r)) (s_pts s) in
  let s' := mkSrc (s_type s) (s_name s) dels pts seen (s_posts s) (s_cbs s) in
  (s', (invoke i s' AnyDereg
        ++ (if s_seen s && negb seen then invoke i s' SoleDereg else []))%list).

(** TreeNode::broadcastRegistrationForNotificationToChildren_ (tc 2430-2452)
    and its opposite (tc 2454-2476), which differ only in the function [f]
    called on a source that can generate one of the names. Private children
    are passed by (tc 2444, 2468; [allow_private] is false in every call,
    tn 3876-3905). *)
Fixpoint broadcast (ty : nat) (names : list string)
  (f : nat -> src -> src * list event) (n : node) : node * list event :=
  let 'Nd i p o s ks := n in
  let '(s', e) :=
    match s with
    | Some x => if existsb (fun q => can_gen ty q x) names
                then let (y, e) := f i x in (Some y, e)
                else (Some x, [])
    | None => (None, [])
    end in
  let rs := map (fun k => if n_priv k then (k, [])
                          else broadcast ty names f k) ks in
  (Nd i p o s' (map fst rs), (e ++ List.concat (map snd rs))%list).

(** TreeNode::canSubtreeGenerateNotifications (tc 2572-2587) with the one name
    that canSubtreeGenerateNotification passes (tc 2559-2570). *)
Fixpoint can_subtree (ty : nat) (query : string) (n : node) : bool :=
  let 'Nd _ _ _ s ks := n in
  match s with Some x => can_gen ty query x | None => false end
  || existsb (fun k => negb (n_priv k) && can_subtree ty query k) ks.

(** ** Finding nodes *)

(** The node with a number, in a tree: what a pointer to it gives. *)
Fixpoint find_node (i : nat) (n : node) : option node :=
  let 'Nd j _ _ _ ks := n in
  if i =? j then Some n
  else fold_right (fun k r => match find_node i k with
                              | Some x => Some x
                              | None => r
                              end) None ks.

(** The same in a list of trees. *)
Fixpoint find_in (i : nat) (l : list node) : option node :=
  match l with
  | [] => None
  | n :: r => match find_node i n with Some x => Some x | None => find_in i r end
  end.

(** A node and its ancestors, the node first, each with its observers:
    getParent taken again and again (ns 617-623). *)
Fixpoint chain_node (i : nat) (n : node) : option (list (nat * list reg)) :=
  let 'Nd j _ o _ ks := n in
  if i =? j then Some [(j, o)]
  else match fold_right (fun k r => match chain_node i k with
                                    | Some x => Some x
                                    | None => r
                                    end) None ks with
       | Some c => Some (c ++ [(j, o)])%list
       | None => None
       end.

(** The same in a list of trees. *)
Fixpoint chain_in (i : nat) (l : list node) : option (list (nat * list reg)) :=
  match l with
  | [] => None
  | n :: r => match chain_node i n with Some x => Some x | None => chain_in i r end
  end.

(** Changing the node with a number in place, wherever it is in a tree, with
    the events of the change. *)
Fixpoint change_node (i : nat) (g : node -> node * list event) (n : node)
  : node * list event :=
  let 'Nd j p o s ks := n in
  if i =? j then g n
  else let rs := map (change_node i g) ks in
       (Nd j p o s (map fst rs), List.concat (map snd rs)).

(** The same in a list of trees. *)
Definition change_in (i : nat) (g : node -> node * list event) (l : list node)
  : list node * list event :=
  let rs := map (change_node i g) l in (map fst rs, List.concat (map snd rs)).

(** The same among all nodes but the virtual global one. *)
Definition change_all (i : nat) (g : node -> node * list event) (f : forest)
  : forest * list event :=
  let (ks, e1) := change_in i g (f_kids f) in
  let (rs, e2) := change_in i g (f_roots f) in
  (mkForest (f_obs f) ks rs (f_tracked f), (e1 ++ e2)%list).

(** All trees: those below the virtual global node and those without parent. *)
Definition all_trees (f : forest) : list node := (f_kids f ++ f_roots f)%list.

(** The node with a number, other than the virtual global one. *)
Definition find_all (i : nat) (f : forest) : option node :=
  find_in i (all_trees f).

(** A node and its ancestors; the virtual global node is the parent of its own
    children (tc 1696-1698) and has no parent. *)
Definition chain_all (i : nat) (f : forest) : option (list (nat * list reg)) :=
  if i =? 0 then Some [(0, f_obs f)]
  else match chain_in i (f_kids f) with
       | Some c => Some (c ++ [(0, f_obs f)])%list
       | None => chain_in i (f_roots f)
       end.

(** ** Operations *)

(** What users do: construct a node without parent, private or not
    (tc 240-267, tn 2203-2206); construct a node giving its parent
    (tc 89-152); construct a source (ns 269-302); addChild (tc 1380-1391);
    install an observation state callback (ns 169-178); register and
    deregister an observer (tn 3874-3906); post (ns 954-973). *)
Inductive op :=
| NewNode (i : nat) (priv : bool)
| NewChild (i parent : nat)
| NewSource (i parent ty : nat) (name : string)
| Attach (i parent : nat)
| AddCb (i : nat) (c : change) (cb : nat)
| Reg (r : reg) (ensure : bool)
| Dereg (r : reg)
| Post (i : nat) (data : N).

(** Adding a child at the end of [children_] (tc 1808). *)
Definition add_kid (k n : node) : node * list event :=
  let 'Nd i p o s ks := n in (Nd i p o s (ks ++ [k]), []).

(** TreeNode::addChild_ (tc 1711-1826) for a new child [k] of node [parent],
    with setParent_ (tc 1677-1709): the child is told of its ancestors and
    leaves [parentless_map_]. *)
Definition add_child (k : node) (parent : nat) (f : forest) : option forest :=
  match chain_all parent f with
  | None => None
  | Some up =>
      let k' := inform up (f_obs f) k in
      let tr := filter (fun j => negb (j =? n_id k)) (f_tracked f) in
      if parent =? 0 then
        Some (mkForest (f_obs f) (f_kids f ++ [k']) (f_roots f) tr)
      else
        let f' := fst (change_all parent (add_kid k') f) in
        Some (mkForest (f_obs f') (f_kids f') (f_roots f') tr)
  end.

(** Is a number in use. *)
Definition known (i : nat) (f : forest) : bool :=
  (i =? 0) || match find_all i f with Some _ => true | None => false end.

(** Changing the source that node [i] is (no effect on other nodes). *)
Definition change_src (g : src -> src) (n : node) : node * list event :=
  let 'Nd i p o s ks := n in (Nd i p o (option_map g s) ks, []).

(** Changing the observers registered on a node. *)
Definition change_obs (g : list reg -> list reg) (n : node)
  : node * list event :=
  let 'Nd i p o s ks := n in (Nd i p (g o) s ks, []).

(** Broadcast starting at a node (tn 3417-3442): the virtual global node
    passes it to every node in [parentless_map_] and not to its own children
    (vg 193-207, 209-223); any other node treats itself and its subtree. *)
Definition broadcast_at (i ty : nat) (names : list string)
  (g : nat -> src -> src * list event) (f : forest) : forest * list event :=
  if i =? 0 then
    fold_left (fun acc j =>
                 let (f', e) := change_all j (broadcast ty names g) (fst acc) in
                 (f', (snd acc ++ e)%list))
              (f_tracked f) (f, [])
  else change_all i (broadcast ty names g) f.

(** The observers on a node: [obs_local_]. *)
Definition obs_at (i : nat) (f : forest) : option (list reg) :=
  if i =? 0 then Some (f_obs f) else option_map n_obs (find_all i f).

(** Changing the observers on a node, the virtual global one included. *)
Definition set_obs (i : nat) (g : list reg -> list reg) (f : forest) : forest :=
  if i =? 0 then mkForest (g (f_obs f)) (f_kids f) (f_roots f) (f_tracked f)
  else fst (change_all i (change_obs g) f).

(** canSubtreeGenerateNotification called on a node; the virtual global node
    cannot generate anything itself (vg 225-231) and has its own children as
    children (tc 736-751). *)
Definition can_subtree_at (i ty : nat) (query : string) (f : forest) : bool :=
  if i =? 0 then
    existsb (fun k => negb (n_priv k) && can_subtree ty query k) (f_kids f)
  else match find_all i f with
       | Some n => can_subtree ty query n
       | None => false
       end.

(** TreeNode::registerForNotification_ (tn 4321-4349, 4352-4380). The observer
    is kept even if the list of names is then refused. *)
Definition register (r : reg) (ensure : bool) (f : forest)
  : forest * bool * list event :=
  match obs_at (r_at r) f with
  | None => (f, false, [])
  | Some o =>
      if ensure && negb (can_subtree_at (r_at r) (r_type r) (r_name r) f) then
        (f, false, [])
      else if existsb (reg_eqb r) o then (f, false, [])
      else
        let f1 := set_obs (r_at r) (fun o => (o ++ [r])%list) f in
        match names_in (r_name r) with
        | None => (f1, false, [])
        | Some names =>
            let (f2, e) :=
              broadcast_at (r_at r) (r_type r) names (added r) f1 in
            (f2, true, e)
        end
  end.

(** TreeNode::deregisterForNotification_ (tn 4386-4411, 4413-4438). *)
Definition deregister (r : reg) (f : forest) : forest * bool * list event :=
  match obs_at (r_at r) f with
  | None => (f, false, [])
  | Some o =>
      if negb (existsb (reg_eqb r) o) then (f, false, [])
      else
        match names_in (r_name r) with
        | None => (f, false, [])
        | Some names =>
            let (f2, e) :=
              broadcast_at (r_at r) (r_type r) names (removed r) f in
            (set_obs (r_at r) (erase (reg_eqb r)) f2, true, e)
        end
  end.

(** NotificationSource::postNotification (ns 954-973): counting, and calling
    every delegate in order. *)
Definition post (i : nat) (data : N) (f : forest) : forest * bool * list event :=
  match find_all i f with
  | Some (Nd _ _ _ (Some s) _) =>
      let bump s := mkSrc (s_type s) (s_name s) (s_dels s) (s_pts s) (s_seen s)
                          ((s_posts s + 1) mod 2 ^ 64)%N (s_cbs s) in
      (fst (change_all i (change_src bump) f), true,
       map (fun d => Deliver (r_obj d) i (r_at d) data) (s_dels s))
  | _ => (f, false, [])
  end.

(** One operation: the new state, whether it went through (an exception, a
    failed assertion or a number that means nothing gives [false]), and the
    calls made. *)
Definition step (f : forest) (o : op) : forest * bool * list event :=
  match o with
  | NewNode i priv =>
      (* tracked as parentless (tc 149-151) *)
      if known i f then (f, false, [])
      else (mkForest (f_obs f) (f_kids f) (f_roots f ++ [Nd i priv [] None []])
                     (f_tracked f ++ [i]), true, [])
  | NewChild i parent =>
      (* added to the parent (tc 131-133), then tracked (tc 149-151) *)
      if known i f then (f, false, [])
      else match add_child (Nd i false [] None []) parent f with
           | Some f' => (mkForest (f_obs f') (f_kids f') (f_roots f')
                                  (f_tracked f' ++ [i]), true, [])
           | None => (f, false, [])
           end
  | NewSource i parent ty name =>
      (* constructed without parent, then added (ns 276, 299-301) *)
      if known i f then (f, false, [])
      else match add_child (Nd i false []
                              (Some (mkSrc ty name [] [] false 0%N [])) [])
                   parent f with
           | Some f' => (f', true, [])
           | None => (f, false, [])
           end
  | Attach i parent =>
      (* only a node without parent (tc 1678-1681), not below itself
         (tc 1724-1747) *)
      match find (fun n => n_id n =? i) (f_roots f) with
      | None => (f, false, [])
      | Some k =>
          match find_node parent k with
          | Some _ => (f, false, [])
          | None =>
              let f1 := mkForest (f_obs f) (f_kids f)
                          (filter (fun n => negb (n_id n =? i)) (f_roots f))
                          (f_tracked f) in
              match add_child k parent f1 with
              | Some f' => (f', true, [])
              | None => (f, false, [])
              end
          end
      end
  | AddCb i c cb =>
      (* ns 644-657: a callback object is installed once *)
      match find_all i f with
      | Some (Nd _ _ _ (Some s) _) =>
          if existsb (fun x => snd x =? cb) (s_cbs s) then (f, false, [])
          else (fst (change_all i (change_src (fun s =>
                  mkSrc (s_type s) (s_name s) (s_dels s) (s_pts s) (s_seen s)
                        (s_posts s) (s_cbs s ++ [(c, cb)]))) f), true, [])
      | _ => (f, false, [])
      end
  | Reg r ensure => register r ensure f
  | Dereg r => deregister r f
  | Post i data => post i data f
  end.

(** Running a history from a state: the final state, and for every operation
    whether it went through and what it called. *)
Fixpoint run (f : forest) (h : list op) : forest * list (bool * list event) :=
  match h with
  | [] => (f, [])
  | o :: r =>
      let '(f1, b, e) := step f o in
      let (f2, l) := run f1 r in (f2, (b, e) :: l)
  end.

End Names.

(** Before anything happens: no trees, no observers (the global loggers are
    made on first use, src/MessageSource.cpp 46-74). *)
Definition nothing : forest := mkForest [] [] [] [].

(** NotificationSourceBase::observed (ns 330-332), getNumObservers,
    getObservationPoints and getNumPosts (ns 431-462). *)
Definition look (i : nat) (f : forest) : option (bool * nat * list nat * N) :=
  match find_all i f with
  | Some (Nd _ _ _ (Some s) _) =>
      Some (s_seen s, length (s_dels s), s_pts s, s_posts s)
  | _ => None
  end.
