(** The device tree: building it, names and groups of nodes, locations, and
    finding nodes by path or by pattern.

    Sources (paths below /repo/sparta):
    - sparta/simulation/TreeNode.hpp ("tn")
    - src/TreeNode.cpp ("tc")
    - sparta/simulation/RootTreeNode.hpp ("rt")

    Simplifications, for the whole file:
    - nodes are known by numbers, in the order of construction, instead of
      addresses;
    - the tree stays in its building phase; no node is destroyed or moved;
      descriptions are not empty;
    - a constructor that takes the parent is the constructor without it
      followed by addChild;
    - the search scope above a RootTreeNode and the notification node that it
      makes below itself (rt 80-108) are left out: a root has no parent here
      either (rt 211-214);
    - hooks that subclasses override do nothing, but for RootTreeNode;
    - loops over parents get fuel for every node and [None] if it is used up. *)
From Coq Require Import NArith Bool String Ascii Arith Decimal DecimalString List Lia.
From Verif Require Import ParamTreeModel.
Import ListNotations.
Open Scope string_scope.
Open Scope nat_scope.

(** The members of a TreeNode that matter here: name_, group_ptr_, group_idx_,
    is_indexable_, whether it is a RootTreeNode, aliases_, privacy_level_,
    parent_, children_ and names_ (tc 87-113, tn 4545, 4616, 4633, 4639, 4686). *)
Record tn := mkT {
  t_name : string;
  t_group : string;
  t_idx : N;
  t_ix : bool;
  t_root : bool;
  t_alias : list string;
  t_priv : N;
  t_up : option nat;
  t_kids : list nat;
  t_names : list (string * nat)
}.

(** All nodes. *)
Definition st := list tn.

(** A pointer to a node followed. *)
Definition at_ (s : st) (i : nat) : option tn := nth_error s i.

(** A node replaced. *)
Fixpoint upd (s : st) (i : nat) (f : tn -> tn) : st :=
  match s, i with
  | [], _ => []
  | x :: r, O => f x :: r
  | x :: r, S j => x :: upd r j f
  end.

(** ** Names *)

(** GROUP_IDX_NONE (tn 302). *)
Definition idx_none : N := 2 ^ 32 - 1.
(** GROUP_NAME_BUILTIN (tn 369). *)
Definition builtin : string := "_SPARTA_builtin_group_".

(** RESERVED_WORDS (tn 69-84). *)
Definition reserved : list string :=
  ["and"; "del"; "from"; "not"; "while"; "as"; "elif"; "global"; "or"; "with";
   "assert"; "else"; "if"; "pass"; "yield"; "break"; "except"; "import";
   "print"; "class"; "exec"; "in"; "raise"; "continue"; "finally"; "is";
   "return"; "def"; "for"; "lambda"; "try"; "__init__"; "__del__";
   "__cinit__"; "__dealloc__"; "name"; "author"; "report"; "content";
   "include"; "extension"].

(** DIGIT_CHARS (tn 62). *)
Definition digitc (c : ascii) : bool :=
  let n := nat_of_ascii c in (48 <=? n) && (n <=? 57).

(** ALPHANUM_CHARS (tn 58-59). *)
Definition wordc (c : ascii) : bool :=
  let n := nat_of_ascii c in
  ((97 <=? n) && (n <=? 122)) || ((65 <=? n) && (n <=? 90)) || digitc c
  || (n =? 95).

(** find_first_not_of(ALPHANUM_CHARS) == npos (tc 544-545, 557-558). *)
Fixpoint all_word (s : string) : bool :=
  match s with EmptyString => true | String c r => wordc c && all_word r end.

(** find_first_of(DIGIT_CHARS) == 0 (tc 536, 591). *)
Definition digit_first (s : string) : bool :=
  match s with EmptyString => false | String c _ => digitc c end.

(** group.size() > 0 && group.find_last_of(DIGIT_CHARS) == group.size()-1
    (tc 583). *)
Fixpoint digit_last (s : string) : bool :=
  match s with
  | EmptyString => false
  | String c EmptyString => digitc c
  | String _ r => digit_last r
  end.

(** find("__") (tc 529, 572). *)
Fixpoint find_us (s : string) : option nat :=
  match s with
  | String "_" (String "_" _) => Some 0
  | String _ r => option_map S (find_us r)
  | EmptyString => None
  end.

(** TreeNode::validateName (tc 520-551). The subtraction in line 530 wraps
    around for fewer than three characters, and then no position equals it. *)
Definition valid_name (nm : string) : bool :=
  negb (existsb (String.eqb nm) reserved)
  && negb (match find_us nm with
           | Some p => (p =? 0) || (p + 3 =? String.length nm)
           | None => false
           end)
  && negb (digit_first nm) && all_word nm.

(** TreeNode::validateGroup (tc 553-623). *)
Definition valid_group (name group : string) (idx : N) : bool :=
  all_word group
  && negb (existsb (String.eqb group) reserved)
  && match find_us group with Some _ => false | None => true end
  && negb (digit_last group) && negb (digit_first group)
  && negb (String.eqb name "" && String.eqb group "")
  && negb (String.eqb group "" && negb (idx =? idx_none)%N)
  && (if String.eqb group builtin then (idx =? idx_none)%N
      else String.eqb group "" || negb (idx =? idx_none)%N).

(** std::to_string(getGroupIdx()) (tc 1804). *)
Definition dec (n : N) : string := NilZero.string_of_uint (N.to_uint n).

(** TreeNode::getIdentifiers (tc 788-798). *)
Definition idents (t : tn) : list string :=
  ((if String.eqb (t_name t) "" then [] else [t_name t]) ++ t_alias t)%list.

(** ** The map of names *)

(** std::multimap::emplace (tc 2985, tn 255): behind everything that is not
    greater. *)
Fixpoint put_name (k : string) (v : nat) (l : list (string * nat))
  : list (string * nat) :=
  match l with
  | [] => [(k, v)]
  | (k', v') :: r =>
      if String.ltb k k' then (k, v) :: l else (k', v') :: put_name k v r
  end.

(** The first entry of a key: find (tc 2373) and the beginning of equal_range
    (tc 1990). No entry is a null pointer (tc 1799-1805). *)
Fixpoint first_name (k : string) (l : list (string * nat)) : option nat :=
  match l with
  | [] => None
  | (k', v) :: r => if String.eqb k' k then Some v else first_name k r
  end.

(** The keys under which a child is entered, in order (tc 1797-1805). *)
Definition keys (t : tn) : list string :=
  (idents t ++ (if String.eqb (t_group t) "" then []
                else [(t_group t ++ dec (t_idx t))%string]))%list.

(** ** Parents *)

(** getParent taken again and again, from the parent of [i] on. *)
Fixpoint ups_ (fuel : nat) (s : st) (i : nat) : option (list nat) :=
  match fuel with
  | O => None
  | S f =>
      match at_ s i with
      | None => Some []
      | Some t =>
          match t_up t with
          | None => Some []
          | Some p => option_map (cons p) (ups_ f s p)
          end
      end
  end.
(** See [ups_]: there are fewer parents above a node than nodes. *)
Definition ups (s : st) (i : nat) : option (list nat) := ups_ (length s) s i.

(** TreeNode::incrementPrivacyLevel_ (tn 3949-3956); uint32_t (tn 3951). *)
Fixpoint deepen (fuel : nat) (by_ : N) (i : nat) (s : st) : st :=
  match fuel with
  | O => s
  | S f =>
      match at_ s i with
      | None => s
      | Some t =>
          fold_left (fun s' k => deepen f by_ k s') (t_kids t)
            (upd s i (fun t => mkT (t_name t) (t_group t) (t_idx t) (t_ix t)
               (t_root t) (t_alias t) ((t_priv t + by_) mod 2 ^ 32)%N
               (t_up t) (t_kids t) (t_names t)))
      end
  end.

(** ** Operations *)

(** Constructing a node without parent (tc 87-152, 240-246) or a RootTreeNode
    (rt 80-108); addAlias (tc 364-393); makeSubtreePrivate (tn 2203-2206);
    parent->addChild(child) (tc 1380-1391). *)
Inductive op :=
| New (name group : string) (idx : N) (ix root : bool)
| AddAlias (i : nat) (a : string)
| Private (i : nat)
| AddChild (parent child : nat).

(** What an operation comes to: done, refused with nothing changed, or a
    SpartaCriticalError with the tree left as it is then (tc 1813-1818). *)
Inductive result := Fine (s : st) | No | Broken (s : st).

(** The collision of group indices (tc 1756-1768). *)
Definition group_clash (t c : tn) : bool :=
  String.eqb (t_group t) (t_group c) && negb (t_idx t =? idx_none)%N
  && (t_idx t =? t_idx c)%N && t_ix c && t_ix t.

(** verifyUniqueChildIdentifier_ (tc 2371-2388): is the name free. *)
Definition free_name (t : tn) (k : string) : bool :=
  match first_name k (t_names t) with Some _ => false | None => true end.

(** addChild_ after its checks (tc 1794-1811): the names, the child, its
    privacy level, and setParent_ (tc 1677-1709), which fails if the child has
    a parent. *)
Definition connect (p c : nat) (tp tc : tn) (s : st) : result :=
  let s1 := upd s p (fun t => mkT (t_name t) (t_group t) (t_idx t) (t_ix t)
              (t_root t) (t_alias t) (t_priv t) (t_up t) (t_kids t ++ [c])%list
              (fold_left (fun l k => put_name k c l) (keys tc) (t_names t))) in
  let s2 := deepen (length s) (t_priv tp) c s1 in
  match t_up tc with
  | Some _ => Broken s2
  | None =>
      Fine (upd s2 c (fun t => mkT (t_name t) (t_group t) (t_idx t) (t_ix t)
              (t_root t) (t_alias t) (t_priv t) (Some p) (t_kids t)
              (t_names t)))
  end.

(** TreeNode::addChild_ (tc 1711-1822), with RootTreeNode::onSettingParent_
    (rt 526-532). *)
Definition add_child (p c : nat) (s : st) : result :=
  match at_ s p, at_ s c with
  | Some tp, Some tc =>
      if p =? c then No
      else
        match ups s p with
        | None => No
        | Some l =>
            if existsb (Nat.eqb c) l then No
            else if existsb (fun k => (k =? c)
                     || match at_ s k with
                        | Some t => group_clash t tc
                        | None => false
                        end) (t_kids tp) then No
            else if negb (forallb (free_name tp) (t_name tc :: t_alias tc)) then No
            else if t_root tc then No
            else connect p c tp tc s
        end
  | _, _ => No
  end.

(** One operation. *)
Definition step (s : st) (o : op) : result :=
  match o with
  | New name group idx ix root =>
      if valid_name name && valid_group name group idx then
        Fine (s ++ [mkT name group idx ix root [] 0 None [] []])%list
      else No
  | AddAlias i a =>
      match at_ s i with
      | Some t =>
          match t_up t with
          | Some _ => No
          | None =>
              if valid_name a && negb (String.eqb a "")
                 && negb (existsb (String.eqb a) (t_alias t))
              then Fine (upd s i (fun t => mkT (t_name t) (t_group t) (t_idx t)
                     (t_ix t) (t_root t) (t_alias t ++ [a])%list (t_priv t) (t_up t)
                     (t_kids t) (t_names t)))
              else No
          end
      | None => No
      end
  | Private i =>
      match at_ s i with
      | Some _ => Fine (deepen (length s) 1 i s)
      | None => No
      end
  | AddChild p c => add_child p c s
  end.

(** A history: ordinary exceptions are survived, a critical error ends the
    program. *)
Fixpoint run (s : st) (h : list op) : option st :=
  match h with
  | [] => Some s
  | o :: r =>
      match step s o with
      | Fine s' => run s' r
      | No => run s r
      | Broken _ => None
      end
  end.

(** ** Finding nodes by path *)

(** getParent (tn 964-973, rt 211-214). *)
Definition parent (s : st) (i : nat) : option nat :=
  match at_ s i with Some t => t_up t | None => None end.

(** TreeNode::getImmediateChildByIdentity_ (tc 1983-2079). *)
Definition child_called (s : st) (i : nat) (nm : string) : option nat :=
  match at_ s i with Some t => first_name nm (t_names t) | None => None end.

(** The loop of getChild_ over the names of a path (tc 1116-1139) and of
    hasChild_ (tc 1268-1280). *)
Fixpoint walk (s : st) (i : nat) (names : list string) : option nat :=
  match names with
  | [] => Some i
  | nm :: r =>
      match (if String.eqb nm "" then parent s i else child_called s i nm) with
      | Some j => walk s j r
      | None => None
      end
  end.

(** TreeNode::canSeeChild_ (tn 4300-4305). *)
Definition sees (s : st) (i j : nat) : bool :=
  match at_ s i, at_ s j with
  | Some a, Some b => (t_priv a =? t_priv b)%N
  | _, _ => false
  end.

(** TreeNode::getChild_ (tc 1105-1157); [None] is the null pointer or the
    exception, as [must_exist] says. *)
Definition get_child (all : bool) (s : st) (i : nat) (path : string)
  : option nat :=
  if String.eqb path "" then Some i
  else match walk s i (names_of path) with
       | Some j => if negb all && negb (sees s i j) then None else Some j
       | None => None
       end.

(** TreeNode::hasChild_ (tc 1260-1290). *)
Definition has_child (all : bool) (s : st) (i : nat) (path : string) : bool :=
  if String.eqb path "" then true
  else match walk s i (names_of path) with
       | None => false
       | Some j => if negb all && negb (sees s i j) then false else true
       end.

(** TreeNode::getLocation_ (tc 1835-1858), for a node whose parent, if it is
    to have one, is set. *)
Fixpoint loc_ (fuel : nat) (s : st) (i : nat) : option string :=
  match fuel with
  | O => None
  | S f =>
      match at_ s i with
      | None => None
      | Some t =>
          match t_up t with
          | Some p => option_map (fun a => a ++ "." ++ t_name t) (loc_ f s p)
          | None => Some ((if t_root t then "" else "~") ++ t_name t)
          end
      end
  end.
(** getLocation (tc 1334-1338). *)
Definition location (s : st) (i : nat) : option string :=
  loc_ (length s) s i.

(** getLevel (tc 1368-1375). *)
Definition level (s : st) (i : nat) : option nat := option_map (@length nat) (ups s i).

(** getRoot (tc 638-647). *)
Definition root (s : st) (i : nat) : option nat :=
  option_map (fun l => last l i) (ups s i).

(** isDescendantOf (tc 1317-1332); no [depth] for a negative max_depth. *)
Definition descendant (s : st) (i a : nat) (depth : option nat) : option bool :=
  option_map (fun l => existsb (Nat.eqb a)
    match depth with Some d => firstn (S d) (i :: l) | None => i :: l end)
    (ups s i).

(** ** Finding nodes by pattern *)

(** A group (.* ) of a regular expression followed by [r]: as many characters
    as possible (std::regex_match, tc 2100, with ParamTreeModel.dot); the text
    of the group and of the groups behind it. *)
Fixpoint star_caps (r : string -> option (list string)) (s : string)
  : option (list string) :=
  let stop := option_map (cons "") (r s) in
  match s with
  | EmptyString => stop
  | String d s' =>
      if dot d then
        match star_caps r s' with
        | Some (x :: l) => Some (String d x :: l)
        | _ => stop
        end
      else stop
  end.

(** The texts of the groups of an expression in a match of the whole text
    (tc 2095-2115): every group prefers more characters. *)
Fixpoint caps (its : list item) (s : string) : option (list string) :=
  match its with
  | [] => match s with EmptyString => Some [] | _ => None end
  | Lit c :: r =>
      match s with
      | String d s' => if Ascii.eqb c d then caps r s' else None
      | EmptyString => None
      end
  | Any0 :: r => star_caps (caps r) s
  | Any01 :: r =>
      match s with
      | String d s' =>
          if dot d then
            match caps r s' with
            | Some l => Some (String d "" :: l)
            | None => option_map (cons "") (caps r s)
            end
          else option_map (cons "") (caps r s)
      | EmptyString => option_map (cons "") (caps r s)
      end
  | Any1 :: r =>
      match s with
      | String d s' =>
          if dot d then
            match star_caps (caps r) s' with
            | Some (x :: l) => Some (String d x :: l)
            | _ => None
            end
          else None
      | EmptyString => None
      end
  end.

(** identityMatchesPattern_ (tc 2095-2115) with the expression made at
    tc 903-907. *)
Definition replacements (pat ident : string) : option (list string) :=
  match parse_regex (create_regex pat) with
  | Some its => caps its ident
  | None => None
  end.

(** TreeNode::findImmediateChildren_ (tc 964-991): children in the order of
    their names, each once, with the texts of the first name that matches. *)
Definition immediate (all : bool) (s : st) (i : nat) (pat : string)
  : list (nat * list string) :=
  match at_ s i with
  | None => []
  | Some t =>
      fold_left (fun found e =>
          match replacements pat (fst e) with
          | Some r =>
              if (all || sees s i (snd e))
                 && negb (existsb (fun x => fst x =? snd e) found)
              then (found ++ [(snd e, r)])%list else found
          | None => found
          end) (t_names t) []
  end.

(** TreeNode::findChildren_ (tc 843-955) for the parts of a pattern. At the
    end of a pattern the source adds the node found with the texts found
    there; this is what one more call with an empty pattern adds (tc 862-866).
    The texts from below are copied in behind those found here, in reverse
    (tc 939-944). *)
Fixpoint find_ (all : bool) (s : st) (i : nat) (parts : list string)
  : list (nat * list string) :=
  match parts with
  | [] => [(i, [])]
  | pat :: r =>
      if String.eqb pat "" then
        match parent s i with
        | Some p => find_ all s p r
        | None => []
        end
      else
        flat_map (fun e => map (fun x => (fst x, (snd e ++ rev (snd x))%list))
                               (find_ all s (fst e) r))
                 (immediate all s i pat)
  end.

(** The call (tn 1420-1434); [None] for patterns with characters that are
    special in regular expressions and not handled by the source. *)
Definition find_children (all : bool) (s : st) (i : nat) (pattern : string)
  : option (list (nat * list string)) :=
  let parts := names_of pattern in
  if forallb plain parts then Some (find_ all s i parts) else None.

(** The parts of a text between dots. *)
Fixpoint split_dots (s : string) : list string :=
  match s with
  | EmptyString => [""]
  | String c r =>
      if Ascii.eqb c "." then "" :: split_dots r
      else match split_dots r with
           | x :: l => String c x :: l
           | [] => [String c ""]
           end
  end.

(** The names getPreviousName_ gives one after the other (tc 2123-2148,
    starting at the end, tc 1044): a dot at the very beginning ends it. *)
Definition prev_names (s : string) : list string :=
  rev (match split_dots s with
       | x :: y :: l => if String.eqb x "" then y :: l else x :: y :: l
       | l => l
       end).

(** What locationMatchesPattern does. *)
Inductive answer := Yes | Not | Throws.

(** The loop of locationMatchesPattern (tc 1050-1100). *)
Fixpoint lmp (s : st) (start i : nat) (parts : list string) : answer :=
  match parts with
  | [] => Not
  | pat :: r =>
      if String.eqb pat "" then Throws
      else
        match at_ s i with
        | None => Not
        | Some t =>
            if existsb (matches pat) (idents t) then
              let up := match t_up t with
                        | Some p => Some p
                        | None =>
                            match at_ s start with
                            | Some ts => if existsb (Nat.eqb i) (t_kids ts)
                                         then Some start else None
                            | None => None
                            end
                        end in
              match up, r with
              | Some j, [] => if j =? start then Yes else Not
              | Some j, _ => lmp s start j r
              | None, _ => Not
              end
            else Not
        end
  end.

(** TreeNode::locationMatchesPattern (tc 1033-1103). *)
Definition location_matches (s : st) (i : nat) (pattern : string) (start : nat)
  : answer :=
  if String.eqb pattern "" then (if start =? i then Yes else Not)
  else lmp s start i (prev_names pattern).

(** recursGetDeepestMatchingPath_ (tc 1217-1258) for the parts of a path;
    going up from a node without parent is undefined ([None]); findImmediateChildren_
    is called without private children (tc 1239). *)
Fixpoint deepest_ (s : st) (i : nat) (parts : list string)
  : option (nat * string) :=
  match parts with
  | [] => match at_ s i with Some t => Some (1, t_name t) | None => None end
  | pat :: r =>
      if String.eqb pat "" then
        match parent s i with
        | Some p => option_map (fun x => (1, "." ++ snd x)) (deepest_ s p r)
        | None => None
        end
      else
        match immediate false s i pat with
        | [] => Some (0, "")
        | l =>
            option_map (fun x => (1 + fst x, snd x))
              (fold_left (fun acc e =>
                 match acc, deepest_ s (fst e) r, at_ s (fst e) with
                 | Some (mx, d), Some (n, q), Some t =>
                     Some (if mx <=? n
                           then (n, if String.eqb q "" then t_name t
                                    else t_name t ++ "." ++ q)
                           else (mx, d))
                 | _, _, _ => None
                 end) l (Some (0, "")))
        end
  end.
(** getDeepestMatchingPath (tc 1212-1215). *)
Definition deepest (s : st) (i : nat) (path : string) : option string :=
  option_map snd (deepest_ s i (names_of path)).

(** ** Groups *)

(** getChildren (tc 736-751). *)
Definition public_kids (s : st) (i : nat) : list nat :=
  match at_ s i with
  | Some t => filter (fun k => match at_ s k with
                               | Some c => (t_priv c =? t_priv t)%N
                               | None => false
                               end) (t_kids t)
  | None => []
  end.

(** getGroup (tc 829-841). *)
Definition in_group (s : st) (i : nat) (g : string) : list nat :=
  filter (fun k => match at_ s k with
                   | Some c => String.eqb (t_group c) g
                   | None => false
                   end) (public_kids s i).

(** getGroupIndexMax (tc 811-827). *)
Definition group_max (s : st) (i : nat) (g : string) : N :=
  if String.eqb g "" then idx_none
  else fold_left (fun m k => match at_ s k with
                             | Some c => if (m =? idx_none)%N then t_idx c
                                         else N.max m (t_idx c)
                             | None => m
                             end) (in_group s i g) idx_none.
