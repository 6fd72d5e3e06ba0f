(** The virtual parameter tree: setting parameters by path or by pattern,
    reading them back, marking them read, asking whether they are required,
    and merging trees.

    Sources (paths below /repo/sparta):
    - sparta/simulation/ParameterTree.hpp
    - src/TreeNode.cpp (names in a path and patterns)
    - src/sparta.cpp (table of pattern substitutions)
    - sparta/utils/Utils.hpp (replaceSubstring)

    Simplifications, for the whole file:
    - a node's children are kept newest first, that is [children_] reversed;
      every search of the source goes through the children in reverse order;
    - pointers to nodes are positions: the list of child indices, counted
      from the newest child, leading from the node at hand to the node meant;
    - user data attached to nodes, printing and releasing nodes are left out;
    - names holding one of the characters \ ^ $ { } | (special in a regular
      expression and not escaped by the source) are refused with the explicit
      outcome "unmodelled". *)
From Coq Require Import NArith List Bool String Ascii Lia.
Import ListNotations.
Open Scope string_scope.
Open Scope N_scope.

(** ** Patterns *)

(** Does a character occur in a string: [name.find(c) != npos] as used by
    hasWildcardCharacters (src/TreeNode.cpp 1505-1512). *)
Fixpoint has_char (c : ascii) (s : string) : bool :=
  match s with
  | EmptyString => false
  | String d r => Ascii.eqb c d || has_char c r
  end.

(** The characters of the substitution table TREE_NODE_PATTERN_SUBS
    (src/sparta.cpp 134-147), in its order. *)
Definition sub_chars : list ascii :=
  ["("; ")"; "["; "]"; "*"; "?"; "+"]%char.

(** TreeNode::hasWildcardCharacters (src/TreeNode.cpp 1505-1512). *)
Definition wild (name : string) : bool :=
  existsb (fun c => has_char c name) sub_chars.

(** replaceSubstring for a one-character [from]
    (sparta/utils/Utils.hpp 276-285): text inserted is never looked at
    again. *)
Fixpoint replace_char (from : ascii) (to s : string) : string :=
  match s with
  | EmptyString => EmptyString
  | String c r =>
      if Ascii.eqb c from then to ++ replace_char from to r
      else String c (replace_char from to r)
  end.

(** The table itself (src/sparta.cpp 134-147). *)
Definition pattern_subs : list (ascii * string) :=
  [("("%char, "\("); (")"%char, "\)");
   ("["%char, "\["); ("]"%char, "\]");
   ("*"%char, "(.*)"); ("?"%char, "(.?)"); ("+"%char, "(.+)")].

(** TreeNode::createSearchRegexPattern (src/TreeNode.cpp 1492-1503): the
    substitutions are applied one after the other. *)
Definition create_regex (pat : string) : string :=
  fold_left (fun s p => replace_char (fst p) (snd p) s) pattern_subs pat.

(** The parts of a regular expression that createSearchRegexPattern
    produces (src/sparta.cpp 134-147): a plain character and the three
    groups. *)
Inductive item :=
| Lit (c : ascii)
| Any0    (* (.* ) *)
| Any01   (* (.?) *)
| Any1.   (* (.+) *)

(** The character behind the dot of a group (src/sparta.cpp 145-147). *)
Definition group_item (q : ascii) : option item :=
  if Ascii.eqb q "*" then Some Any0
  else if Ascii.eqb q "?" then Some Any01
  else if Ascii.eqb q "+" then Some Any1
  else None.

(** Characters that mean something else than themselves in a std::regex of
    the default (ECMAScript) grammar, as constructed by Node::matches
    (sparta/simulation/ParameterTree.hpp 438-442). *)
Definition regex_special (c : ascii) : bool :=
  existsb (Ascii.eqb c)
    ["^"; "$"; "."; "{"; "}"; "|"; ")"; "["; "]"; "*"; "+"; "?"]%char.

(** Reading a regular expression of this shape; [None] stands for an
    expression outside the modelled subset (sparta/simulation/
    ParameterTree.hpp 439, construction of std::regex). *)
Fixpoint parse_regex (s : string) : option (list item) :=
  match s with
  | EmptyString => Some []
  | String c r =>
      if Ascii.eqb c "\" then
        match r with
        | String d r2 =>
            if existsb (Ascii.eqb d) ["("; ")"; "["; "]"]%char
            then option_map (cons (Lit d)) (parse_regex r2)
            else None
        | EmptyString => None
        end
      else if Ascii.eqb c "(" then
        match r with
        | String d (String q (String e r2)) =>
            if Ascii.eqb d "." && Ascii.eqb e ")" then
              match group_item q with
              | Some it => option_map (cons it) (parse_regex r2)
              | None => None
              end
            else None
        | _ => None
        end
      else if regex_special c then None
      else option_map (cons (Lit c)) (parse_regex r)
  end.

(** What the dot of an ECMAScript expression accepts: anything but a line
    terminator (std::regex as used at sparta/simulation/ParameterTree.hpp
    439-441; single-byte characters only). *)
Definition dot (c : ascii) : bool :=
  negb (Ascii.eqb c "010") && negb (Ascii.eqb c "013").

(** [r] preceded by any number of characters accepted by the dot
    (sparta/simulation/ParameterTree.hpp 441, the group (.* )). *)
Fixpoint star (r : string -> bool) (s : string) : bool :=
  r s || match s with
         | EmptyString => false
         | String d s' => dot d && star r s'
         end.

(** std::regex_match of the whole text (sparta/simulation/ParameterTree.hpp
    441); backtracking finds a match if there is one. *)
Fixpoint rmatch (its : list item) (s : string) : bool :=
  match its with
  | [] => match s with EmptyString => true | _ => false end
  | Lit c :: r =>
      match s with
      | String d s' => Ascii.eqb c d && rmatch r s'
      | EmptyString => false
      end
  | Any0 :: r => star (rmatch r) s
  | Any01 :: r =>
      rmatch r s || match s with
                    | String d s' => dot d && rmatch r s'
                    | EmptyString => false
                    end
  | Any1 :: r =>
      match s with
      | String d s' => dot d && star (rmatch r) s'
      | EmptyString => false
      end
  end.

(** ParameterTree::Node::matches (sparta/simulation/ParameterTree.hpp
    438-442) and TreeNode::matchesGlobLike (src/TreeNode.cpp 1530-1535). An
    expression outside the modelled subset matches nothing here; [plain]
    keeps such names out of the tree. *)
Definition matches (pat other : string) : bool :=
  match parse_regex (create_regex pat) with
  | Some its => rmatch its other
  | None => false
  end.

(** Names whose regular expression is modelled (see the head of the file;
    sparta/simulation/ParameterTree.hpp 438-442). *)
Definition plain (name : string) : bool :=
  negb (existsb (fun c => has_char c name)
          ["\"; "^"; "$"; "."; "{"; "}"; "|"]%char).

(** ** Paths *)

(** TreeNode::getNextName (src/TreeNode.cpp 1514-1528): the characters up to
    the next dot and what remains; [None] is [pos == npos]. A dot that ends
    the string leaves nothing to read. *)
Fixpoint next_name (s : string) : string * option string :=
  match s with
  | EmptyString => (EmptyString, None)
  | String c r =>
      if Ascii.eqb c "." then
        (EmptyString, match r with EmptyString => None | _ => Some r end)
      else let '(a, b) := next_name r in (String c a, b)
  end.

(** The names getNextName delivers one after the other
    (sparta/simulation/ParameterTree.hpp 484-508 for create, 1530-1541 and
    1603-1604 for reading). The source asks for each name when it reaches
    its level; the result does not depend on the tree. *)
Fixpoint split_names (fuel : nat) (s : string) : list string :=
  match fuel with
  | O => []
  | Datatypes.S f =>
      let '(nm, o) := next_name s in
      nm :: match o with Some r => split_names f r | None => [] end
  end.

(** The names of a path; the empty path has none and means the node itself
    (sparta/simulation/ParameterTree.hpp 479-481, 1264-1266, 1526-1528). *)
Definition names_of (path : string) : list string :=
  match path with
  | EmptyString => []
  | _ => split_names (String.length path) path
  end.

(** ** Nodes *)

(** ParameterTree::Node (sparta/simulation/ParameterTree.hpp 61-152): name,
    value with origin if [has_value_], numbers of writes, reads and requiring
    settings, children (newest first). *)
Inductive node :=
  Node (name : string) (val : option (string * string))
       (writes reads required : N) (kids : list node).

(** Fields of a node (sparta/simulation/ParameterTree.hpp 72-80, 152). *)
Definition n_name (n : node) := let 'Node a _ _ _ _ _ := n in a.
(** [value_], [origin_] and [has_value_] (sparta/simulation/ParameterTree.hpp
    75-77). *)
Definition n_val (n : node) := let 'Node _ v _ _ _ _ := n in v.
(** [write_count_] (sparta/simulation/ParameterTree.hpp 79). *)
Definition n_writes (n : node) := let 'Node _ _ w _ _ _ := n in w.
(** [read_count_] (sparta/simulation/ParameterTree.hpp 80). *)
Definition n_reads (n : node) := let 'Node _ _ _ r _ _ := n in r.
(** [required_] (sparta/simulation/ParameterTree.hpp 152). *)
Definition n_required (n : node) := let 'Node _ _ _ _ q _ := n in q.
(** [children_] reversed (sparta/simulation/ParameterTree.hpp 78). *)
Definition n_kids (n : node) := let 'Node _ _ _ _ _ k := n in k.

(** Replacing the children (sparta/simulation/ParameterTree.hpp 78). *)
Definition with_kids (n : node) (k : list node) :=
  let 'Node a v w r q _ := n in Node a v w r q k.

(** Node(parent, name) (sparta/simulation/ParameterTree.hpp 174-180). *)
Definition fresh (name : string) : node := Node name None 0 0 0 [].

(** Counters are uint32_t (sparta/simulation/ParameterTree.hpp 79-80, 152). *)
Definition inc32 (n : N) : N := (n + 1) mod 2 ^ 32.

(** Node::hasValue (sparta/simulation/ParameterTree.hpp 617-619). *)
Definition has_value (n : node) : bool :=
  match n_val n with Some _ => true | None => false end.

(** Node::incrementReadCount (sparta/simulation/ParameterTree.hpp 330-332). *)
Definition inc_read (n : node) : node :=
  let 'Node a v w r q k := n in Node a v w (inc32 r) q k.

(** Node::incRequired (sparta/simulation/ParameterTree.hpp 645-647). *)
Definition inc_required (n : node) : node :=
  let 'Node a v w r q k := n in Node a v w r (inc32 q) k.

(** Node::setValue (sparta/simulation/ParameterTree.hpp 628-640). *)
Definition set_value (v : string) (req : bool) (origin : string) (n : node)
  : node :=
  let 'Node a _ w r q k := n in
  Node a (Some (v, origin)) (inc32 w) r (if req then inc32 q else q) k.

(** The node at a position (head of the file; sparta/simulation/
    ParameterTree.hpp 78). *)
Fixpoint node_at (p : list nat) (n : node) : option node :=
  match p with
  | [] => Some n
  | i :: p' => match nth_error (n_kids n) i with
               | Some k => node_at p' k
               | None => None
               end
  end.

(** Changing one element of a list of children (sparta/simulation/
    ParameterTree.hpp 78; access through a pointer). *)
Fixpoint upd (i : nat) (f : node -> node) (l : list node) : list node :=
  match l, i with
  | [], _ => []
  | k :: r, O => f k :: r
  | k :: r, Datatypes.S j => k :: upd j f r
  end.

(** A change made through a pointer to a node (sparta/simulation/
    ParameterTree.hpp 1244, 1587, 1619). *)
Fixpoint upd_at (p : list nat) (f : node -> node) (n : node) : node :=
  match p with
  | [] => f n
  | i :: p' => with_kids n (upd i (upd_at p' f) (n_kids n))
  end.

(** ** Setting *)

(** Node::getPriorityChildMatch (sparta/simulation/ParameterTree.hpp
    519-575): index of the child to use again, if there is one. *)
Fixpoint priority_match (name : string) (kids : list node) (i : nat)
  : option nat :=
  match kids with
  | [] => None
  | k :: r =>
      if String.eqb (n_name k) name then Some i
      else if wild name then
        if wild (n_name k) then None
        else if matches name (n_name k) then None
        else priority_match name r (Datatypes.S i)
      else if matches (n_name k) name then None
      else priority_match name r (Datatypes.S i)
  end.

(** What create delivers: a node, a null pointer, or a failed assertion of
    addChild (sparta/simulation/ParameterTree.hpp 478-509, 580-590). *)
Inductive made := Got (p : list nat) | NoNode | Failed | Unmodelled.

(** A position seen from the parent (sparta/simulation/ParameterTree.hpp
    508). *)
Definition below (i : nat) (m : made) : made :=
  match m with Got p => Got (i :: p) | _ => m end.

(** Node::create over the names of the path, with Node::addChild inlined
    (sparta/simulation/ParameterTree.hpp 478-509, 580-590). *)
Fixpoint create (names : list string) (req : bool) (n : node)
  : node * made :=
  match names with
  | [] => (n, Got [])
  | nm :: rest =>
      if String.eqb nm "" then (n, NoNode)
      else if negb (plain nm) then (n, Unmodelled)
      else
        match priority_match nm (n_kids n) 0 with
        | Some i =>
            match nth_error (n_kids n) i with
            | Some k =>
                let '(k', m) := create rest req k in
                (with_kids n (upd i (fun _ => k') (n_kids n)), below i m)
            | None => (n, Unmodelled)
            end
        | None =>
            if has_value n then (n, Failed)
            else
              let k := if req then inc_required (fresh nm) else fresh nm in
              let '(k', m) := create rest req k in
              (with_kids n (k' :: n_kids n), below 0 m)
        end
  end.

(** What ParameterTree::set reports (sparta/simulation/ParameterTree.hpp
    1239-1247). *)
Inductive set_res := SetTrue | SetFalse | SetFailed | SetUnmodelled.

(** ParameterTree::set (sparta/simulation/ParameterTree.hpp 1239-1247). *)
Definition tree_set (t : node) (path v : string) (req : bool)
    (origin : string) : node * set_res :=
  let '(t', m) := create (names_of path) false t in
  match m with
  | Got p => (upd_at p (set_value v req origin) t', SetTrue)
  | NoNode => (t', SetFalse)
  | Failed => (t', SetFailed)
  | Unmodelled => (t', SetUnmodelled)
  end.

(** ** Reading *)

(** What reading delivers: a node or null, an exception for an empty name,
    or a failed assertion for a pattern (sparta/simulation/
    ParameterTree.hpp 1549-1628). *)
Inductive got := Found (p : option (list nat)) | Throws | Asserts.

(** A result in a later child (sparta/simulation/ParameterTree.hpp
    1583-1584, 1614-1615; step of the loop). *)
Definition next_kid (g : got) : got :=
  match g with
  | Found (Some (i :: p)) => Found (Some (Datatypes.S i :: p))
  | _ => g
  end.

(** The loop of recursTryGet_ at the last name
    (sparta/simulation/ParameterTree.hpp 1581-1595): the children, and the
    indices for [result] and [backup]. *)
Fixpoint last_loop (leaf : bool) (nm : string) (kids : list node)
  : list node * (option nat * option nat) :=
  match kids with
  | [] => ([], (None, None))
  | k :: r =>
      let '(r', (res, bak)) := last_loop leaf nm r in
      let res' := option_map Datatypes.S res in
      let bak' := option_map Datatypes.S bak in
      if matches (n_name k) nm then
        if has_value k || negb leaf then (inc_read k :: r', (Some O, bak'))
        else (k :: r', (res', Some O))
      else (k :: r', (res', bak'))
  end.

(** The loop of recursTryGet_ above the last name
    (sparta/simulation/ParameterTree.hpp 1613-1626); [f] is the recursive
    call. *)
Fixpoint mid_loop (f : node -> node * got) (leaf : bool) (nm : string)
    (kids : list node) : list node * got :=
  match kids with
  | [] => ([], Found None)
  | k :: r =>
      if matches (n_name k) nm then
        let '(k1, g) := f k in
        match g with
        | Found m =>
            let '(k2, hit) :=
              match m with
              | Some p =>
                  if negb leaf
                     || match node_at p k1 with
                        | Some x => has_value x
                        | None => false
                        end
                  then (upd_at p inc_read k1, Some (O :: p))
                  else (k1, None)
              | None => (k1, None)
              end in
            let '(r', g') := mid_loop f leaf nm r in
            (k2 :: r',
             match g' with
             | Found res =>
                 match hit with
                 | Some p => Found (Some p)
                 | None => next_kid (Found res)
                 end
             | _ => g'
             end)
        | _ => (k1 :: r, g)
        end
      else let '(r', g') := mid_loop f leaf nm r in (k :: r', next_kid g')
  end.

(** recursTryGet_ (sparta/simulation/ParameterTree.hpp 1569-1628). *)
Fixpoint recurs_try_get (leaf : bool) (names : list string) (n : node)
  : node * got :=
  match names with
  | [] => (n, Found None)
  | nm :: rest =>
      if wild nm then (n, Asserts)
      else
        match rest with
        | [] =>
            let '(k, (res, bak)) := last_loop leaf nm (n_kids n) in
            (with_kids n k,
             Found (match res with
                    | Some i => Some [i]
                    | None => option_map (fun i => [i]) bak
                    end))
        | nm2 :: _ =>
            if String.eqb nm2 "" then (n, Throws)
            else
              let '(k, g) :=
                mid_loop (recurs_try_get leaf rest) leaf nm (n_kids n) in
              (with_kids n k, g)
        end
  end.

(** ParameterTree::tryGet and tryGet_ (sparta/simulation/ParameterTree.hpp
    1354-1365, 1525-1567). *)
Definition try_get (t : node) (path : string) (leaf : bool) : node * got :=
  match names_of path with
  | [] => (t, Found (Some []))
  | nm :: rest =>
      if String.eqb nm "" then (t, Throws)
      else recurs_try_get leaf (nm :: rest) t
  end.

(** ParameterTree::hasValue (sparta/simulation/ParameterTree.hpp
    1304-1307); [None] when reading throws. *)
Definition tree_has_value (t : node) (path : string) (leaf : bool)
  : node * option bool :=
  let '(t', g) := try_get t path leaf in
  (t', match g with
       | Found (Some p) =>
           Some (match node_at p t' with
                 | Some x => has_value x
                 | None => false
                 end)
       | Found None => Some false
       | _ => None
       end).

(** ParameterTree::exists (sparta/simulation/ParameterTree.hpp
    1315-1317). *)
Definition tree_exists (t : node) (path : string) (leaf : bool)
  : node * option bool :=
  let '(t', g) := try_get t path leaf in
  (t', match g with
       | Found (Some _) => Some true
       | Found None => Some false
       | _ => None
       end).

(** Node::getChild (sparta/simulation/ParameterTree.hpp 451-466): index of
    the child; [None] inside for a null pointer, [None] outside for the
    exception on a pattern. *)
Fixpoint child_index (name : string) (kids : list node) : option nat :=
  match kids with
  | [] => None
  | k :: r =>
      if matches (n_name k) name then Some O
      else option_map Datatypes.S (child_index name r)
  end.

(** Node::getChild (sparta/simulation/ParameterTree.hpp 451-466). *)
Definition get_child (n : node) (name : string) : option (option nat) :=
  if wild name then None else Some (child_index name (n_kids n)).

(** ** Required, read and unread parameters *)

(** Answer to a question about a path (sparta/simulation/ParameterTree.hpp
    1633-1681: [found_match] and the returned value). *)
Inductive answer := Yes | No | NotFound | AnsThrows | AnsAsserts.

(** [getRequiredCount() > 0] (sparta/simulation/ParameterTree.hpp 1650). *)
Definition required_answer (n : node) : answer :=
  if 0 <? n_required n then Yes else No.

(** The loop of recursGetIsRequired_ at the last name
    (sparta/simulation/ParameterTree.hpp 1643-1654). *)
Fixpoint req_last (nm : string) (kids : list node) : answer :=
  match kids with
  | [] => NotFound
  | k :: r =>
      if if wild nm then String.eqb (n_name k) nm else matches (n_name k) nm
      then required_answer k
      else req_last nm r
  end.

(** The loop of recursGetIsRequired_ above the last name
    (sparta/simulation/ParameterTree.hpp 1668-1680). *)
Fixpoint req_mid (f : node -> answer) (nm : string) (kids : list node)
  : answer :=
  match kids with
  | [] => NotFound
  | k :: r =>
      if matches (n_name k) nm then
        match f k with
        | NotFound => req_mid f nm r
        | a => a
        end
      else req_mid f nm r
  end.

(** recursGetIsRequired_ (sparta/simulation/ParameterTree.hpp 1633-1681). *)
Fixpoint recurs_required (names : list string) (n : node) : answer :=
  match names with
  | [] => NotFound
  | nm :: rest =>
      match rest with
      | [] => req_last nm (n_kids n)
      | nm2 :: _ =>
          if String.eqb nm2 "" then AnsThrows
          else req_mid (recurs_required rest) nm (n_kids n)
      end
  end.

(** ParameterTree::isRequired (sparta/simulation/ParameterTree.hpp
    1372-1395): not finding the path is a failed assertion. *)
Definition is_required (t : node) (path : string) : answer :=
  match names_of path with
  | [] => required_answer t
  | nm :: rest =>
      if String.eqb nm "" then AnsThrows
      else match recurs_required (nm :: rest) t with
           | NotFound => AnsAsserts
           | a => a
           end
  end.

(** Node::unrequire (sparta/simulation/ParameterTree.hpp 653-658). *)
Fixpoint node_unrequire (n : node) : node :=
  let 'Node a v w r _ k := n in Node a v w r 0 (map node_unrequire k).

(** ParameterTree::unrequire (sparta/simulation/ParameterTree.hpp
    1402-1409); [None] when reading throws. *)
Definition tree_unrequire (t : node) (path : string) : node * option bool :=
  let '(t', g) := try_get t path false in
  match g with
  | Found (Some p) => (upd_at p node_unrequire t', Some true)
  | Found None => (t', Some false)
  | _ => (t', None)
  end.

(** The test of recursIsRead_ on one node (sparta/simulation/
    ParameterTree.hpp 1719). *)
Definition read_value (n : node) : bool :=
  has_value n && (0 <? n_reads n).

(** The loops of recursIsRead_ (sparta/simulation/ParameterTree.hpp
    1716-1724, 1737-1746). *)
Fixpoint read_loop (f : node -> answer) (nm : string) (kids : list node)
  : answer :=
  match kids with
  | [] => No
  | k :: r =>
      if matches (n_name k) nm then
        match f k with
        | No => read_loop f nm r
        | a => a
        end
      else read_loop f nm r
  end.

(** recursIsRead_ (sparta/simulation/ParameterTree.hpp 1705-1747). *)
Fixpoint recurs_is_read (names : list string) (n : node) : answer :=
  match names with
  | [] => No
  | nm :: rest =>
      if wild nm then AnsAsserts
      else
        match rest with
        | [] => read_loop (fun k => if read_value k then Yes else No)
                  nm (n_kids n)
        | nm2 :: _ =>
            if String.eqb nm2 "" then AnsThrows
            else read_loop (recurs_is_read rest) nm (n_kids n)
        end
  end.

(** ParameterTree::isRead (sparta/simulation/ParameterTree.hpp
    1419-1436). *)
Definition is_read (t : node) (path : string) : answer :=
  match names_of path with
  | [] => if read_value t then Yes else No
  | nm :: rest =>
      if String.eqb nm "" then AnsThrows
      else recurs_is_read (nm :: rest) t
  end.

(** recursCountUnreadValueNodes_ (sparta/simulation/ParameterTree.hpp
    1686-1700): the nodes reported, newest child first, each given by the
    names of its path and by its value. The count is the length of the list
    (the source keeps it in 32 bits). *)
Fixpoint unread (n : node) : list (list string * (string * string)) :=
  let 'Node _ v _ r _ kids := n in
  match v with
  | Some x => if r =? 0 then [([], x)] else []
  | None => []
  end ++
  flat_map (fun k => map (fun e => (n_name k :: fst e, snd e)) (unread k))
    kids.

(** ParameterTree::getUnreadValueNodes (sparta/simulation/
    ParameterTree.hpp 1330-1347). *)
Definition unread_nodes (t : node) : list (list string * (string * string)) :=
  unread t.

(** ** Merging *)

(** How an append ends (sparta/simulation/ParameterTree.hpp 1093-1109): done,
    failed assertion of addChild, or outside the model. *)
Inductive app_res := AppDone | AppFailed | AppUnmodelled.

(** Node::recursAppendTree_ (sparta/simulation/ParameterTree.hpp
    1093-1109). The children of [ot] are taken oldest first; a failed
    assertion leaves what was done so far. *)
Fixpoint append (ot : node) (n : node) : node * app_res :=
  let 'Node _ v _ _ q kids := ot in
  let n1 := match v with
            | Some (x, o) => set_value x (0 <? q) o n
            | None => n
            end in
  fold_right
    (fun c st =>
       let '(m, r) := st in
       match r with
       | AppDone =>
           let '(m', g) := create [n_name c] (0 <? n_required c) m in
           match g with
           | Got p =>
               match node_at p m' with
               | Some x =>
                   let '(x', r') := append c x in
                   (upd_at p (fun _ => x') m', r')
               | None => (m', AppUnmodelled)
               end
           | Failed => (m', AppFailed)
           | _ => (m', AppUnmodelled)
           end
       | _ => st
       end) (n1, AppDone) kids.

(** The root of an empty tree: ParameterTree() and clear()
    (sparta/simulation/ParameterTree.hpp 187-196, 1221-1223). *)
Definition empty_tree : node := Node "" None 0 0 0 [].

(** ParameterTree::merge of another tree (sparta/simulation/
    ParameterTree.hpp 896-907, 1449-1451): the root of the other tree has an
    empty name. *)
Definition merge (t ot : node) : node * app_res := append ot t.

(** The copy constructor (sparta/simulation/ParameterTree.hpp
    1198-1202). *)
Definition copy_tree (ot : node) : node * app_res := append ot empty_tree.

(** The copy assignment (sparta/simulation/ParameterTree.hpp 1204-1208):
    [None] is the assignment of a tree to itself, where clear() has already
    emptied the tree that is then merged. *)
Definition assign (t : node) (ot : option node) : node * app_res :=
  let cleared := empty_tree in
  merge cleared (match ot with Some o => o | None => cleared end).

(** ** Histories *)

(** Calls a user makes on a tree (sparta/simulation/ParameterTree.hpp
    1239-1247, 1263-1269, 1354-1365, 1402-1409). *)
Inductive call :=
| CSet (path v : string) (req : bool) (origin : string)
| CCreate (path : string) (req : bool)
| CTry (path : string) (leaf : bool)
| CUnrequire (path : string).

(** Answers to these calls (sparta/simulation/ParameterTree.hpp 1239-1247,
    1263-1269, 1354-1365, 1402-1409). *)
Inductive reply :=
| RSet (r : set_res)
| RMade (m : made)
| RGot (g : got)
| RUnreq (b : option bool).

(** One call (sparta/simulation/ParameterTree.hpp 1239-1247, 1263-1269,
    1354-1365, 1402-1409). *)
Definition do_call (t : node) (c : call) : node * reply :=
  match c with
  | CSet p v q o => let '(t', r) := tree_set t p v q o in (t', RSet r)
  | CCreate p q => let '(t', m) := create (names_of p) q t in (t', RMade m)
  | CTry p l => let '(t', g) := try_get t p l in (t', RGot g)
  | CUnrequire p => let '(t', b) := tree_unrequire t p in (t', RUnreq b)
  end.

(** A history of calls with their answers (sparta/simulation/
    ParameterTree.hpp 1239-1409). *)
Fixpoint do_calls (t : node) (cs : list call)
  : node * list (call * reply) :=
  match cs with
  | [] => (t, [])
  | c :: r =>
      let '(t1, a) := do_call t c in
      let '(t2, l) := do_calls t1 r in
      (t2, (c, a) :: l)
  end.
