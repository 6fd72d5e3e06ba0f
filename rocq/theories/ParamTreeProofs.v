(** Lemmas on the parameter tree. *)
From Coq Require Import NArith List Bool String Ascii Lia.
From Verif Require Import ParamTreeModel ParamTreeSpec.
Import ListNotations.
Open Scope string_scope.
Open Scope N_scope.

Arguments wild _ : simpl never.
Arguments plain _ : simpl never.
Arguments matches _ _ : simpl never.
Arguments names_of _ : simpl never.

(** ** Strings *)

Lemma app_assoc_s : forall a b c : string, (a ++ b) ++ c = a ++ (b ++ c).
Proof. induction a; cbn; intros; [reflexivity|]; now rewrite IHa. Qed.

Lemma app_nil_s : forall a : string, a ++ "" = a.
Proof. induction a; cbn; [reflexivity|]; now rewrite IHa. Qed.

Lemma has_char_app : forall c a b,
  has_char c (a ++ b) = has_char c a || has_char c b.
Proof.
  induction a; cbn; intros; [reflexivity|]. rewrite IHa. apply orb_assoc.
Qed.

Lemma has_char_free : forall c s, has_char c s = false <-> free_of c s.
Proof.
  induction s as [|d s IH]; cbn; [now split|].
  rewrite orb_false_iff, Ascii.eqb_neq. unfold free_of in *. cbn.
  rewrite IH. split; intros [A B]; split; auto.
Qed.

Lemma existsb_chars : forall l s,
  existsb (fun c => has_char c s) l = false <->
  every (fun c => ~ In c l) s.
Proof.
  intros l s. induction s as [|d s IH]; cbn.
  - split; [easy|]. intros _. induction l; cbn; auto.
  - rewrite <- IH. clear IH. induction l as [|c l IHl]; cbn.
    + tauto.
    + rewrite !orb_false_iff, IHl, Ascii.eqb_neq. intuition congruence.
Qed.

Lemma wild_readable : forall n, wild n = false <-> readable n.
Proof. intros. apply existsb_chars. Qed.

Lemma plain_regular : forall n, plain n = true <-> regular n.
Proof.
  intros. unfold plain. rewrite negb_true_iff. apply existsb_chars.
Qed.

(** ** Patterns *)

Lemma replace_app : forall f t a b,
  replace_char f t (a ++ b) = replace_char f t a ++ replace_char f t b.
Proof.
  induction a as [|c a IH]; cbn; intros; [reflexivity|].
  rewrite IH. destruct (Ascii.eqb c f); cbn; [now rewrite app_assoc_s|easy].
Qed.

Lemma fold_replace_app : forall l a b,
  fold_left (fun s p => replace_char (fst p) (snd p) s) l (a ++ b) =
  fold_left (fun s p => replace_char (fst p) (snd p) s) l a ++
  fold_left (fun s p => replace_char (fst p) (snd p) s) l b.
Proof.
  induction l as [|x l IH]; cbn [fold_left]; intros; [reflexivity|].
  now rewrite replace_app, IH.
Qed.

Lemma create_regex_cons : forall c s,
  create_regex (String c s) = create_regex (String c "") ++ create_regex s.
Proof.
  intros. unfold create_regex. rewrite <- fold_replace_app. reflexivity.
Qed.

Definition tok (c : ascii) : item :=
  if Ascii.eqb c "*" then Any0
  else if Ascii.eqb c "?" then Any01
  else if Ascii.eqb c "+" then Any1
  else Lit c.

Fixpoint toks (s : string) : list item :=
  match s with EmptyString => [] | String c r => tok c :: toks r end.

Definition bad_char (c : ascii) : bool :=
  existsb (Ascii.eqb c) ["\"; "^"; "$"; "."; "{"; "}"; "|"]%char.

Lemma parse_char : forall c r, bad_char c = false ->
  parse_regex (create_regex (String c "") ++ r) =
  option_map (cons (tok c)) (parse_regex r).
Proof.
  intros [b0 b1 b2 b3 b4 b5 b6 b7] r.
  destruct b0, b1, b2, b3, b4, b5, b6, b7; intros E;
    first [discriminate E | reflexivity].
Qed.

Lemma parse_bad : forall c r,
  bad_char c = true -> has_char "(" r = false -> has_char ")" r = false ->
  has_char "[" r = false -> has_char "]" r = false ->
  parse_regex (create_regex (String c "") ++ r) = None.
Proof.
  intros [b0 b1 b2 b3 b4 b5 b6 b7] r.
  destruct b0, b1, b2, b3, b4, b5, b6, b7; intros E H1 H2 H3 H4;
    try discriminate E; try reflexivity.
  destruct r as [|d r]; [reflexivity|].
  cbn [has_char] in H1, H2, H3, H4.
  apply orb_false_iff in H1, H2, H3, H4.
  destruct H1 as [H1 _], H2 as [H2 _], H3 as [H3 _], H4 as [H4 _].
  transitivity (if existsb (Ascii.eqb d) ["("; ")"; "["; "]"]%char
                then option_map (cons (Lit d)) (parse_regex r) else None);
    [reflexivity|].
  cbn [existsb]. rewrite Ascii.eqb_sym in H1, H2, H3, H4.
  now rewrite H1, H2, H3, H4.
Qed.

Lemma plain_cons : forall c s,
  plain (String c s) = true <-> bad_char c = false /\ plain s = true.
Proof.
  intros. unfold plain, bad_char. rewrite !negb_true_iff.
  cbn [existsb has_char]. rewrite !orb_false_iff.
  rewrite (Ascii.eqb_sym c "\"), (Ascii.eqb_sym c "^"),
    (Ascii.eqb_sym c "$"), (Ascii.eqb_sym c "."), (Ascii.eqb_sym c "{"),
    (Ascii.eqb_sym c "}"), (Ascii.eqb_sym c "|").
  tauto.
Qed.

Lemma parse_plain : forall p, plain p = true ->
  parse_regex (create_regex p) = Some (toks p).
Proof.
  induction p as [|c p IH]; intros H; [reflexivity|].
  apply plain_cons in H. destruct H as [A B].
  rewrite create_regex_cons, parse_char by assumption.
  now rewrite IH.
Qed.

Lemma dot_in_line : forall c, dot c = true <-> in_line c.
Proof.
  intros. unfold dot, in_line.
  rewrite andb_true_iff, !negb_true_iff, !Ascii.eqb_neq. tauto.
Qed.

Lemma star_spec : forall (r : string -> bool) s, star r s = true <->
  exists a b, s = a ++ b /\ every in_line a /\ r b = true.
Proof.
  intros r. induction s as [|c s IH]; cbn.
  - rewrite orb_false_r. split.
    + intros H. exists "", "". now cbn.
    + intros (a & b & E & _ & H). destruct a; [|discriminate].
      cbn in E. now subst.
  - rewrite orb_true_iff, andb_true_iff, IH, dot_in_line. split.
    + intros [H|[H (a & b & E & F & G)]].
      * exists "", (String c s). now cbn.
      * exists (String c a), b. subst. now cbn.
    + intros (a & b & E & F & G). destruct a as [|d a]; cbn in E.
      * left. now subst.
      * injection E as <- ->. destruct F as [F1 F2]. right. split; [easy|].
        now exists a, b.
Qed.

Lemma rmatch_glob : forall p s, rmatch (toks p) s = true <-> glob p s.
Proof.
  induction p as [|c p IH]; intros s.
  - cbn. destruct s; split; intros H; try easy; constructor.
  - cbn [toks]. unfold tok.
    destruct (Ascii.eqb_spec c "*") as [->|N1].
    { cbn [rmatch]. rewrite star_spec. split.
      - intros (a & b & -> & F & G). constructor; [easy|]. now apply IH.
      - intros H. inversion H; subst; try congruence.
        exists s0, t. split; [easy|]. split; [easy|]. now apply IH. }
    destruct (Ascii.eqb_spec c "?") as [->|N2].
    { cbn [rmatch]. rewrite orb_true_iff. split.
      - intros [H|H].
        + apply glob_opt_none. now apply IH.
        + destruct s as [|d s]; [discriminate|].
          apply andb_true_iff in H. destruct H as [A B].
          apply glob_opt_one; [now apply dot_in_line|now apply IH].
      - intros H. inversion H; subst; try congruence.
        + left. now apply IH.
        + right. apply andb_true_iff. split; [now apply dot_in_line|].
          now apply IH. }
    destruct (Ascii.eqb_spec c "+") as [->|N3].
    { cbn [rmatch]. split.
      - destruct s as [|d s]; [discriminate|]. rewrite andb_true_iff.
        intros [A B]. apply star_spec in B. destruct B as (a & b & -> & F & G).
        change (String d (a ++ b)) with (String d a ++ b).
        apply glob_plus; [easy|split; [now apply dot_in_line|easy]|].
        now apply IH.
      - intros H. inversion H; subst; try congruence.
        destruct s0 as [|d s0]; [congruence|].
        match goal with H : every _ (String _ _) |- _ =>
          destruct H as [E1 E2] end.
        cbn. apply andb_true_iff. split; [now apply dot_in_line|].
        apply star_spec. exists s0, t. split; [easy|]. split; [easy|].
        now apply IH. }
    cbn [rmatch]. destruct s as [|d s].
    + split; intros H; [discriminate|inversion H; subst; try congruence].
    + rewrite andb_true_iff, Ascii.eqb_eq, IH. split.
      * intros [-> H]. now constructor.
      * intros H. inversion H; subst; try congruence. easy.
Qed.

Lemma matches_glob : forall p s, plain p = true ->
  (matches p s = true <-> glob p s).
Proof.
  intros p s H. unfold matches. rewrite parse_plain by assumption.
  apply rmatch_glob.
Qed.

(** A name without wildcard characters matches itself at most. *)
Lemma create_regex_has : forall d p, existsb (Ascii.eqb d) ["("; ")"; "["; "]"]%char = true ->
  wild p = false -> has_char d (create_regex p) = false.
Proof.
  intros d. induction p as [|c p IH]; intros D W; [reflexivity|].
  rewrite create_regex_cons, has_char_app.
  assert (W2 : wild p = false).
  { apply wild_readable in W. apply wild_readable. apply W. }
  rewrite IH by assumption. rewrite orb_false_r.
  apply wild_readable in W. destruct W as [W _].
  assert (R : create_regex (String c "") = String c "").
  { revert W. destruct c as [b0 b1 b2 b3 b4 b5 b6 b7].
    destruct b0, b1, b2, b3, b4, b5, b6, b7; intros W; try reflexivity;
      exfalso; apply W; cbn; tauto. }
  rewrite R. cbn [has_char]. rewrite orb_false_r.
  destruct (Ascii.eqb_spec d c) as [->|]; [|easy].
  exfalso. apply W. cbn in D. rewrite !orb_true_iff, !Ascii.eqb_eq in D.
  cbn. intuition congruence.
Qed.

Lemma matches_exact : forall p s, wild p = false -> matches p s = true ->
  s = p.
Proof.
  intros p. unfold matches.
  induction p as [|c p IH]; intros s W H.
  - cbn in H. now destruct s.
  - assert (W2 : wild p = false).
    { apply wild_readable in W. apply wild_readable. apply W. }
    rewrite create_regex_cons in H.
    destruct (bad_char c) eqn:B.
    + rewrite parse_bad in H; [discriminate|exact B|..];
        apply create_regex_has; trivial.
    + rewrite parse_char in H by exact B.
      destruct (parse_regex (create_regex p)) as [its|] eqn:E;
        [|discriminate].
      cbn [option_map] in H.
      assert (T : tok c = Lit c).
      { apply wild_readable in W. destruct W as [W _]. unfold tok.
        destruct (Ascii.eqb_spec c "*") as [->|_];
          [exfalso; apply W; cbn; tauto|].
        destruct (Ascii.eqb_spec c "?") as [->|_];
          [exfalso; apply W; cbn; tauto|].
        destruct (Ascii.eqb_spec c "+") as [->|_];
          [exfalso; apply W; cbn; tauto|]. reflexivity. }
      rewrite T in H. cbn [rmatch] in H. destruct s as [|d s]; [discriminate|].
      apply andb_true_iff in H. destruct H as [A H].
      apply Ascii.eqb_eq in A. subst d. f_equal. now apply IH.
Qed.

Lemma glob_exact : forall p s, readable p -> glob p s -> s = p.
Proof.
  induction p as [|c p IH]; intros s R H.
  - now inversion H.
  - destruct R as [R1 R2].
    inversion H; subst; try (exfalso; apply R1; cbn; tauto).
    f_equal. now apply IH.
Qed.

(** ** Paths *)

Lemma next_name_free : forall s, free_of "." s -> next_name s = (s, None).
Proof.
  induction s as [|c s IH]; cbn; [reflexivity|]. intros [A B].
  apply Ascii.eqb_neq in A. rewrite A. now rewrite IH.
Qed.

Lemma next_name_dot : forall s r, free_of "." s ->
  next_name (s ++ String "." r) =
  (s, match r with EmptyString => None | _ => Some r end).
Proof.
  induction s as [|c s IH]; cbn; intros r; [reflexivity|]. intros [A B].
  apply Ascii.eqb_neq in A. rewrite A. now rewrite IH.
Qed.

Lemma length_app_s : forall a b,
  String.length (a ++ b) = (String.length a + String.length b)%nat.
Proof. induction a; cbn; intros; [reflexivity|]. now rewrite IHa. Qed.

Lemma join_nonempty : forall ns, ns <> [] ->
  Forall (fun n => n <> "" /\ free_of "." n) ns -> join ns <> "".
Proof.
  intros [|n [|m r]] N F; [easy|..]; inversion F; subst; cbn;
    destruct n; cbn; try easy; now destruct H1.
Qed.

Lemma split_join : forall ns f e, ns <> [] -> e = "" \/ e = "." ->
  Forall (fun n => n <> "" /\ free_of "." n) ns ->
  (String.length (join ns ++ e) <= f)%nat ->
  split_names f (join ns ++ e) = ns.
Proof.
  induction ns as [|n ns IH]; intros f e N E F L; [easy|].
  inversion F as [|? ? [Nn Fn] Fs]; subst.
  destruct f as [|f].
  { exfalso. rewrite length_app_s in L.
    assert (String.length (join (n :: ns)) = 0%nat) by lia.
    pose proof (join_nonempty (n :: ns) N F).
    destruct (join (n :: ns)); [easy|discriminate]. }
  destruct ns as [|m ns].
  - cbn [join]. cbn [split_names]. destruct E as [->| ->].
    + rewrite app_nil_s, next_name_free by assumption. reflexivity.
    + rewrite next_name_dot by assumption. reflexivity.
  - change (join (n :: m :: ns)) with (n ++ String "." (join (m :: ns))) in *.
    rewrite app_assoc_s in *. cbn [append String.append] in *.
    cbn [split_names]. rewrite next_name_dot by assumption.
    assert (J : join (m :: ns) ++ e <> "").
    { pose proof (join_nonempty (m :: ns)) as J.
      destruct (join (m :: ns)); [now exfalso; apply J|easy]. }
    rewrite length_app_s in L. cbn [String.length] in L.
    destruct (join (m :: ns) ++ e) eqn:Q; [easy|]. rewrite <- Q in *.
    f_equal. apply IH; try easy. lia.
Qed.

Lemma names_spelled : forall path ns, spells path ns -> names_of path = ns.
Proof.
  intros path ns [F [E|[N E]]].
  - destruct ns as [|n ns]; [now subst|].
    assert (J : join (n :: ns) <> "") by now apply join_nonempty.
    unfold names_of. destruct path eqn:P; [congruence|]. rewrite <- P in *.
    rewrite E. rewrite <- (app_nil_s (join (n :: ns))).
    apply split_join; auto. easy.
  - unfold names_of. destruct path eqn:P.
    { destruct (join ns); discriminate. }
    rewrite <- P in *. rewrite E. apply split_join; auto.
Qed.

Lemma next_name_inv : forall s a o, next_name s = (a, o) ->
  free_of "." a /\
  match o with
  | Some r => s = a ++ String "." r /\ r <> ""
  | None => s = a \/ s = a ++ "."
  end.
Proof.
  induction s as [|c s IH]; cbn; intros a o E.
  - injection E as <- <-. cbn. auto.
  - destruct (Ascii.eqb_spec c ".") as [->|N].
    + injection E as <- <-. split; [now cbn|]. destruct s; cbn; auto.
      split; easy.
    + destruct (next_name s) as [a' o'] eqn:Q. injection E as <- <-.
      destruct (IH a' o' eq_refl) as [F G]. split; [split; easy|].
      destruct o'; cbn.
      * destruct G as [-> G]. easy.
      * destruct G as [->| ->]; auto.
Qed.

Lemma split_spelled : forall f s, (String.length s <= f)%nat -> s <> "" ->
  Forall (fun n => n <> "") (split_names f s) ->
  Forall (fun n => n <> "" /\ free_of "." n) (split_names f s) /\
  split_names f s <> [] /\
  (s = join (split_names f s) \/ s = join (split_names f s) ++ ".").
Proof.
  induction f as [|f IH]; intros s L N F.
  - destruct s; [easy|cbn in L; lia].
  - cbn [split_names] in *. destruct (next_name s) as [a o] eqn:Q.
    destruct (next_name_inv _ _ _ Q) as [G1 G2].
    inversion F as [|? ? Na Fr]; subst.
    destruct o as [r|].
    + destruct G2 as [E R].
      assert (Lr : (String.length r <= f)%nat).
      { rewrite E in L. rewrite length_app_s in L. cbn in L.
        destruct a; [easy|]. cbn in L. lia. }
      destruct (IH r Lr R Fr) as (A & B & D).
      split; [constructor; easy|]. split; [easy|].
      destruct (split_names f r) as [|m ns] eqn:S2; [easy|].
      change (join (a :: m :: ns)) with (a ++ String "." (join (m :: ns))).
      rewrite E. destruct D as [D|D].
      * left. now rewrite <- D.
      * right. rewrite app_assoc_s. cbn [String.append]. now rewrite <- D.
    + split; [repeat constructor; easy|]. split; [easy|]. exact G2.
Qed.

Lemma names_good : forall path, Forall (fun n => n <> "") (names_of path) ->
  spells path (names_of path).
Proof.
  intros path F. unfold names_of in *. destruct path as [|c s] eqn:P.
  - split; [constructor|now left].
  - rewrite <- P in *.
    destruct (split_spelled (String.length path) path) as (A & B & D);
      [lia|now rewrite P|exact F|].
    split; [exact A|]. destruct D as [D|D]; [now left|right; now split].
Qed.

Lemma names_free : forall f s,
  Forall (fun n => free_of "." n) (split_names f s).
Proof.
  induction f as [|f IH]; intros s; cbn; [constructor|].
  destruct (next_name s) as [a o] eqn:Q.
  destruct (next_name_inv _ _ _ Q) as [G1 _].
  constructor; [exact G1|]. destruct o; [apply IH|constructor].
Qed.

(** ** Values in a tree *)

Fixpoint first_some {A B} (f : A -> option B) (l : list A) : option B :=
  match l with
  | [] => None
  | x :: r => match f x with Some y => Some y | None => first_some f r end
  end.

Lemma first_some_app : forall A B (f : A -> option B) l1 l2,
  first_some f (l1 ++ l2) =
  match first_some f l1 with Some y => Some y | None => first_some f l2 end.
Proof.
  induction l1; cbn; intros; [reflexivity|]. destruct (f a); auto.
Qed.

Lemma first_some_none : forall A B (f : A -> option B) l,
  (forall x, In x l -> f x = None) -> first_some f l = None.
Proof.
  induction l; cbn; intros H; [reflexivity|]. rewrite H by auto. auto.
Qed.

(** The value of the first node, newest first, that matches a path. *)
Fixpoint look (q : list string) (n : node) : option (string * string) :=
  match q with
  | [] => n_val n
  | c :: q' =>
      first_some (fun k => if matches (n_name k) c then look q' k else None)
        (n_kids n)
  end.

Fixpoint coverb (ps q : list string) : bool :=
  match ps, q with
  | [], [] => true
  | p :: ps', c :: q' => matches p c && coverb ps' q'
  | _, _ => false
  end.

Lemma coverb_covers : forall ps q, Forall (fun n => plain n = true) ps ->
  (coverb ps q = true <-> covers ps q).
Proof.
  unfold covers.
  induction ps as [|p ps IH]; intros [|c q] F; cbn; split; intros H;
    try easy; try (now inversion H).
  - apply andb_true_iff in H. destruct H as [A B].
    inversion F; subst. constructor; [now apply matches_glob|now apply IH].
  - inversion F; inversion H; subst. apply andb_true_iff. split.
    + now apply matches_glob.
    + now apply IH.
Qed.

Lemma priority_some : forall nm kids i j,
  priority_match nm kids i = Some j ->
  exists l1 k l2, kids = (l1 ++ k :: l2)%list /\ j = (i + List.length l1)%nat /\
    n_name k = nm /\
    forall x c, In x l1 -> matches nm c = true ->
      matches (n_name x) c = false.
Proof.
  induction kids as [|k kids IH]; intros i j E; [discriminate|].
  cbn in E. destruct (String.eqb_spec (n_name k) nm) as [En|Nn].
  - injection E as <-. exists [], k, kids. cbn. split; [easy|]. split; [lia|]. split; [easy|easy].
  - assert (G : priority_match nm kids (Datatypes.S i) = Some j /\
                forall c, matches nm c = true -> matches (n_name k) c = false).
    { destruct (wild nm) eqn:W.
      - destruct (wild (n_name k)) eqn:Wk; [discriminate E|].
        destruct (matches nm (n_name k)) eqn:M; [discriminate E|].
        split; [exact E|]. intros c Hc.
        destruct (matches (n_name k) c) eqn:Mk; [|reflexivity].
        apply matches_exact in Mk; [|exact Wk]. congruence.
      - destruct (matches (n_name k) nm) eqn:M; [discriminate E|].
        split; [exact E|]. intros c Hc.
        apply matches_exact in Hc; [|exact W]. now subst. }
    destruct G as [G1 G2].
    destruct (IH _ _ G1) as (l1 & k' & l2 & -> & -> & En & D).
    exists (k :: l1), k', l2. cbn. split; [easy|]. split; [lia|]. split; [easy|].
    intros x c [<-|Hx] Hc; eauto.
Qed.

Lemma priority_zero : forall nm kids j,
  priority_match nm kids 0 = Some j ->
  exists l1 k l2, kids = (l1 ++ k :: l2)%list /\ j = List.length l1 /\
    n_name k = nm /\
    forall x c, In x l1 -> matches nm c = true ->
      matches (n_name x) c = false.
Proof. intros. now apply priority_some in H. Qed.

Lemma nth_app_mid : forall A (l1 l2 : list A) k,
  nth_error (l1 ++ k :: l2) (List.length l1) = Some k.
Proof. induction l1; cbn; auto. Qed.

Lemma upd_app_mid : forall f l1 l2 k,
  upd (List.length l1) f (l1 ++ k :: l2) = (l1 ++ f k :: l2)%list.
Proof. induction l1; cbn; intros; [reflexivity|]. now rewrite IHl1. Qed.

Lemma with_kids_name : forall n k, n_name (with_kids n k) = n_name n.
Proof. now destruct n. Qed.
Lemma with_kids_val : forall n k, n_val (with_kids n k) = n_val n.
Proof. now destruct n. Qed.
Lemma with_kids_kids : forall n k, n_kids (with_kids n k) = k.
Proof. now destruct n. Qed.
Lemma with_kids_kids2 : forall n k k', with_kids (with_kids n k) k' = with_kids n k'.
Proof. now destruct n. Qed.
Lemma set_value_name : forall v r o n, n_name (set_value v r o n) = n_name n.
Proof. now destruct n. Qed.
Lemma set_value_kids : forall v r o n, n_kids (set_value v r o n) = n_kids n.
Proof. now destruct n. Qed.
Lemma set_value_val : forall v r o n, n_val (set_value v r o n) = Some (v, o).
Proof. now destruct n. Qed.

Lemma upd_at_name : forall p f n,
  (forall x, n_name (f x) = n_name x) -> n_name (upd_at p f n) = n_name n.
Proof.
  intros [|i p] f n H; cbn; [apply H|apply with_kids_name].
Qed.

(** What create leaves of the tree, cut along its way. *)
Inductive created (req : bool) : list string -> node -> node -> made -> Prop :=
| cr_end n : created req [] n n (Got [])
| cr_empty rest n : created req ("" :: rest) n n NoNode
| cr_unmod nm rest n :
    nm <> "" -> plain nm = false -> created req (nm :: rest) n n Unmodelled
| cr_again nm rest n l1 k l2 k' m :
    nm <> "" -> plain nm = true ->
    n_kids n = (l1 ++ k :: l2)%list -> n_name k = nm ->
    (forall x c, In x l1 -> matches nm c = true ->
      matches (n_name x) c = false) ->
    created req rest k k' m ->
    priority_match nm (n_kids n) 0 = Some (List.length l1) ->
    created req (nm :: rest) n (with_kids n (l1 ++ k' :: l2))
      (below (List.length l1) m)
| cr_full nm rest n :
    nm <> "" -> plain nm = true -> priority_match nm (n_kids n) 0 = None ->
    has_value n = true -> created req (nm :: rest) n n Failed
| cr_new nm rest n k k' m :
    nm <> "" -> plain nm = true -> priority_match nm (n_kids n) 0 = None ->
    has_value n = false ->
    k = (if req then inc_required (fresh nm) else fresh nm) ->
    created req rest k k' m ->
    created req (nm :: rest) n (with_kids n (k' :: n_kids n)) (below 0 m).

Lemma create_created : forall names req n n' m,
  create names req n = (n', m) -> created req names n n' m.
Proof.
  induction names as [|nm rest IH]; intros req n n' m E; cbn [create] in E.
  - injection E as <- <-. constructor.
  - destruct (String.eqb_spec nm "") as [->|N].
    { injection E as <- <-. constructor. }
    destruct (plain nm) eqn:P; cbn [negb] in E.
    2: { injection E as <- <-. now constructor. }
    destruct (priority_match nm (n_kids n) 0) as [j|] eqn:Q.
    + destruct (priority_zero _ _ _ Q) as (l1 & k & l2 & K & -> & En & D).
      rewrite K, nth_app_mid in E.
      destruct (create rest req k) as [k' m'] eqn:C.
      injection E as <- <-. rewrite upd_app_mid.
      eapply cr_again; eauto.
    + destruct (has_value n) eqn:V.
      { injection E as <- <-. now constructor. }
      destruct (create rest req (if req then inc_required (fresh nm)
                                 else fresh nm)) as [k' m'] eqn:C.
      injection E as <- <-. eapply cr_new; eauto.
Qed.

Lemma created_name : forall req names n n' m,
  created req names n n' m -> n_name n' = n_name n.
Proof. induction 1; rewrite ?with_kids_name; auto. Qed.

Lemma created_val : forall req names n n' m,
  created req names n n' m -> n_val n' = n_val n.
Proof. induction 1; rewrite ?with_kids_val; auto. Qed.

Lemma new_kid_name : forall (req : bool) (nm : string),
  n_name (if req then inc_required (fresh nm) else fresh nm) = nm.
Proof. now destruct req. Qed.

Lemma look_new : forall (req : bool) (nm : string) (q : list string),
  look q (if req then inc_required (fresh nm) else fresh nm) = None.
Proof. intros [] nm [|c q]; reflexivity. Qed.

Lemma created_look : forall req names n n' m,
  created req names n n' m -> forall q, look q n' = look q n.
Proof.
  induction 1; intros q; auto.
  - destruct q as [|c q]; cbn [look]; [apply with_kids_val|].
    rewrite with_kids_kids, H1, !first_some_app. cbn [first_some].
    rewrite IHcreated, (created_name _ _ _ _ _ H4). reflexivity.
  - destruct q as [|c q]; cbn [look]; [apply with_kids_val|].
    rewrite with_kids_kids. cbn [first_some].
    rewrite IHcreated, H3, look_new.
    now destruct (matches (n_name k') c).
Qed.

Lemma created_set : forall req names n n' m,
  created req names n n' m -> forall p v r o q, m = Got p ->
  look q (upd_at p (set_value v r o) n') =
  if coverb names q then Some (v, o) else look q n.
Proof.
  induction 1; intros p v r o q M; try discriminate.
  - injection M as <-. cbn [upd_at]. destruct q; cbn [look coverb].
    + apply set_value_val.
    + now rewrite set_value_kids.
  - destruct m; try discriminate. injection M as <-.
    cbn [upd_at]. rewrite with_kids_kids, upd_app_mid, with_kids_kids2.
    destruct q as [|c q]; cbn [look coverb].
    { now rewrite with_kids_val. }
    rewrite with_kids_kids, H1, !first_some_app. cbn [first_some].
    rewrite upd_at_name by apply set_value_name.
    rewrite (created_name _ _ _ _ _ H4), H2.
    rewrite (IHcreated p0 v r o q eq_refl).
    destruct (matches nm c) eqn:Mc; cbn [andb]; [|reflexivity].
    rewrite first_some_none.
    + now destruct (coverb rest q).
    + intros x Hx. now rewrite (H3 x c Hx Mc).
  - destruct m; try discriminate. injection M as <-.
    cbn [upd_at]. rewrite with_kids_kids, with_kids_kids2. cbn [upd].
    destruct q as [|c q]; cbn [look coverb].
    { now rewrite with_kids_val. }
    rewrite with_kids_kids. cbn [first_some].
    rewrite upd_at_name by apply set_value_name.
    rewrite (created_name _ _ _ _ _ H4), H3, new_kid_name.
    rewrite (IHcreated p0 v r o q eq_refl), H3, look_new.
    destruct (matches nm c) eqn:Mc; cbn [andb]; [|reflexivity].
    now destruct (coverb rest q).
Qed.

Lemma created_plain : forall req names n n' m,
  created req names n n' m -> forall p, m = Got p ->
  Forall (fun x => x <> "" /\ plain x = true) names.
Proof.
  induction 1; intros p M; try discriminate; try constructor; auto;
    destruct m; try discriminate; eauto.
Qed.

(** ** Reading leaves the values alone *)

Fixpoint strip (n : node) : node :=
  let 'Node a v _ _ _ k := n in Node a v 0 0 0 (map strip k).

Lemma strip_name : forall n, n_name (strip n) = n_name n.
Proof. now destruct n. Qed.
Lemma strip_val : forall n, n_val (strip n) = n_val n.
Proof. now destruct n. Qed.
Lemma strip_kids : forall n, n_kids (strip n) = map strip (n_kids n).
Proof. now destruct n. Qed.
Lemma strip_with : forall n k, map strip k = map strip (n_kids n) ->
  strip (with_kids n k) = strip n.
Proof. destruct n; cbn. intros k ->. reflexivity. Qed.
Lemma strip_inc : forall n, strip (inc_read n) = strip n.
Proof. now destruct n. Qed.

Lemma first_some_map : forall A B D (g : A -> B) (f : B -> option D) l,
  first_some f (map g l) = first_some (fun x => f (g x)) l.
Proof. induction l; cbn; [reflexivity|]. now rewrite IHl. Qed.

Lemma first_some_ext : forall A B (f g : A -> option B) l,
  (forall x, f x = g x) -> first_some f l = first_some g l.
Proof. induction l; cbn; intros H; [reflexivity|]. now rewrite H, IHl. Qed.

Lemma look_strip : forall q n, look q (strip n) = look q n.
Proof.
  induction q as [|c q IH]; intros n; cbn [look].
  - apply strip_val.
  - rewrite strip_kids, first_some_map. apply first_some_ext.
    intros k. now rewrite strip_name, IH.
Qed.

Lemma strip_look : forall a b, strip a = strip b -> forall q, look q a = look q b.
Proof. intros a b E q. now rewrite <- (look_strip q a), E, look_strip. Qed.

Lemma map_upd : forall i f l, (forall x, strip (f x) = strip x) ->
  map strip (upd i f l) = map strip l.
Proof.
  intros i f l H. revert i. induction l; intros [|i]; cbn; auto.
  - now rewrite H.
  - now rewrite IHl.
Qed.

Lemma strip_upd_at : forall p f n, (forall x, strip (f x) = strip x) ->
  strip (upd_at p f n) = strip n.
Proof.
  induction p as [|i p IH]; intros f n H; cbn [upd_at]; [apply H|].
  apply strip_with. apply map_upd. intros. now apply IH.
Qed.

Lemma last_loop_strip : forall leaf nm kids k r,
  last_loop leaf nm kids = (k, r) -> map strip k = map strip kids.
Proof.
  induction kids as [|x kids IH]; intros k r E; cbn in E.
  - now injection E as <- <-.
  - destruct (last_loop leaf nm kids) as [r' [res bak]].
    specialize (IH _ _ eq_refl).
    destruct (matches (n_name x) nm); [destruct (has_value x || negb leaf)|];
      injection E as <- <-; cbn; rewrite ?strip_inc, IH; reflexivity.
Qed.

Lemma mid_loop_strip : forall f leaf nm,
  (forall n n' g, f n = (n', g) -> strip n' = strip n) ->
  forall kids k g, mid_loop f leaf nm kids = (k, g) ->
  map strip k = map strip kids.
Proof.
  intros f leaf nm Hf.
  induction kids as [|x kids IH]; intros k g E; cbn in E.
  - now injection E as <- <-.
  - destruct (matches (n_name x) nm).
    + destruct (f x) as [k1 g1] eqn:F. apply Hf in F.
      destruct g1 as [m| |].
      * match type of E with (let '(_, _) := ?X in _) = _ =>
          assert (S2 : strip (fst X) = strip k1) end.
        { destruct m as [p|]; [|reflexivity].
          match goal with |- context [if ?b then _ else _] => destruct b end;
            [|reflexivity]. cbn. apply strip_upd_at, strip_inc. }
        match type of E with (let '(_, _) := ?X in _) = _ =>
          destruct X as [k2 hit] end.
        destruct (mid_loop f leaf nm kids) as [r' g'].
        injection E as <- _. cbn. cbn in S2. rewrite S2, F.
        now rewrite (IH _ _ eq_refl).
      * injection E as <- <-. cbn. now rewrite F.
      * injection E as <- <-. cbn. now rewrite F.
    + destruct (mid_loop f leaf nm kids) as [r' g'].
      injection E as <- _. cbn. now rewrite (IH _ _ eq_refl).
Qed.

Lemma recurs_strip : forall leaf names n n' g,
  recurs_try_get leaf names n = (n', g) -> strip n' = strip n.
Proof.
  induction names as [|nm rest IH]; intros n n' g E; cbn in E.
  - now injection E as <- <-.
  - destruct (wild nm); [now injection E as <- <-|].
    destruct rest as [|nm2 rest].
    + destruct (last_loop leaf nm (n_kids n)) as [k [res bak]] eqn:L.
      injection E as <- <-. apply strip_with.
      eapply last_loop_strip; eauto.
    + destruct (String.eqb nm2 ""); [now injection E as <- <-|].
      destruct (mid_loop (recurs_try_get leaf (nm2 :: rest)) leaf nm
                  (n_kids n)) as [k g'] eqn:L.
      injection E as <- <-. apply strip_with.
      eapply mid_loop_strip; eauto.
Qed.

Lemma try_strip : forall t path leaf t' g,
  try_get t path leaf = (t', g) -> strip t' = strip t.
Proof.
  intros t path leaf t' g E. unfold try_get in E.
  destruct (names_of path) as [|nm rest]; [now injection E as <- <-|].
  destruct (String.eqb nm ""); [now injection E as <- <-|].
  eapply recurs_strip; eauto.
Qed.

Fixpoint node_size (n : node) : nat :=
  let 'Node _ _ _ _ _ k := n in
  Datatypes.S (fold_right (fun x s => (node_size x + s)%nat) 0%nat k).

Lemma node_ind' : forall P : node -> Prop,
  (forall a v w r q k, Forall P k -> P (Node a v w r q k)) ->
  forall n, P n.
Proof.
  intros P H. fix IH 1. intros [a v w r q k]. apply H.
  induction k as [|x k IHk]; constructor; [apply IH|exact IHk].
Qed.

Lemma strip_unrequire : forall n, strip (node_unrequire n) = strip n.
Proof.
  induction n as [a v w r q k F] using node_ind'. cbn. f_equal.
  rewrite map_map. induction F as [|x k Hx F IH]; cbn; [reflexivity|].
  now rewrite Hx, IH.
Qed.

Lemma unrequire_strip : forall t path t' b,
  tree_unrequire t path = (t', b) -> strip t' = strip t.
Proof.
  intros t path t' b E. unfold tree_unrequire in E.
  destruct (try_get t path false) as [t1 g] eqn:T. apply try_strip in T.
  destruct g as [[p|]| |]; injection E as <- <-; auto.
  rewrite strip_upd_at; auto using strip_unrequire.
Qed.

(** ** Reading delivers the newest value *)

Definition val_at (p : list nat) (n : node) : option (option (string * string)) :=
  option_map n_val (node_at p n).

Lemma last_loop_spec : forall nm kids k res bak,
  last_loop true nm kids = (k, (res, bak)) ->
  match first_some (fun x => if matches (n_name x) nm then n_val x else None)
          kids with
  | Some v => exists i x, res = Some i /\ nth_error k i = Some x /\
                n_val x = Some v
  | None => res = None /\
            forall i, bak = Some i -> exists x, nth_error k i = Some x /\
                n_val x = None
  end.
Proof.
  intros nm. induction kids as [|x kids IH]; intros k res bak E; cbn in E.
  - injection E as <- <- <-. cbn. split; [easy|]. intros i H. discriminate.
  - destruct (last_loop true nm kids) as [r' [res' bak']].
    specialize (IH _ _ _ eq_refl). cbn [first_some].
    destruct (matches (n_name x) nm).
    + unfold has_value in E. destruct (n_val x) as [v|] eqn:V; cbn in E.
      * injection E as <- <- <-. exists 0%nat, (inc_read x).
        repeat split. now destruct x.
      * injection E as <- <- <-.
        destruct (first_some _ kids) as [v|].
        -- destruct IH as (i & y & -> & A & B).
           exists (Datatypes.S i), y. auto.
        -- destruct IH as [-> B]. split; [easy|].
           intros i H. injection H as <-. now exists x.
    + injection E as <- <- <-. destruct (first_some _ kids) as [v|].
      * destruct IH as (i & y & -> & A & B).
        exists (Datatypes.S i), y. auto.
      * destruct IH as [-> B]. split; [easy|].
        intros i H. destruct bak' as [j|]; [|discriminate].
        injection H as <-. cbn. auto.
Qed.

Lemma node_at_upd_same : forall p f n x, node_at p n = Some x ->
  (forall y, n_kids (f y) = n_kids y) ->
  node_at p (upd_at p f n) = Some (f x).
Proof.
  induction p as [|i p IH]; intros f n x E K; cbn in *.
  - now injection E as ->.
  - rewrite with_kids_kids.
    destruct (nth_error (n_kids n) i) as [k|] eqn:Q; [|discriminate].
    assert (U : nth_error (upd i (upd_at p f) (n_kids n)) i =
                Some (upd_at p f k)).
    { clear - Q. revert i Q. induction (n_kids n); intros [|i] Q;
        try discriminate; cbn in *; [now injection Q as ->|auto]. }
    rewrite U. auto.
Qed.

Definition hit_spec (look_v : option (string * string)) (n' : node) (g : got)
  : Prop :=
  match look_v with
  | Some v => exists p x, g = Found (Some p) /\ node_at p n' = Some x /\
                n_val x = Some v
  | None => g = Found None \/
            exists p x, g = Found (Some p) /\ node_at p n' = Some x /\
                n_val x = None
  end.

Lemma next_kid_found : forall i p, next_kid (Found (Some (i :: p))) =
  Found (Some (Datatypes.S i :: p)).
Proof. reflexivity. Qed.

Lemma mid_loop_spec : forall f nm (L : node -> option (string * string)),
  (forall n n' g, f n = (n', g) -> hit_spec (L n) n' g) ->
  forall kids k g, mid_loop f true nm kids = (k, g) ->
  match first_some (fun x => if matches (n_name x) nm then L x else None)
          kids with
  | Some v => exists i p x y, g = Found (Some (i :: p)) /\
                nth_error k i = Some y /\ node_at p y = Some x /\
                n_val x = Some v
  | None => g = Found None
  end.
Proof.
  intros f nm L Hf. induction kids as [|x kids IH]; intros k g E; cbn in E.
  - now injection E as <- <-.
  - cbn [first_some]. destruct (matches (n_name x) nm).
    + destruct (f x) as [k1 g1] eqn:F. apply Hf in F. unfold hit_spec in F.
      destruct (L x) as [v|].
      * destruct F as (p & y & -> & A & B). rewrite A in E.
        unfold has_value in E. rewrite B in E. cbn in E.
        destruct (mid_loop f true nm kids) as [r' g'].
        assert (G : exists m, g' = Found m).
        { specialize (IH _ _ eq_refl). destruct (first_some _ kids).
          - destruct IH as (? & ? & ? & ? & -> & _). eauto.
          - eauto. }
        destruct G as [m ->]. injection E as <- <-.
        exists 0%nat, p, (inc_read y), (upd_at p inc_read k1).
        split; [reflexivity|]. split; [reflexivity|]. split.
        -- apply node_at_upd_same; [exact A|]. now intros [].
        -- now destruct y.
      * assert (G : match mid_loop f true nm kids with (r', g') =>
                 k = k1 :: r' /\ g = match g' with
                             | Found res => next_kid (Found res)
                             | _ => g' end end).
        { destruct F as [->|(p & y & -> & A & B)].
          - destruct (mid_loop f true nm kids) as [r' g'].
            injection E as <- <-. auto.
          - rewrite A in E. unfold has_value in E. rewrite B in E. cbn in E.
            destruct (mid_loop f true nm kids) as [r' g'].
            injection E as <- <-. auto. }
        destruct (mid_loop f true nm kids) as [r' g'].
        specialize (IH _ _ eq_refl). destruct G as [-> ->].
        destruct (first_some _ kids) as [v|].
        -- destruct IH as (i & p & z & y & -> & A & B & D).
           exists (Datatypes.S i), p, z, y. auto.
        -- now rewrite IH.
    + destruct (mid_loop f true nm kids) as [r' g'].
      specialize (IH _ _ eq_refl). injection E as <- <-.
      destruct (first_some _ kids) as [v|].
      * destruct IH as (i & p & z & y & -> & A & B & D).
        exists (Datatypes.S i), p, z, y. auto.
      * now rewrite IH.
Qed.

Lemma recurs_hit : forall names n n' g,
  names <> [] -> Forall (fun x => x <> "" /\ wild x = false) names ->
  recurs_try_get true names n = (n', g) -> hit_spec (look names n) n' g.
Proof.
  induction names as [|nm rest IH]; intros n n' g N F E; [easy|].
  inversion F as [|? ? [Ne W] Fr]; subst. cbn in E. rewrite W in E.
  destruct rest as [|nm2 rest].
  - destruct (last_loop true nm (n_kids n)) as [k [res bak]] eqn:L.
    apply last_loop_spec in L. injection E as <- <-. unfold hit_spec.
    cbn [look].
    destruct (first_some _ (n_kids n)) as [v|].
    + destruct L as (i & x & -> & A & B). exists [i], x.
      split; [reflexivity|]. cbn [node_at]. rewrite with_kids_kids, A. auto.
    + destruct L as [-> L]. destruct bak as [i|]; [|now left]. right.
      destruct (L i eq_refl) as (x & A & B). exists [i], x.
      split; [reflexivity|]. cbn [node_at]. rewrite with_kids_kids, A. auto.
  - inversion Fr as [|? ? [Ne2 _] _]; subst.
    apply String.eqb_neq in Ne2. rewrite Ne2 in E.
    destruct (mid_loop (recurs_try_get true (nm2 :: rest)) true nm (n_kids n))
      as [k g'] eqn:L.
    injection E as <- <-.
    apply (mid_loop_spec _ nm (look (nm2 :: rest))) in L.
    2: { intros. apply IH; auto. easy. }
    unfold hit_spec. cbn [look] in *.
    destruct (first_some _ (n_kids n)) as [v|].
    + destruct L as (i & p & x & y & -> & A & B & D).
      exists (i :: p), x. split; [reflexivity|]. cbn [node_at].
      rewrite with_kids_kids, A. auto.
    + now left.
Qed.

Lemma try_hit : forall t path ns t' g,
  spells path ns -> Forall (fun x => wild x = false) ns ->
  try_get t path true = (t', g) -> hit_spec (look ns t) t' g.
Proof.
  intros t path ns t' g S W E. unfold try_get in E.
  rewrite (names_spelled _ _ S) in E. destruct S as [S _].
  destruct ns as [|n ns].
  - injection E as <- <-. unfold hit_spec. cbn [look].
    destruct (n_val t) eqn:V; [|right]; exists [], t; auto.
  - inversion S as [|? ? [Ne _] _]; subst.
    destruct (String.eqb_spec n ""); [easy|].
    apply recurs_hit; auto; [easy|].
    clear - S W. induction S as [|? ? [A _] S IH]; constructor;
      inversion W; subst; auto.
Qed.

(** ** Histories *)

Lemma do_call_look : forall t c t' r, do_call t c = (t', r) ->
  forall q, look q t' =
    match c, r with
    | CSet path v _ o, RSet SetTrue =>
        if coverb (names_of path) q then Some (v, o) else look q t
    | _, _ => look q t
    end.
Proof.
  intros t c t' r E q. destruct c as [path v rq o|path rq|path leaf|path];
    cbn [do_call] in E.
  - unfold tree_set in E.
    destruct (create (names_of path) false t) as [t1 m] eqn:C.
    apply create_created in C.
    destruct m; injection E as <- <-;
      [now apply (created_set _ _ _ _ _ C)| | |];
      now apply (created_look _ _ _ _ _ C).
  - destruct (create (names_of path) rq t) as [t1 m] eqn:C.
    apply create_created in C. injection E as <- <-.
    now apply (created_look _ _ _ _ _ C).
  - destruct (try_get t path leaf) as [t1 g] eqn:C. injection E as <- <-.
    now apply strip_look, (try_strip _ _ _ _ _ C).
  - destruct (tree_unrequire t path) as [t1 g] eqn:C. injection E as <- <-.
    now apply strip_look, (unrequire_strip _ _ _ _ C).
Qed.

Lemma do_calls_app : forall a b cs t t',
  do_calls t cs = (t', (a ++ b)%list) ->
  exists c1 c2 t1, cs = (c1 ++ c2)%list /\ do_calls t c1 = (t1, a) /\
    do_calls t1 c2 = (t', b).
Proof.
  induction a as [|x a IH]; intros b cs t t' E.
  - exists [], cs, t. auto.
  - destruct cs as [|c cs]; cbn in E; [discriminate|].
    destruct (do_call t c) as [t1 r] eqn:D.
    destruct (do_calls t1 cs) as [t2 l] eqn:R. injection E as <- <- ->.
    destruct (IH _ _ _ _ R) as (c1 & c2 & t3 & -> & A & B).
    exists (c :: c1), c2, t3. cbn. rewrite D, A. auto.
Qed.

Lemma do_calls_cons : forall x b cs t t',
  do_calls t cs = (t', x :: b) ->
  exists cs' t1, do_call t (fst x) = (t1, snd x) /\
    do_calls t1 cs' = (t', b).
Proof.
  intros [c r] b [|c' cs] t t' E; cbn in E; [discriminate|].
  destruct (do_call t c') as [t1 r'] eqn:D.
  destruct (do_calls t1 cs) as [t2 l] eqn:R. injection E as <- <- <- <-.
  exists cs, t1. auto.
Qed.

Lemma set_true_names : forall t path v rq o t',
  do_call t (CSet path v rq o) = (t', RSet SetTrue) ->
  spells path (names_of path) /\
  Forall (fun n => plain n = true) (names_of path).
Proof.
  intros t path v rq o t' E. cbn [do_call] in E. unfold tree_set in E.
  destruct (create (names_of path) false t) as [t1 m] eqn:C.
  apply create_created in C. destruct m; try discriminate.
  pose proof (created_plain _ _ _ _ _ C p eq_refl) as F.
  split.
  - apply names_good. clear - F. induction F as [|? ? [] ? IH]; auto.
  - clear - F. induction F as [|? ? [] ? IH]; auto.
Qed.

(** No setting of a history covers a path: the value found there is the one
    found before. *)
Lemma calls_look_none : forall evs cs t t' q,
  do_calls t cs = (t', evs) ->
  (forall path v rq o ps, In (CSet path v rq o, RSet SetTrue) evs ->
     spells path ps -> ~ covers ps q) ->
  look q t' = look q t.
Proof.
  induction evs as [|[c r] evs IH]; intros cs t t' q E H.
  - destruct cs as [|c cs]; cbn in E; [now injection E as <-|].
    destruct (do_call t c). destruct (do_calls n cs). discriminate.
  - destruct (do_calls_cons _ _ _ _ _ E) as (cs' & t1 & D & R).
    cbn in D. rewrite (IH _ _ _ q R).
    2: { intros path v rq o ps I. apply (H path v rq o ps). now right. }
    pose proof (do_call_look _ _ _ _ D q) as L. rewrite L.
    destruct c as [path v rq o|path rq|path leaf|path]; try reflexivity.
    destruct r as [s| | |]; try reflexivity. destruct s; try reflexivity.
    destruct (set_true_names _ _ _ _ _ _ D) as [S P].
    destruct (coverb (names_of path) q) eqn:B; [|reflexivity].
    exfalso. apply (H path v rq o (names_of path)); auto; [now left|].
    now apply coverb_covers.
Qed.

(** ** Where values sit *)

Fixpoint valued (ps : list string) (n : node) : Prop :=
  match ps with
  | [] => n_val n <> None
  | p :: ps' => exists k, In k (n_kids n) /\ n_name k = p /\ valued ps' k
  end.

Lemma valued_strip : forall ps n, valued ps (strip n) <-> valued ps n.
Proof.
  induction ps as [|p ps IH]; intros n; cbn.
  - now rewrite strip_val.
  - rewrite strip_kids. split.
    + intros (k & I & N & V). apply in_map_iff in I.
      destruct I as (x & <- & I). exists x. rewrite strip_name in N.
      rewrite IH in V. auto.
    + intros (k & I & N & V). exists (strip k).
      rewrite strip_name, IH. split; [now apply in_map|auto].
Qed.

Lemma strip_valued : forall a b, strip a = strip b ->
  forall ps, valued ps a <-> valued ps b.
Proof. intros a b E ps. now rewrite <- (valued_strip ps a), E, valued_strip. Qed.

Lemma valued_new : forall (req : bool) nm ps,
  ~ valued ps (if req then inc_required (fresh nm) else fresh nm).
Proof.
  intros req nm [|p ps] H; destruct req; cbn in H; try congruence;
    destruct H as (k & [] & _).
Qed.

Lemma created_valued : forall req names n n' m,
  created req names n n' m -> forall ps, valued ps n' -> valued ps n.
Proof.
  induction 1; intros ps V; auto.
  - destruct ps as [|p ps]; cbn [valued] in V |- *; [now rewrite with_kids_val in V|].
    rewrite with_kids_kids in V. destruct V as (x & I & N & V).
    rewrite H1. apply in_app_iff in I. destruct I as [I|[<-|I]].
    + exists x. split; [apply in_app_iff; auto|auto].
    + exists k. split; [apply in_app_iff; cbn; auto|].
      rewrite <- (created_name _ _ _ _ _ H4). auto.
    + exists x. split; [apply in_app_iff; cbn; auto|auto].
  - destruct ps as [|p ps]; cbn [valued] in V |- *; [now rewrite with_kids_val in V|].
    rewrite with_kids_kids in V. destruct V as (x & I & N & V).
    destruct I as [<-|I]; [|eauto].
    apply IHcreated in V. rewrite H3 in V. now apply valued_new in V.
Qed.

Lemma created_set_valued : forall req names n n' m,
  created req names n n' m -> forall p v r o ps, m = Got p ->
  valued ps (upd_at p (set_value v r o) n') -> ps = names \/ valued ps n.
Proof.
  induction 1; intros p v r o ps M V; try discriminate.
  - injection M as <-. cbn [upd_at] in V. destruct ps as [|p ps]; [now left|].
    right. cbn in *. now rewrite set_value_kids in V.
  - destruct m; try discriminate. injection M as <-.
    cbn [upd_at] in V. rewrite with_kids_kids, upd_app_mid, with_kids_kids2 in V.
    destruct ps as [|q ps]; cbn [valued] in V |- *; [now rewrite with_kids_val in V; right|].
    rewrite with_kids_kids in V. destruct V as (x & I & N & V).
    rewrite H1. apply in_app_iff in I. destruct I as [I|[<-|I]].
    + right. exists x. split; [apply in_app_iff; auto|auto].
    + rewrite upd_at_name in N by apply set_value_name.
      rewrite (created_name _ _ _ _ _ H4) in N.
      apply (IHcreated _ _ _ _ _ eq_refl) in V. destruct V as [->|V].
      * left. congruence.
      * right. exists k. split; [apply in_app_iff; cbn; auto|auto].
    + right. exists x. split; [apply in_app_iff; cbn; auto|auto].
  - destruct m; try discriminate. injection M as <-.
    cbn [upd_at] in V. rewrite with_kids_kids, with_kids_kids2 in V.
    cbn [upd] in V.
    destruct ps as [|q ps]; cbn [valued] in V |- *; [now rewrite with_kids_val in V; right|].
    rewrite with_kids_kids in V. destruct V as (x & I & N & V).
    destruct I as [<-|I]; [|right; eauto].
    rewrite upd_at_name in N by apply set_value_name.
    rewrite (created_name _ _ _ _ _ H4), H3, new_kid_name in N.
    apply (IHcreated _ _ _ _ _ eq_refl) in V. destruct V as [->|V].
    + left. congruence.
    + rewrite H3 in V. now apply valued_new in V.
Qed.

Lemma created_failed : forall req names n n' m,
  created req names n n' m -> m = Failed ->
  n' = n /\ exists ps, extends names ps /\ valued ps n.
Proof.
  induction 1; intros M; try discriminate.
  - destruct m; try discriminate. destruct (IHcreated eq_refl) as [-> (ps & (x & r & ->) & V)].
    split; [rewrite <- H1; now destruct n|].
    exists (nm :: ps). split; [now exists x, r|]. cbn. exists k.
    rewrite H1. split; [apply in_app_iff; cbn; auto|auto].
  - split; [reflexivity|]. exists []. split; [now exists nm, rest|].
    cbn. unfold has_value in H2. destruct (n_val n); [easy|discriminate].
  - destruct m; try discriminate. destruct (IHcreated eq_refl) as [-> (ps & _ & V)].
    rewrite H3 in V. now apply valued_new in V.
Qed.

Lemma created_nonode : forall req names n n' m,
  created req names n n' m -> m = NoNode -> In "" names.
Proof.
  induction 1; intros M; try discriminate; [now left|..];
    destruct m; try discriminate; right; auto.
Qed.

Lemma created_unmod : forall req names n n' m,
  created req names n n' m -> m = Unmodelled ->
  exists x, In x names /\ plain x = false.
Proof.
  induction 1; intros M; try discriminate.
  - exists nm. cbn. auto.
  - destruct m; try discriminate. destruct (IHcreated eq_refl) as (x & A & B).
    exists x. cbn. auto.
  - destruct m; try discriminate. destruct (IHcreated eq_refl) as (x & A & B).
    exists x. cbn. auto.
Qed.

Lemma do_call_valued : forall t c t' r, do_call t c = (t', r) ->
  forall ps, valued ps t' -> valued ps t \/
    exists path v rq o, c = CSet path v rq o /\ r = RSet SetTrue /\
      names_of path = ps.
Proof.
  intros t c t' r E ps V. destruct c as [path v rq o|path rq|path leaf|path];
    cbn [do_call] in E.
  - unfold tree_set in E.
    destruct (create (names_of path) false t) as [t1 m] eqn:C.
    apply create_created in C. destruct m; injection E as <- <-.
    + destruct (created_set_valued _ _ _ _ _ C _ _ _ _ _ eq_refl V) as [->|W];
        [right|now left]. exists path, v, rq, o. auto.
    + left. eapply created_valued; eauto.
    + left. eapply created_valued; eauto.
    + left. eapply created_valued; eauto.
  - destruct (create (names_of path) rq t) as [t1 m] eqn:C.
    apply create_created in C. injection E as <- <-.
    left. eapply created_valued; eauto.
  - destruct (try_get t path leaf) as [t1 g] eqn:C. injection E as <- <-.
    left. apply try_strip in C. now apply (strip_valued _ _ C).
  - destruct (tree_unrequire t path) as [t1 g] eqn:C. injection E as <- <-.
    left. apply unrequire_strip in C. now apply (strip_valued _ _ C).
Qed.

Lemma calls_valued : forall evs cs t t',
  do_calls t cs = (t', evs) -> forall ps, valued ps t' -> valued ps t \/
    exists path v rq o, In (CSet path v rq o, RSet SetTrue) evs /\
      spells path ps.
Proof.
  induction evs as [|[c r] evs IH]; intros cs t t' E ps V.
  - destruct cs as [|c cs]; cbn in E; [injection E as <-; now left|].
    destruct (do_call t c). destruct (do_calls n cs). discriminate.
  - destruct (do_calls_cons _ _ _ _ _ E) as (cs' & t1 & D & R).
    cbn in D. destruct (IH _ _ _ R ps V) as [W|(path & v & rq & o & I & S)].
    + destruct (do_call_valued _ _ _ _ D ps W) as [X|(path & v & rq & o & -> & -> & <-)];
        [now left|right].
      exists path, v, rq, o. split; [now left|].
      now apply (set_true_names _ _ _ _ _ _ D).
    + right. exists path, v, rq, o. split; [now right|exact S].
Qed.
