(** Paths, names and locations in the device tree. *)
From Coq Require Import NArith Bool String Ascii Arith Permutation List Lia.
From Verif Require Import ParamTreeModel ParamTreeSpec ParamTreeProofs TreeNameModel
  TreeNameSpec TreeNameProofs TreeNameInv.
Import ListNotations.
Open Scope string_scope.
Open Scope nat_scope.

(** ** Texts of paths *)

Lemma split_written : forall f s, String.length s <= f -> s <> "" ->
  written s (split_names f s).
Proof.
  induction f as [|f IH]; intros s L N.
  - destruct s; [easy|cbn in L; lia].
  - cbn [split_names]. destruct (next_name s) as [a o] eqn:Q.
    destruct (next_name_inv _ _ _ Q) as [G1 G2]. destruct o as [r|].
    + destruct G2 as [-> R]. apply w_name; [exact G1|]. apply IH; [|exact R].
      rewrite length_app_s in L. cbn in L. lia.
    + destruct G2 as [->| ->].
      * now apply w_last.
      * change "." with ("." ++ ""). apply w_name; [exact G1|constructor].
Qed.

Lemma written_split : forall path ns, written path ns -> forall f,
  String.length path <= f -> path <> "" -> split_names f path = ns.
Proof.
  intros path ns W. induction W as [|n N F|n p ns F W IH]; intros f L NE.
  - easy.
  - destruct f as [|f]; [destruct n; [easy|cbn in L; lia]|].
    cbn [split_names]. now rewrite next_name_free.
  - destruct f as [|f]; [rewrite length_app_s in L; cbn in L; lia|].
    cbn [split_names]. change (n ++ "." ++ p) with (n ++ String "." p).
    rewrite next_name_dot by assumption. destruct p as [|c p'].
    + inversion W as [|m M1 M2|m q ms F1 W1 E1 E2]; subst; [reflexivity|easy|].
      destruct m; discriminate.
    + rewrite IH; [reflexivity| |easy].
      rewrite length_app_s in L. cbn [String.length String.append] in L |- *. lia.
Qed.

Lemma written_names : forall path ns, written path ns <-> names_of path = ns.
Proof.
  intros path ns. split.
  - intros W. unfold names_of. destruct path as [|c p].
    + inversion W as [|m M1 M2|m q ms F1 W1 E1 E2]; subst; [reflexivity|easy|].
      destruct m; discriminate.
    + apply written_split; auto. easy.
  - intros <-. unfold names_of. destruct path as [|c p]; [constructor|].
    now apply split_written.
Qed.

Lemma names_empty : forall path, names_of path = [] <-> path = "".
Proof.
  intros [|c p]; [easy|]. split; [|easy]. intros E. apply written_names in E. inversion E.
Qed.

(** ** The child a name means *)

Lemma answers_keys : forall s k x, answers s k x <->
  exists t, at_ s k = Some t /\ In x (keys t).
Proof.
  intros s k x. unfold answers, keys, idents, at_.
  split; intros (t & E & Z); exists t; (split; [exact E|]).
  - rewrite !in_app_iff. destruct Z as [[-> Z]|[Z|[Z ->]]]; auto.
    + destruct (String.eqb_spec (t_name t) ""); [easy|cbn; auto].
    + destruct (String.eqb_spec (t_group t) ""); [easy|cbn; auto].
  - rewrite !in_app_iff in Z. destruct Z as [[Z|Z]|Z]; auto.
    + destruct (String.eqb_spec (t_name t) ""); [easy|]. destruct Z as [<-|[]]. auto.
    + destruct (String.eqb_spec (t_group t) ""); [easy|]. destruct Z as [<-|[]]. auto.
Qed.

Lemma in_entries : forall s ks x k, In (x, k) (entries s ks) <->
  In k ks /\ answers s k x.
Proof.
  intros s ks x k. unfold entries. rewrite in_flat_map, answers_keys. split.
  - intros (k' & I0 & J). destruct (at_ s k') as [t|] eqn:E; [|easy].
    apply in_map_iff in J as (y & J & Y). injection J as <- <-. eauto.
  - intros [I0 (t & E & K)]. exists k. split; auto. rewrite E.
    apply in_map_iff. eauto.
Qed.

Lemma first_entries : forall s ks x k, first_name x (entries s ks) = Some k <->
  exists a b, ks = (a ++ k :: b)%list /\ answers s k x /\
    forall k', In k' a -> ~ answers s k' x.
Proof.
  intros s ks x k. induction ks as [|k0 ks IH].
  - cbn. split; [discriminate|]. intros (a & b & E & _). destruct a; discriminate.
  - change (entries s (k0 :: ks)) with
      (match at_ s k0 with Some c => map (fun x => (x, k0)) (keys c) | None => [] end ++
       entries s ks)%list.
    rewrite first_app.
    assert (Z : match first_name x
       match at_ s k0 with Some c => map (fun x => (x, k0)) (keys c) | None => [] end
       with Some v => v = k0 /\ answers s k0 x | None => ~ answers s k0 x end).
    { destruct (at_ s k0) as [c|] eqn:E.
      - rewrite first_keys. destruct (existsb (fun x0 => String.eqb x0 x) (keys c)) eqn:X.
        + split; [reflexivity|]. apply answers_keys. apply existsb_exists in X as (y & Y1 & Y2).
          apply String.eqb_eq in Y2 as ->. eauto.
        + rewrite answers_keys. intros (t & T1 & T2). assert (t = c) by congruence. subst t.
          assert (existsb (fun x0 => String.eqb x0 x) (keys c) = true); [|congruence].
          apply existsb_exists. exists x. split; auto. apply String.eqb_refl.
      - cbn. rewrite answers_keys. intros (t & T1 & _). congruence. }
    destruct (first_name x
       match at_ s k0 with Some c => map (fun x => (x, k0)) (keys c) | None => [] end) as [v|].
    + destruct Z as [-> Z]. split.
      * intros E. injection E as <-. exists [], ks. split; [reflexivity|split; [exact Z|easy]].
      * intros ([|a0 a] & b & E & A & F).
        -- injection E as -> _. reflexivity.
        -- injection E as <- _. exfalso. apply (F k0); cbn; auto.
    + rewrite IH. split.
      * intros (a & b & -> & A & F). exists (k0 :: a), b. split; [reflexivity|].
        split; [exact A|]. intros k' [<-|I0]; auto.
      * intros ([|a0 a] & b & E & A & F).
        -- injection E as -> _. easy.
        -- injection E as <- ->. exists a, b. split; [reflexivity|]. split; [exact A|].
           intros k' I0. apply F. cbn. auto.
Qed.

Lemma kids_at : forall s p t, at_ s p = Some t -> kids s p = t_kids t.
Proof. intros s p t E. unfold kids, at_ in *. now rewrite E. Qed.

Lemma called_meant : forall s i x k, good s ->
  child_called s i x = Some k <-> meant s i x k.
Proof.
  intros s i x k G. unfold child_called, meant. destruct (at_ s i) as [t|] eqn:E.
  - rewrite (kids_at _ _ _ E), (g_names s G i t E), first_puts by exact I.
    cbn [first_name]. apply first_entries.
  - unfold kids, at_ in *. rewrite E. split; [discriminate|].
    intros (a & b & Q & _). destruct a; discriminate.
Qed.

Lemma kid_child : forall s k p, good s -> In k (kids s p) <-> child_of s k p.
Proof.
  intros s k p G. unfold child_of. split.
  - intros I0. unfold kids in I0. destruct (nth_error s p) as [t|] eqn:E; [|easy].
    apply (g_up s G p t k E I0).
  - intros (t & E & U). destruct (g_kid s G k t p E U) as (tp & Ep & I0).
    now rewrite (kids_at _ _ _ Ep).
Qed.

Lemma parent_child : forall s i p, parent s i = Some p <-> child_of s i p.
Proof.
  intros s i p. unfold parent, child_of, at_. destruct (nth_error s i) as [t|]; split.
  - eauto.
  - intros (u & E & U). congruence.
  - discriminate.
  - intros (u & E & U). discriminate.
Qed.

Lemma walk_route : forall s ns i j, good s -> walk s i ns = Some j <-> route s i ns j.
Proof.
  intros s ns. induction ns as [|x ns IH]; intros i j G; cbn [walk].
  - split; intros H; [injection H as <-; constructor|now inversion H].
  - destruct (String.eqb_spec x "") as [->|N].
    + split; intros H.
      * destruct (parent s i) as [p|] eqn:P; [|discriminate].
        apply r_up with p; [now apply parent_child|now apply IH].
      * inversion H as [|i0 p ns0 j0 C R|i0 k x0 ns0 j0 X M R]; subst; [|easy].
        apply parent_child in C. rewrite C. now apply IH.
    + split; intros H.
      * destruct (child_called s i x) as [k|] eqn:P; [|discriminate].
        apply r_down with k; [exact N|now apply called_meant|now apply IH].
      * inversion H as [|i0 p ns0 j0 C R|i0 k x0 ns0 j0 X M R]; subst; [easy|].
        apply called_meant in M; [|exact G]. rewrite M. now apply IH.
Qed.

(** ** Own names *)

Lemma own_meant : forall s p k t x, good s -> child_of s k p ->
  at_ s k = Some t -> In x (t_name t :: t_alias t) -> x <> "" -> meant s p x k.
Proof.
  intros s p k t x G C E X N. apply kid_child in C; [|exact G].
  unfold kids in C. destruct (nth_error s p) as [tp|] eqn:Ep; [|easy].
  destruct (in_split _ _ C) as (a & b & K). exists a, b.
  rewrite (kids_at _ _ _ Ep). split; [exact K|]. split.
  - exists t. split; [exact E|]. destruct X as [<-|X]; auto.
  - intros k' I0 A. apply answers_keys in A as (c' & E' & Y).
    apply (g_uniq s G p tp a k b t x k' c'); auto.
Qed.

Definition name_of (s : st) (k : nat) : string :=
  match nth_error s k with Some t => t_name t | None => "" end.

Lemma below_route : forall s a l j, good s -> below s a l j ->
  Forall (fun k => name_of s k <> "") l -> route s a (map (name_of s) l) j.
Proof.
  intros s a l j G B. induction B as [i|i k l j C B IH]; intros F; cbn; [constructor|].
  inversion F as [|? ? F1 F2]; subst.
  apply r_down with k; auto. pose proof C as (t & E & U).
  unfold name_of in *. rewrite E in *.
  apply own_meant with t; auto. cbn; auto.
Qed.

(** ** Locations *)

Lemma word_free : forall x, all_word x = true -> free_of "." x.
Proof.
  induction x as [|c x IH]; cbn; [easy|]. intros H. apply andb_true_iff in H as [H1 H2].
  split; [|now apply IH]. intros ->. discriminate.
Qed.

Lemma valid_free : forall x, valid_name x = true -> free_of "." x.
Proof.
  intros x V. unfold valid_name in V. apply andb_true_iff in V as [_ V]. now apply word_free.
Qed.

Lemma name_free : forall s k, good s -> free_of "." (name_of s k).
Proof.
  intros s k G. unfold name_of. destruct (nth_error s k) as [t|] eqn:E; [|easy].
  apply valid_free. now apply (g_valid s G k t E).
Qed.

Fixpoint line (s : st) (i : nat) (l : list nat) : string :=
  match l with
  | [] => match at_ s i with
          | Some t => (if t_root t then "" else "~") ++ t_name t
          | None => ""
          end
  | p :: r => line s p r ++ "." ++ name_of s i
  end.

Lemma loc_line : forall s i l, chain s i l -> forall f, length l < f ->
  loc_ f s i = Some (line s i l).
Proof.
  intros s i l C. induction C as [i t E U|i t p l E U C IH]; intros f L;
    (destruct f as [|f]; [lia|]); cbn [loc_ line]; rewrite E, U; [reflexivity|].
  rewrite IH by (cbn in L; lia). cbn. unfold name_of, at_ in *. now rewrite E.
Qed.

Lemma location_line : forall s i l, chain s i l -> location s i = Some (line s i l).
Proof. intros s i l C. apply loc_line; auto. eapply chain_len; eauto. Qed.

Lemma location_up : forall s i p, good s -> child_of s i p ->
  exists a, location s p = Some a /\ location s i = Some (a ++ "." ++ name_of s i).
Proof.
  intros s i p G (t & E & U). destruct (g_kid s G i t p E U) as (tp & Ep & _).
  destruct (g_chain s G p tp Ep) as [l C]. exists (line s p l).
  split; [now apply location_line|].
  change (line s p l ++ "." ++ name_of s i) with (line s i (p :: l)).
  apply location_line. econstructor; eauto.
Qed.

Lemma location_some : forall s i, good s -> i < length s -> exists a, location s i = Some a.
Proof.
  intros s i G L. destruct (at_ s i) as [t|] eqn:E.
  - destruct (g_chain s G i t E) as [l C]. eauto using location_line.
  - unfold at_ in E. apply nth_error_None in E. lia.
Qed.

Fixpoint dotted (ns : list string) : string :=
  match ns with [] => "" | n :: r => "." ++ n ++ dotted r end.

Lemma location_below : forall s a l j, good s -> below s a l j -> forall x,
  location s a = Some x -> location s j = Some (x ++ dotted (map (name_of s) l)).
Proof.
  intros s a l j G B. induction B as [i|i k l j C B IH]; intros x L; cbn [map dotted].
  - now rewrite app_nil_s.
  - destruct (location_up s k i G C) as (y & Y1 & Y2).
    assert (y = x) by congruence. subst y. rewrite (IH _ Y2). f_equal.
    now rewrite !app_assoc_s.
Qed.

Lemma dotted_join : forall ns, ns <> [] -> dotted ns = "." ++ join ns.
Proof.
  induction ns as [|n [|m r] IH]; intros N; [easy|cbn; now rewrite app_nil_s|].
  change (dotted (n :: m :: r)) with ("." ++ n ++ dotted (m :: r)).
  now rewrite IH.
Qed.

Lemma app_inj_s : forall a b c : string, a ++ b = a ++ c -> b = c.
Proof. induction a; cbn; intros; auto. injection H. auto. Qed.

Lemma free_split : forall a b x y, free_of "." a -> free_of "." b ->
  a ++ "." ++ x = b ++ "." ++ y -> a = b /\ x = y.
Proof.
  induction a as [|c a IH]; intros [|d b] x y Fa Fb E; cbn in E.
  - injection E as E. auto.
  - injection E as E1 E2. destruct Fb as [Fb _]. congruence.
  - injection E as E1 E2. destruct Fa as [Fa _]. congruence.
  - injection E as <- E. destruct Fa, Fb. destruct (IH b x y) as [-> ->]; auto.
Qed.

Lemma free_nodot : forall a x, free_of "." (a ++ "." ++ x) -> False.
Proof. induction a as [|c a IH]; intros x; cbn; intros [F0 F]; [easy|]. exact (IH x F). Qed.

Lemma dotted_inj : forall m n, Forall (free_of ".") m -> Forall (free_of ".") n ->
  dotted m = dotted n -> m = n.
Proof.
  induction m as [|a m IH]; intros [|b n] Fm Fn E; try discriminate; [reflexivity|].
  inversion Fm; inversion Fn; subst. cbn in E. injection E as E.
  destruct m as [|a' m], n as [|b' n]; cbn [dotted] in E.
  - rewrite !app_nil_s in E. congruence.
  - rewrite app_nil_s in E. subst a. exfalso. eapply free_nodot; eauto.
  - rewrite app_nil_s in E. subst b. exfalso. eapply free_nodot; eauto.
  - apply free_split in E as [-> E]; auto. f_equal. apply IH; auto. cbn. f_equal. exact E.
Qed.

Lemma join_written : forall ns, Forall (fun n => n <> "" /\ free_of "." n) ns ->
  written (join ns) ns.
Proof.
  intros ns F. apply written_names. apply names_spelled. split; auto.
Qed.
