(** Finding nodes by pattern. *)
From Coq Require Import NArith Bool String Ascii Arith Permutation List Lia.
From Verif Require Import ParamTreeModel ParamTreeSpec ParamTreeProofs TreeNameModel
  TreeNameSpec TreeNameProofs TreeNameInv TreeNameFacts SharedPtrSafety.
Import ListNotations.
Open Scope string_scope.
Open Scope nat_scope.

(** ** The texts of wildcards *)

Lemma star_caps_sound : forall c s r, star_caps c s = Some r ->
  exists w x r', r = w :: r' /\ s = w ++ x /\ every in_line w /\ c x = Some r'.
Proof.
  intros c s. induction s as [|d s IH]; intros r; cbn [star_caps].
  - destruct (c "") as [l|] eqn:E; [|discriminate]. intros Q. injection Q as <-.
    exists "", "", l. cbn. auto.
  - assert (STOP : option_map (cons "") (c (String d s)) = Some r ->
      exists w x r', r = w :: r' /\ String d s = w ++ x /\ every in_line w /\ c x = Some r').
    { destruct (c (String d s)) as [l|] eqn:E; [|discriminate]. intros Q. injection Q as <-.
      exists "", (String d s), l. cbn. auto. }
    destruct (dot d) eqn:D; [|exact STOP].
    destruct (star_caps c s) as [[|x l]|] eqn:R; try exact STOP.
    intros Q. injection Q as <-. destruct (IH _ eq_refl) as (w & y & r' & E1 & -> & F & Y).
    injection E1 as -> ->. exists (String d w), y, r'. cbn.
    apply dot_in_line in D. auto.
Qed.

Lemma star_caps_some : forall c w x, every in_line w -> c x <> None ->
  star_caps c (w ++ x) <> None.
Proof.
  intros c w x. induction w as [|d w IH]; intros F N; cbn [String.append].
  - destruct x as [|d x]; cbn [star_caps].
    + destruct (c ""); easy.
    + destruct (c (String d x)); [|easy]. cbn.
      destruct (dot d); [|easy]. destruct (star_caps c x) as [[|y l0]|]; easy.
  - cbn [star_caps]. destruct F as [D F]. apply dot_in_line in D. rewrite D.
    specialize (IH F N). destruct (star_caps c (w ++ x)) as [l|] eqn:E; [|easy].
    destruct (star_caps_sound _ _ _ E) as (y & ? & l' & -> & _). easy.
Qed.

Lemma caps_sound : forall p s r, caps (toks p) s = Some r -> fills p r s.
Proof.
  induction p as [|c p IH]; intros s r H.
  - cbn in H. destruct s; [|discriminate]. injection H as <-. constructor.
  - cbn [toks] in H. unfold tok in H.
    destruct (Ascii.eqb_spec c "*") as [->|N1].
    { cbn [caps] in H. destruct (star_caps_sound _ _ _ H) as (w & x & r' & -> & -> & F & E).
      constructor; auto. }
    destruct (Ascii.eqb_spec c "?") as [->|N2].
    { cbn [caps] in H.
      assert (STOP : option_map (cons "") (caps (toks p) s) = Some r -> fills (String "?" p) r s).
      { destruct (caps (toks p) s) as [l|] eqn:E; [|discriminate]. intros Q. injection Q as <-.
        apply fl_none. auto. }
      destruct s as [|d s]; [auto|]. destruct (dot d) eqn:D; [|auto].
      destruct (caps (toks p) s) as [l|] eqn:E; [|auto]. injection H as <-.
      apply fl_one; [now apply dot_in_line|auto]. }
    destruct (Ascii.eqb_spec c "+") as [->|N3].
    { cbn [caps] in H. destruct s as [|d s]; [discriminate|].
      destruct (dot d) eqn:D; [|discriminate].
      destruct (star_caps (caps (toks p)) s) as [[|x l]|] eqn:E; try discriminate.
      injection H as <-. destruct (star_caps_sound _ _ _ E) as (w & y & r' & E1 & -> & F & Y).
      injection E1 as -> ->. change (String d (w ++ y)) with (String d w ++ y).
      apply fl_plus; auto; [easy|]. split; auto. now apply dot_in_line. }
    cbn [caps] in H. destruct s as [|d s]; [discriminate|].
    destruct (Ascii.eqb_spec c d) as [->|]; [|discriminate].
    apply fl_char; auto.
Qed.

Lemma caps_some : forall p r s, fills p r s -> caps (toks p) s <> None.
Proof.
  intros p r s F. induction F as [|c p r x N1 N2 N3 F IH|p w r x W F IH|p w r x W1 W F IH|
     p r x F IH|p c r x W F IH]; cbn [toks]; unfold tok.
  - easy.
  - apply Ascii.eqb_neq in N1, N2, N3. rewrite N1, N2, N3. cbn [caps].
    now rewrite Ascii.eqb_refl.
  - cbn [Ascii.eqb Bool.eqb caps]. now apply star_caps_some.
  - cbn [Ascii.eqb Bool.eqb caps]. destruct w as [|d w]; [easy|]. destruct W as [D W].
    cbn [String.append]. apply dot_in_line in D. rewrite D.
    pose proof (star_caps_some (caps (toks p)) w x W IH) as Q.
    destruct (star_caps (caps (toks p)) (w ++ x)) as [l|] eqn:E; [|easy].
    destruct (star_caps_sound _ _ _ E) as (y & ? & l' & -> & _). easy.
  - cbn [Ascii.eqb Bool.eqb caps]. destruct x as [|d x].
    + destruct (caps (toks p) ""); easy.
    + destruct (caps (toks p) (String d x)); [|easy].
      destruct (dot d); [|easy]. destruct (caps (toks p) x); easy.
  - cbn [Ascii.eqb Bool.eqb caps]. apply dot_in_line in W. rewrite W.
    destruct (caps (toks p) x); easy.
Qed.

Lemma fills_glob : forall p x, glob p x <-> exists r, fills p r x.
Proof.
  intros p x. split.
  - intros H. induction H as [|c p s N1 N2 N3 H [r IH]|p s t W H [r IH]|p s t W1 W H [r IH]|
      p t H [r IH]|p c t W H [r IH]].
    + exists []. constructor.
    + exists r. now constructor.
    + exists (s :: r). now constructor.
    + exists (s :: r). now constructor.
    + exists ("" :: r). now constructor.
    + exists (String c "" :: r). now constructor.
  - intros [r H]. induction H; now constructor.
Qed.

(** ** The children of one node *)

Definition may (all : bool) (s : st) (i k : nat) : Prop :=
  all = true \/ same_level s i k.

Lemma may_sees : forall all s i k, i < length s -> k < length s ->
  all || sees s i k = true <-> may all s i k.
Proof.
  intros all s i k Li Lk. unfold may, sees, same_level, at_. rewrite orb_true_iff.
  destruct (nth_error s i) as [a|] eqn:Ei; [|apply nth_error_None in Ei; lia].
  destruct (nth_error s k) as [b|] eqn:Ek; [|apply nth_error_None in Ek; lia].
  cbn. rewrite N.eqb_eq. split; (intros [H|H]; [now left|right]); congruence.
Qed.

Section Imm.
Variables (rep : string -> option (list string)) (vis : nat -> bool).
Let stepf := (fun (found : list (nat * list string)) (e : string * nat) =>
          match rep (fst e) with
          | Some r =>
              if vis (snd e) && negb (existsb (fun x => fst x =? snd e) found)
              then (found ++ [(snd e, r)])%list else found
          | None => found
          end).

Lemma found_in : forall (found : list (nat * list string)) k,
  existsb (fun x => fst x =? k) found = true <-> In k (map fst found).
Proof.
  intros found k. rewrite existsb_exists, in_map_iff. split.
  - intros (x & I0 & E). apply Nat.eqb_eq in E. eauto.
  - intros (x & <- & I0). exists x. split; auto. apply Nat.eqb_refl.
Qed.

Lemma imm_fold : forall es found, NoDup (map fst found) ->
  NoDup (map fst (fold_left stepf es found)) /\
  (forall k r, In (k, r) (fold_left stepf es found) ->
     In (k, r) found \/ exists x, In (x, k) es /\ rep x = Some r /\ vis k = true) /\
  (forall k, In k (map fst found) \/ (exists x, In (x, k) es /\ rep x <> None /\ vis k = true) ->
     In k (map fst (fold_left stepf es found))).
Proof.
  induction es as [|[x k0] es IH]; intros found ND; cbn [fold_left].
  - split; [exact ND|]. split; [auto|]. intros k [H|(x & [] & _)]. exact H.
  - assert (W : stepf found (x, k0) = found \/
       (exists r, rep x = Some r /\ vis k0 = true /\ ~ In k0 (map fst found) /\
          stepf found (x, k0) = (found ++ [(k0, r)])%list)).
    { unfold stepf. cbn [fst snd]. destruct (rep x) as [r|]; [|auto].
      destruct (vis k0); [|auto]. cbn [andb].
      destruct (existsb (fun x0 => fst x0 =? k0) found) eqn:X; [auto|]. right. exists r.
      split; [auto|]. split; [auto|]. split; [|auto].
      intros Z. apply found_in in Z. congruence. }
    assert (V : rep x <> None -> vis k0 = true -> In k0 (map fst (stepf found (x, k0)))).
    { intros R Z. unfold stepf. cbn [fst snd]. destruct (rep x) as [r|]; [|easy]. rewrite Z.
      cbn [andb]. destruct (existsb (fun x0 => fst x0 =? k0) found) eqn:X; cbn [negb].
      - now apply found_in.
      - rewrite map_app. apply in_app_iff. cbn. auto. }
    assert (ND' : NoDup (map fst (stepf found (x, k0)))).
    { destruct W as [-> |(r & _ & _ & N0 & ->)]; [exact ND|].
      rewrite map_app. apply NoDup_app_iff'. split; [exact ND|]. split; [repeat constructor; easy|].
      intros z Z [<-|[]]. easy. }
    assert (SUB : forall k, In k (map fst found) -> In k (map fst (stepf found (x, k0)))).
    { intros k Z. destruct W as [-> |(r & _ & _ & N0 & ->)]; [exact Z|].
      rewrite map_app. apply in_app_iff. auto. }
    destruct (IH _ ND') as (A & B & D). split; [exact A|]. split.
    + intros k r I0. destruct (B k r I0) as [J|(y & Y1 & Y2)].
      * destruct W as [Q|(r0 & R1 & R2 & R3 & Q)]; rewrite Q in J; [auto|].
        apply in_app_iff in J as [J|[J|[]]]; [auto|]. injection J as <- <-.
        right. exists x. cbn. auto.
      * right. exists y. cbn. auto.
    + intros k [H|(y & [Y|Y] & Y2 & Y3)]; apply D.
      * left. auto.
      * injection Y as -> ->. left. auto.
      * right. eauto.
Qed.
End Imm.

Lemma names_in : forall s i t x k, good s -> at_ s i = Some t ->
  In (x, k) (t_names t) <-> child_of s k i /\ answers s k x.
Proof.
  intros s i t x k G E. rewrite (g_names s G i t E), puts_in, in_entries.
  rewrite <- kid_child by exact G. rewrite (kids_at _ _ _ E). cbn. tauto.
Qed.

Lemma child_lt : forall s k p, child_of s k p -> k < length s.
Proof. intros s k p (t & E & _). eapply at_lt; eauto. Qed.

Lemma child_lt' : forall s k p, good s -> child_of s k p -> p < length s.
Proof.
  intros s k p G (t & E & U). destruct (g_kid s G k t p E U) as (tp & Ep & _).
  eapply at_lt; eauto.
Qed.

Lemma imm_facts : forall all s i pat, good s -> plain pat = true ->
  NoDup (map fst (immediate all s i pat)) /\
  (forall k r, In (k, r) (immediate all s i pat) ->
     child_of s k i /\ may all s i k /\ exists x, answers s k x /\ fills pat r x) /\
  (forall k x r, child_of s k i -> may all s i k -> answers s k x -> fills pat r x ->
     In k (map fst (immediate all s i pat))).
Proof.
  intros all s i pat G P. unfold immediate. destruct (at_ s i) as [t|] eqn:E.
  2:{ split; [constructor|]. split; [intros k r []|]. intros k x r C.
      apply child_lt' in C; [|exact G]. unfold at_ in E. apply nth_error_None in E. lia. }
  assert (REP : forall x, replacements pat x = caps (toks pat) x).
  { intros x. unfold replacements. now rewrite parse_plain. }
  destruct (imm_fold (replacements pat) (fun k => all || sees s i k) (t_names t) [])
    as (A & B & D); [constructor|].
  split; [exact A|]. split.
  - intros k r I0. destruct (B k r I0) as [[]|(x & X1 & X2 & X3)].
    apply (names_in s i t x k G E) in X1 as [C An]. split; [exact C|]. split.
    + apply may_sees; auto; [eapply child_lt'|eapply child_lt]; eauto.
    + exists x. split; [exact An|]. apply caps_sound. now rewrite <- REP.
  - intros k x r C M An F. apply D. right. exists x. split; [now apply (names_in s i t x k G E)|].
    split.
    + rewrite REP. eapply caps_some; eauto.
    + apply may_sees; auto; [eapply child_lt'|eapply child_lt]; eauto.
Qed.

(** ** All levels *)

Lemma find_sound : forall all s parts i j r, good s -> forallb plain parts = true ->
  In (j, r) (find_ all s i parts) ->
  exists ts, finds s (may all s) i parts j ts /\ Permutation r (List.concat ts) /\
    (length (List.concat (tl ts)) <= 1 -> r = List.concat ts).
Proof.
  intros all s parts. induction parts as [|pat parts IH]; intros i j r G P I0; cbn [find_] in I0.
  - destruct I0 as [E|[]]. injection E as <- <-. exists []. repeat constructor.
  - cbn [forallb] in P. apply andb_true_iff in P as [P1 P2].
    destruct (String.eqb_spec pat "") as [->|N].
    + destruct (parent s i) as [p|] eqn:U; [|easy].
      destruct (IH p j r G P2 I0) as (ts & F & Q). exists ts. split; [|exact Q].
      apply f_up with p; auto. now apply parent_child.
    + apply in_flat_map in I0 as ([k w] & K & J). cbn [fst snd] in J.
      apply in_map_iff in J as ([j' r'] & E & J). cbn [fst snd] in E. injection E as <- <-.
      destruct (imm_facts all s i pat G P1) as (_ & B & _).
      destruct (B k w K) as (C & M & x & An & F).
      destruct (IH k j' r' G P2 J) as (ts & F' & Q1 & Q2).
      exists (w :: ts). split; [|split].
      * apply f_down with k x; auto.
      * cbn. apply Permutation_app_head. rewrite <- Permutation_rev. exact Q1.
      * cbn [tl List.concat]. intros L.
        assert (X : forall l : list string, length l <= 1 -> rev l = l).
        { intros [|a [|b l]] Z; cbn in *; auto. lia. }
        rewrite X by (rewrite (Permutation_length Q1); exact L). f_equal. apply Q2.
        destruct ts as [|t0 ts]; cbn in *; [lia|]. rewrite app_length in L. lia.
Qed.

Lemma find_complete : forall all s parts i j ts, good s -> forallb plain parts = true ->
  finds s (may all s) i parts j ts -> In j (map fst (find_ all s i parts)).
Proof.
  intros all s parts i j ts G P F.
  induction F as [i|i p ns j ts C F IH|i k pat x ns j w ts N C An Fl M F IH]; cbn [find_].
  - cbn. auto.
  - cbn [forallb] in P. apply andb_true_iff in P as [_ P].
    cbn [String.eqb]. apply parent_child in C. rewrite C. auto.
  - cbn [forallb] in P. apply andb_true_iff in P as [P1 P2]. specialize (IH P2).
    apply String.eqb_neq in N. rewrite N.
    destruct (imm_facts all s i pat G P1) as (_ & _ & D).
    pose proof (D k x w C M An Fl) as K. apply in_map_iff in K as ([k' w'] & E & K).
    cbn in E. subst k'. apply in_map_iff in IH as ([j' r'] & E & J). cbn in E. subst j'.
    apply in_map_iff. exists (j, (w' ++ rev r')%list). split; [reflexivity|].
    apply in_flat_map. exists (k, w'). split; [exact K|]. cbn [fst snd].
    apply in_map_iff. exists (j, r'). auto.
Qed.

(** ** No node twice *)

Lemma below_chain : forall s i l j, below s i l j -> forall ci, chain s i ci ->
  exists cj, chain s j cj /\ (j :: cj = rev l ++ i :: ci)%list.
Proof.
  intros s i l j B. induction B as [i|i k l j C B IH]; intros ci Ci.
  - exists ci. auto.
  - destruct C as (t & E & U). destruct (IH (i :: ci)) as (cj & Cj & Q).
    + apply ch_up with t; auto.
    + exists cj. split; auto. cbn. rewrite <- app_assoc. exact Q.
Qed.

Lemma below_len : forall s i j l l', good s -> i < length s -> below s i l j ->
  below s i l' j -> l = l'.
Proof.
  intros s i j l l' G L B B'.
  destruct (at_ s i) as [t|] eqn:E; [|unfold at_ in E; apply nth_error_None in E; lia].
  destruct (g_chain s G i t E) as [ci Ci].
  destruct (below_chain _ _ _ _ B _ Ci) as (c1 & C1 & Q1).
  destruct (below_chain _ _ _ _ B' _ Ci) as (c2 & C2 & Q2).
  rewrite (chain_fun _ _ _ C1 _ C2), Q2 in Q1. apply app_inv_tail in Q1.
  rewrite <- (rev_involutive l), <- (rev_involutive l'). now rewrite Q1.
Qed.

Lemma finds_below : forall s see i parts j ts, finds s see i parts j ts ->
  Forall (fun x => x <> "") parts ->
  exists l, below s i l j /\ length l = length parts.
Proof.
  intros s see i parts j ts F.
  induction F as [i|i p ns j ts C F IH|i k pat x ns j w ts N C An Fl M F IH]; intros NE.
  - exists []. split; [constructor|reflexivity].
  - inversion NE; subst. easy.
  - inversion NE; subst. destruct IH as (l & B & L); auto. exists (k :: l).
    split; [econstructor; eauto|cbn; lia].
Qed.

Lemma nodup_flat : forall (A : Type) (f : A -> list nat) l, NoDup l ->
  (forall x, In x l -> NoDup (f x)) ->
  (forall x y z, In x l -> In y l -> In z (f x) -> In z (f y) -> x = y) ->
  NoDup (flat_map f l).
Proof.
  induction l as [|x l IH]; intros ND H D; cbn; [constructor|].
  inversion ND as [|? ? N1 N2]; subst. apply NoDup_app_iff'. split; [apply H; cbn; auto|].
  split.
  - apply IH; auto; [intros; apply H; cbn; auto|]. intros; eapply D; cbn; eauto.
  - intros z Z1 Z2. apply in_flat_map in Z2 as (y & Y1 & Y2). apply N1.
    replace x with y; auto. symmetry. apply (D x y z); cbn; auto.
Qed.

Lemma map_flat : forall (A B C : Type) (g : B -> C) (f : A -> list B) l,
  map g (flat_map f l) = flat_map (fun x => map g (f x)) l.
Proof. intros. induction l as [|x l IH]; cbn; [reflexivity|]. now rewrite map_app, IH. Qed.

Lemma nodup_fst : forall (l : list (nat * list string)), NoDup (map fst l) -> NoDup l.
Proof. intros l. apply NoDup_map_inv. Qed.

Lemma fst_inj : forall (l : list (nat * list string)) a b, NoDup (map fst l) ->
  In a l -> In b l -> fst a = fst b -> a = b.
Proof.
  induction l as [|x l IH]; intros a b ND Ia Ib E; [easy|]. cbn in ND.
  inversion ND as [|? ? N1 N2]; subst. destruct Ia as [->|Ia], Ib as [->|Ib]; auto.
  - exfalso. apply N1. rewrite E. now apply in_map.
  - exfalso. apply N1. rewrite <- E. now apply in_map.
Qed.

Lemma find_nodup : forall all s parts i, good s -> forallb plain parts = true ->
  Forall (fun x => x <> "") parts -> NoDup (map fst (find_ all s i parts)).
Proof.
  intros all s parts. induction parts as [|pat parts IH]; intros i G P NE; cbn [find_].
  - repeat constructor. easy.
  - cbn [forallb] in P. apply andb_true_iff in P as [P1 P2].
    inversion NE as [|? ? N1 N2]; subst. pose proof N1 as N1'. apply String.eqb_neq in N1'.
    rewrite N1'. rewrite map_flat.
    destruct (imm_facts all s i pat G P1) as (A & B & _).
    assert (M : forall e, map fst (map (fun x => (fst x, (snd e ++ rev (snd x))%list))
                  (find_ all s (fst e) parts)) = map fst (find_ all s (fst e) parts)).
    { intros [k w]. rewrite map_map. apply map_ext. reflexivity. }
    apply nodup_flat.
    + now apply nodup_fst.
    + intros e _. rewrite M. apply IH; auto.
    + intros [k w] [k' w'] z I1 I2 Z1 Z2. rewrite M in Z1, Z2. cbn [fst] in Z1, Z2.
      apply fst_inj with (immediate all s i pat); auto. cbn.
      apply in_map_iff in Z1 as ([z1 r1] & E1 & Z1). apply in_map_iff in Z2 as ([z2 r2] & E2 & Z2).
      cbn in E1, E2. subst z1 z2.
      destruct (B _ _ I1) as (C1 & _). destruct (B _ _ I2) as (C2 & _).
      destruct (find_sound _ _ _ _ _ _ G P2 Z1) as (t1 & F1 & _).
      destruct (find_sound _ _ _ _ _ _ G P2 Z2) as (t2 & F2 & _).
      destruct (finds_below _ _ _ _ _ _ F1 N2) as (l1 & B1 & _).
      destruct (finds_below _ _ _ _ _ _ F2 N2) as (l2 & B2 & _).
      assert (Q : k :: l1 = k' :: l2).
      { apply (below_len s i z); auto; [eapply child_lt'; eauto| |]; econstructor; eauto. }
      congruence.
Qed.
