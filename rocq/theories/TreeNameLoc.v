(** Matching locations, ancestors, adding children, groups. *)
From Coq Require Import NArith Bool String Ascii Arith Permutation List Lia.
From Verif Require Import ParamTreeModel ParamTreeSpec ParamTreeProofs TreeNameModel
  TreeNameSpec TreeNameProofs TreeNameInv TreeNameFacts TreeNamePriv TreeNameFind.
Import ListNotations.
Open Scope string_scope.
Open Scope nat_scope.

(** ** locationMatchesPattern *)

Lemma split_free : forall x, free_of "." x -> split_dots x = [x].
Proof.
  induction x as [|c x IH]; cbn; [easy|]. intros [N F]. apply Ascii.eqb_neq in N.
  rewrite N, IH; auto.
Qed.

Lemma split_dot : forall x y, free_of "." x ->
  split_dots (x ++ "." ++ y) = x :: split_dots y.
Proof.
  induction x as [|c x IH]; intros y; cbn; [easy|]. intros [N F]. apply Ascii.eqb_neq in N.
  rewrite N. specialize (IH y F). cbn in IH. now rewrite IH.
Qed.

Lemma split_dots_join : forall ps, ps <> [] -> Forall (free_of ".") ps ->
  split_dots (join ps) = ps.
Proof.
  induction ps as [|p [|q ps] IH]; intros N F; [easy| |].
  - inversion F; subst. now apply split_free.
  - inversion F as [|? ? F1 F2]; subst.
    change (join (p :: q :: ps)) with (p ++ "." ++ join (q :: ps)).
    rewrite split_dot by assumption. f_equal. now apply IH.
Qed.

Lemma prev_join : forall ps, ps <> [] ->
  Forall (fun p => p <> "" /\ free_of "." p) ps -> prev_names (join ps) = rev ps.
Proof.
  intros ps N F. unfold prev_names. rewrite split_dots_join; auto.
  - destruct ps as [|p [|q ps]]; auto. inversion F as [|? ? [F1 _] _]; subst.
    apply String.eqb_neq in F1. now rewrite F1.
  - eapply Forall_impl; [|exact F]. cbn. tauto.
Qed.

(** A node has a name or an alias that a pattern accepts. *)
Definition called_like (s : st) (k : nat) (p : string) : Prop :=
  exists t x, nth_error s k = Some t /\
    (x = t_name t /\ x <> "" \/ In x (t_alias t)) /\ glob p x.

Lemma called_like_spec : forall s k t p, at_ s k = Some t -> plain p = true ->
  existsb (matches p) (idents t) = true <-> called_like s k p.
Proof.
  intros s k t p E P. unfold called_like. rewrite existsb_exists. unfold idents. split.
  - intros (x & I0 & M). apply matches_glob in M; auto. exists t, x. split; auto.
    split; auto. apply in_app_iff in I0 as [I0|I0]; auto.
    destruct (String.eqb_spec (t_name t) ""); [easy|]. destruct I0 as [<-|[]]; auto.
  - intros (t' & x & E' & I0 & M). unfold at_ in E. assert (t' = t) by congruence. subst t'.
    exists x. split; [|now apply matches_glob]. apply in_app_iff.
    destruct I0 as [[-> N]|I0]; auto. left.
    destruct (String.eqb_spec (t_name t) ""); [easy|cbn; auto].
Qed.

Lemma below_snoc : forall s a l j k, below s a l j -> child_of s k j ->
  below s a (l ++ [k]) k.
Proof.
  intros s a l j k B C. induction B as [i|i m l j C' B IH]; cbn.
  - econstructor; [exact C|constructor].
  - econstructor; [exact C'|]. auto.
Qed.

Lemma below_bot : forall s a l j, below s a l j -> l = [] /\ a = j \/
  exists l' p, l = (l' ++ [j])%list /\ below s a l' p /\ child_of s j p.
Proof.
  intros s a l j B. induction B as [i|i m l j C' B IH]; [auto|]. right.
  destruct IH as [[-> ->]|(l' & p & -> & B' & C)].
  - exists [], i. split; [reflexivity|]. split; [constructor|exact C'].
  - exists (m :: l'), p. split; [reflexivity|]. split; [econstructor; eauto|exact C].
Qed.

Lemma lmp_spec : forall s qs start i, good s -> Forall (fun p => plain p = true) qs ->
  Forall (fun p => p <> "") qs -> qs <> [] ->
  (lmp s start i qs = Yes <->
   exists l, below s start l i /\ Forall2 (called_like s) (rev l) qs) /\
  lmp s start i qs <> Throws.
Proof.
  intros s qs. induction qs as [|p qs IH]; intros start i G P NE N; [easy|].
  inversion P as [|? ? P1 P2]; subst. inversion NE as [|? ? N1 N2]; subst.
  cbn [lmp]. pose proof N1 as N1'. apply String.eqb_neq in N1'. rewrite N1'.
  destruct (at_ s i) as [t|] eqn:E.
  2:{ split; [|discriminate]. split; [discriminate|]. intros (l & B & F).
      destruct l as [|k l] using rev_ind; [inversion F|]. rewrite rev_app_distr in F. cbn in F.
      inversion F as [|? ? ? ? (t & x & E' & _)]; subst.
      apply below_bot in B as [[Z _]|(l' & q & Z & B & C)]; [destruct l; discriminate|].
      apply app_inj_tail in Z as [_ <-]. unfold at_ in E. congruence. }
  assert (FALL : forall st0, at_ s start = Some st0 -> t_up t = None ->
     existsb (Nat.eqb i) (t_kids st0) = false).
  { intros st0 E0 U. destruct (existsb (Nat.eqb i) (t_kids st0)) eqn:X; auto. exfalso.
    apply existsb_eq in X. destruct (g_up s G start st0 i E0 X) as (t' & E' & U'). congruence. }
  pose proof (called_like_spec s i t p E P1) as CL.
  destruct (existsb (matches p) (idents t)) eqn:M.
  2:{ split; [|discriminate]. split; [discriminate|]. intros (l & B & F). exfalso.
      destruct l as [|k l] using rev_ind; [inversion F|]. rewrite rev_app_distr in F. cbn in F.
      inversion F as [|? ? ? ? X]; subst.
      apply below_bot in B as [[Z _]|(l' & q & Z & B & C)]; [destruct l; discriminate|].
      apply app_inj_tail in Z as [_ <-]. assert (false = true) by now apply CL. discriminate. }
  cbv zeta. destruct (t_up t) as [j|] eqn:U.
  - assert (C : child_of s i j) by (exists t; auto).
    assert (STEP : forall R : Prop, (R <-> exists l, below s start l j /\ Forall2 (called_like s) (rev l) qs) ->
       (R <-> exists l, below s start l i /\ Forall2 (called_like s) (rev l) (p :: qs))).
    { intros R HR. rewrite HR. split.
      - intros (l & B & F). exists (l ++ [i])%list. split; [eapply below_snoc; eauto|].
        rewrite rev_app_distr. cbn. constructor; [now apply CL|exact F].
      - intros (l & B & F). apply below_bot in B as [[-> _]|(l' & q & -> & B & C')]; [inversion F|].
        exists l'. destruct C' as (t' & E' & U'). assert (q = j) by (unfold at_ in E; congruence).
        subst q. split; [exact B|]. rewrite rev_app_distr in F. cbn in F.
        inversion F; subst; auto. }
    destruct qs as [|q qs].
    + split; [|destruct (j =? start); discriminate]. apply STEP. split.
      * destruct (Nat.eqb_spec j start) as [->|]; [|discriminate]. intros _. exists [].
        split; constructor.
      * intros (l & B & F). destruct l as [|k l] using rev_ind.
        -- inversion B; subst. now rewrite Nat.eqb_refl.
        -- rewrite rev_app_distr in F. cbn in F. inversion F.
    + destruct (IH start j G P2 N2) as [IH1 IH2]; [easy|]. split; [|exact IH2].
      apply STEP. exact IH1.
  - assert (Q : match at_ s start with
            | Some ts => if existsb (Nat.eqb i) (t_kids ts) then Some start else None
            | None => None
            end = None).
    { destruct (at_ s start) as [st0|] eqn:E0; auto. now rewrite (FALL st0 eq_refl eq_refl). }
    rewrite Q. split; [|destruct qs; discriminate]. split; [destruct qs; discriminate|].
    intros (l & B & F). apply below_bot in B as [[-> _]|(l' & q & -> & B & C')]; [inversion F|].
    destruct C' as (t' & E' & U'). unfold at_ in E. congruence.
Qed.

Lemma called_like_finds : forall s l ps i j, below s i l j ->
  Forall2 (called_like s) l ps -> Forall (fun p => p <> "") ps ->
  exists ts, finds s (may true s) i ps j ts.
Proof.
  intros s l ps i j B. revert ps. induction B as [i|i k l j C B IH]; intros ps F N.
  - inversion F; subst. exists []. constructor.
  - inversion F as [|? p ? ps' (t & x & E & X & Gl) F']; subst.
    inversion N as [|? ? N1 N2]; subst. destruct (IH _ F' N2) as [ts T].
    apply fills_glob in Gl as [w W]. exists (w :: ts). apply f_down with k x; auto.
    + exists t. split; auto. tauto.
    + now left.
Qed.

(** ** Ancestors *)

Lemma chain_below : forall s i l a, chain s i l -> In a (i :: l) ->
  exists d, below s a d i.
Proof.
  intros s i l a C. induction C as [i t E U|i t p l E U C IH]; intros [<-|I0].
  - exists []. constructor.
  - destruct I0.
  - exists []. constructor.
  - destruct (IH I0) as [d B]. exists (d ++ [i])%list.
    apply below_snoc with p; auto. exists t. auto.
Qed.

Lemma chain_last : forall s i l, chain s i l ->
  exists t, at_ s (last l i) = Some t /\ t_up t = None.
Proof.
  intros s i l C. induction C as [i t E U|i t p l E U C IH]; cbn [last]; [eauto|].
  destruct l as [|q l]; [exact IH|]. destruct IH as (t' & E' & U').
  exists t'. split; auto. rewrite <- E'. f_equal. clear. revert q.
  induction l as [|r l IH]; intros q; [reflexivity|]. cbn [last] in *. apply IH.
Qed.

Lemma below_pos : forall s a d i l, good s -> chain s i l -> below s a d i ->
  nth_error (i :: l) (length d) = Some a.
Proof.
  intros s a d i l G C B.
  assert (La : exists t, at_ s a = Some t).
  { destruct B as [j|j k d i Ck B]; [inversion C; eauto|].
    destruct Ck as (t & E & U). destruct (g_kid s G k t j E U) as (tj & Ej & _). eauto. }
  destruct La as [t Ea]. destruct (g_chain s G a t Ea) as [ca Ca].
  destruct (below_chain _ _ _ _ B _ Ca) as (ci & Ci & Q).
  rewrite (chain_fun _ _ _ C _ Ci), Q. rewrite nth_error_app2; rewrite rev_length; [|lia].
  now rewrite Nat.sub_diag.
Qed.

Lemma pos_below : forall s i l n a, chain s i l -> nth_error (i :: l) n = Some a ->
  exists d, below s a d i /\ length d = n.
Proof.
  intros s i l n a C. revert n a. induction C as [i t E U|i t p l E U C IH]; intros [|n] a N0; cbn in N0.
  - injection N0 as <-. exists []. split; [constructor|reflexivity].
  - destruct n; discriminate.
  - injection N0 as <-. exists []. split; [constructor|reflexivity].
  - destruct (IH _ _ N0) as (d & B & L). exists (d ++ [i])%list. split.
    + apply below_snoc with p; auto. exists t. auto.
    + rewrite app_length. cbn. lia.
Qed.

Lemma descendant_spec : forall s i a depth, good s -> i < length s ->
  exists b, descendant s i a depth = Some b /\
    (b = true <-> exists d, below s a d i /\
       match depth with Some n => length d <= n | None => True end).
Proof.
  intros s i a depth G L.
  destruct (at_ s i) as [t|] eqn:E; [|unfold at_ in E; apply nth_error_None in E; lia].
  destruct (g_chain s G i t E) as [l C]. unfold descendant. rewrite (ups_chain _ _ _ C).
  cbn [option_map]. eexists. split; [reflexivity|]. rewrite existsb_eq. split.
  - intros I0. destruct depth as [n|].
    + apply in_firstn in I0 as (m & Lm & I0). destruct (pos_below _ _ _ _ _ C I0) as (d & B & Ld).
      exists d. split; auto. lia.
    + destruct (chain_below _ _ _ _ C I0) as [d B]. eauto.
  - intros (d & B & Ld). pose proof (below_pos _ _ _ _ _ G C B) as Q. destruct depth as [n|].
    + apply in_firstn. exists (length d). split; [lia|exact Q].
    + eapply nth_error_In; eauto.
Qed.

Lemma level_spec : forall s i, good s -> i < length s ->
  exists r d t, below s r d i /\ nth_error s r = Some t /\ t_up t = None /\
    root s i = Some r /\ level s i = Some (length d).
Proof.
  intros s i G L.
  destruct (at_ s i) as [t|] eqn:E; [|unfold at_ in E; apply nth_error_None in E; lia].
  destruct (g_chain s G i t E) as [l C]. unfold root, level. rewrite (ups_chain _ _ _ C).
  destruct (chain_last _ _ _ C) as (tr & Er & Ur).
  assert (N0 : nth_error (i :: l) (length l) = Some (last l i)).
  { clear. revert i. induction l as [|x l IH]; intros i; [reflexivity|].
    cbn [nth_error length]. rewrite IH. f_equal. destruct l; [reflexivity|]. cbn [last].
    clear. revert n. induction l as [|y l IH]; intros n; [reflexivity|]. cbn [last] in *. apply IH. }
  destruct (pos_below _ _ _ _ _ C N0) as (d & B & Ld).
  exists (last l i), d, tr. split; [exact B|]. split; [exact Er|]. split; [exact Ur|].
  split; [reflexivity|]. cbn. now rewrite Ld.
Qed.

(** ** Adding a child *)

Lemma free_name_spec : forall s p tp x, good s -> at_ s p = Some tp ->
  free_name tp x = true <-> forall k, child_of s k p -> ~ answers s k x.
Proof.
  intros s p tp x G E. unfold free_name. destruct (first_name x (t_names tp)) as [k|] eqn:Q.
  - split; [discriminate|]. intros H. exfalso.
    assert (M : meant s p x k).
    { apply called_meant; auto. unfold child_called. now rewrite E. }
    destruct M as (a & b & K & A & _). apply (H k); auto. apply kid_child; auto.
    rewrite K. apply in_elt.
  - split; [|auto]. intros _ k C A. rewrite first_none in Q. apply (Q k).
    now apply (names_in s p tp x k G E).
Qed.

Lemma no_empty_key : forall s k, good s -> ~ answers s k "".
Proof.
  intros s k G (t & E & [[_ N]|[N|[N Q]]]); [easy| |].
  - destruct (g_valid s G k t E) as (_ & _ & F). rewrite Forall_forall in F.
    destruct (F _ N) as [_ Z]. easy.
  - destruct (t_group t); [easy|discriminate].
Qed.

Definition may_add (s : st) (p c : nat) : Prop :=
  exists tp tc, nth_error s p = Some tp /\ nth_error s c = Some tc /\
    (* not a root, and without a parent so far *)
    t_root tc = false /\ t_up tc = None /\
    (* not the node itself and not above it *)
    (forall d, ~ below s c d p) /\
    (* no child of the node answers to a name of the new one *)
    (forall k x, child_of s k p -> x = t_name tc \/ In x (t_alias tc) -> ~ answers s k x) /\
    (* no index of a group twice *)
    (forall k tk, child_of s k p -> nth_error s k = Some tk -> t_ix tk = true ->
       t_ix tc = true -> t_group tk = t_group tc -> t_idx tk = t_idx tc ->
       t_idx tc = idx_none).

Lemma add_iff : forall s p c, good s ->
  (exists s', step s (AddChild p c) = Fine s') <-> may_add s p c.
Proof.
  intros s p c G. cbn [step]. unfold add_child, may_add, at_. split.
  - intros [s' E]. 
    destruct (nth_error s p) as [tp|] eqn:Ep; [|discriminate].
    destruct (nth_error s c) as [tc|] eqn:Ec; [|discriminate].
    destruct (Nat.eqb_spec p c) as [|NE]; [discriminate|].
    destruct (g_chain s G p tp Ep) as [lp CP]. rewrite (ups_chain _ _ _ CP) in E.
    destruct (existsb (Nat.eqb c) lp) eqn:X1; [discriminate|].
    match type of E with context [existsb ?f (t_kids tp)] =>
      destruct (existsb f (t_kids tp)) eqn:X2; [discriminate|] end.
    destruct (forallb (free_name tp) (t_name tc :: t_alias tc)) eqn:X3; [|discriminate].
    cbn [negb] in E. destruct (t_root tc) eqn:R; [discriminate|].
    unfold connect in E. destruct (t_up tc) eqn:U; [discriminate|].
    exists tp, tc. split; [auto|]. split; [auto|]. split; [auto|]. split; [auto|]. split; [|split].
    + intros d B. pose proof (below_pos _ _ _ _ _ G CP B) as Q. apply nth_error_In in Q.
      destruct Q as [Q|Q]; [easy|]. apply existsb_eq in Q. congruence.
    + intros k x C X. rewrite forallb_forall in X3.
      assert (F : free_name tp x = true) by (apply X3; cbn; destruct X; auto).
      exact (proj1 (free_name_spec s p tp x G Ep) F k C).
    + intros k tk C Ek I1 I2 Q1 Q2.
      assert (Z : (k =? c) || group_clash tk tc = false).
      { destruct ((k =? c) || group_clash tk tc) eqn:Z; auto.
        rewrite <- X2. symmetry. apply existsb_exists. exists k. rewrite Ek. split; [|exact Z].
        apply kid_child in C; auto. rewrite (kids_at s p tp) in C; auto. }
      apply orb_false_iff in Z as [_ Z]. unfold group_clash in Z.
      rewrite I1, I2, Q1, Q2, String.eqb_refl, N.eqb_refl, !andb_true_r, andb_true_l in Z.
      now apply negb_false_iff, N.eqb_eq in Z.
  - intros (tp & tc & Ep & Ec & R & U & A & B & D). rewrite Ep, Ec.
    destruct (Nat.eqb_spec p c) as [->|NE].
    { exfalso. apply (A []). constructor. }
    destruct (g_chain s G p tp Ep) as [lp CP]. rewrite (ups_chain _ _ _ CP).
    destruct (existsb (Nat.eqb c) lp) eqn:X1.
    { exfalso. apply existsb_eq in X1.
      destruct (chain_below _ _ _ c CP) as [d Bd]; [cbn; auto|]. exact (A d Bd). }
    match goal with |- context [existsb ?f (t_kids tp)] =>
      destruct (existsb f (t_kids tp)) eqn:X2 end.
    { exfalso. apply existsb_exists in X2 as (k & I0 & X2).
      destruct (g_up s G p tp k Ep I0) as (tk & Ek & Uk).
      assert (C : child_of s k p) by (exists tk; auto).
      apply orb_true_iff in X2 as [X2|X2].
      - apply Nat.eqb_eq in X2. subst k. unfold at_ in Ek. congruence.
      - unfold at_ in Ek. rewrite Ek in X2. unfold group_clash in X2.
        rewrite !andb_true_iff in X2. destruct X2 as ((((Y1 & Y2) & Y3) & Y4) & Y5).
        apply String.eqb_eq in Y1. apply N.eqb_eq in Y3. apply negb_true_iff, N.eqb_neq in Y2.
        apply Y2. rewrite Y3. apply (D k tk); auto. }
    assert (X3 : forallb (free_name tp) (t_name tc :: t_alias tc) = true).
    { apply forallb_forall. intros x X. apply (free_name_spec s p tp x G Ep).
      intros k C. apply B; auto. destruct X as [<-|X]; auto. }
    rewrite X3, R. cbn [negb]. unfold connect. rewrite U. eauto.
Qed.

Lemma add_effect : forall s p c s', good s -> step s (AddChild p c) = Fine s' ->
  length s' = length s /\
  (forall q, kids s' q = if q =? p then (kids s q ++ [c])%list else kids s q) /\
  (forall k q, child_of s' k q <-> child_of s k q \/ k = c /\ q = p) /\
  (forall k x, answers s' k x <-> answers s k x).
Proof.
  intros s p c s' G E. pose proof (run_step_good _ _ _ G E) as G'.
  cbn [step] in E. unfold add_child in E.
  destruct (at_ s p) as [tp|] eqn:Ep; [|discriminate].
  destruct (at_ s c) as [tc|] eqn:Ec; [|discriminate].
  destruct (Nat.eqb_spec p c) as [|NE]; [discriminate|].
  destruct (ups s p); [|discriminate].
  destruct (existsb (Nat.eqb c) l); [discriminate|].
  match type of E with context [existsb ?f (t_kids tp)] =>
    destruct (existsb f (t_kids tp)) eqn:X2; [discriminate|] end.
  destruct (forallb (free_name tp) (t_name tc :: t_alias tc)); [|discriminate].
  cbn [negb] in E. destruct (t_root tc); [discriminate|].
  unfold connect in E. destruct (t_up tc) eqn:U; [discriminate|]. injection E as <-.
  match goal with |- context [upd ?x c ?f] => set (s2 := x) in *; set (F := f) in * end.
  assert (B : map bare s2 = map bare (upd s p (with_kid c tc))) by apply deepen_bare.
  assert (L2 : length s2 = length s).
  { unfold s2. rewrite deepen_len. apply upd_len. }
  assert (AT : forall j t', at_ (upd s2 c F) j = Some t' -> exists t, at_ s j = Some t /\
     keys t' = keys t /\ t_kids t' = (if j =? p then t_kids t ++ [c] else t_kids t)%list).
  { intros j t' E'. destruct (upd_case _ _ _ _ _ E') as (t2 & E2 & Q).
    destruct (bare_at _ _ _ _ B E2) as (t1 & E1 & Q1).
    destruct (upd_case _ _ _ _ _ E1) as (t0 & E0 & Q0). exists t0. split; [exact E0|].
    assert (K2 : keys t' = keys t2 /\ t_kids t' = t_kids t2)
      by (destruct Q as [[_ ->]|[_ ->]]; split; reflexivity).
    assert (K1 : keys t2 = keys t1 /\ t_kids t2 = t_kids t1).
    { rewrite <- (keys_bare t1), <- (keys_bare t2), Q1. split; auto.
      unfold bare in Q1. injection Q1. congruence. }
    destruct K2 as [-> ->], K1 as [-> ->].
    destruct Q0 as [(-> & ->)|(N0 & ->)].
    - rewrite Nat.eqb_refl. split; reflexivity.
    - apply Nat.eqb_neq in N0. rewrite N0. auto. }
  assert (BACK : forall j t, at_ s j = Some t -> exists t', at_ (upd s2 c F) j = Some t').
  { intros j t E0. destruct (at_ (upd s2 c F) j) eqn:Z; [eauto|].
    unfold at_ in Z. apply nth_error_None in Z. rewrite upd_len, L2 in Z.
    apply at_lt in E0. lia. }
  assert (KIDS : forall q, kids (upd s2 c F) q = if q =? p then (kids s q ++ [c])%list else kids s q).
  { intros q. destruct (at_ s q) as [t|] eqn:Eq.
    - destruct (BACK _ _ Eq) as [t' Eq']. destruct (AT _ _ Eq') as (t0 & E0 & _ & K).
      rewrite (kids_at _ _ _ Eq'), (kids_at _ _ _ E0), K. now destruct (q =? p).
    - assert (Z : at_ (upd s2 c F) q = None).
      { destruct (at_ (upd s2 c F) q) as [t'|] eqn:Z; auto. destruct (AT _ _ Z) as (? & ? & _). congruence. }
      unfold kids. unfold at_ in Eq, Z. rewrite Eq, Z. destruct (Nat.eqb_spec q p) as [->|]; auto.
      unfold at_ in Ep. congruence. }
  split; [rewrite upd_len; exact L2|]. split; [exact KIDS|]. split.
  - intros k q. rewrite <- !kid_child by assumption. rewrite KIDS.
    destruct (Nat.eqb_spec q p) as [->|N0]; [|intuition congruence].
    rewrite in_app_iff. cbn. intuition congruence.
  - intros k x. rewrite !answers_keys. split.
    + intros (t' & E' & X). destruct (AT _ _ E') as (t & E0 & K & _). exists t.
      rewrite <- K. auto.
    + intros (t & E0 & X). destruct (BACK _ _ E0) as [t' E']. exists t'. split; auto.
      destruct (AT _ _ E') as (t0 & E1 & K & _). rewrite K. congruence.
Qed.

(** ** Groups *)

Lemma group_members : forall s i g k, good s -> In k (in_group s i g) <->
  exists t, child_of s k i /\ nth_error s k = Some t /\ t_group t = g /\ same_level s i k.
Proof.
  intros s i g k G. unfold in_group, public_kids. destruct (at_ s i) as [ti|] eqn:Ei.
  - rewrite !filter_In. pose proof (kid_child s k i G) as KC. rewrite (kids_at _ _ _ Ei) in KC.
    rewrite KC. unfold same_level, at_ in *. rewrite Ei. split.
    + intros [[C P] Q]. destruct (nth_error s k) as [t|] eqn:Ek; [|discriminate].
      exists t. apply N.eqb_eq in P. apply String.eqb_eq in Q. cbn.
      repeat split; auto; congruence.
    + intros (t & C & Ek & Q & P). rewrite Ek in *. cbn in P. injection P as P.
      split; [split; [exact C|]|]; [apply N.eqb_eq; congruence|apply String.eqb_eq; congruence].
  - cbn. split; [easy|]. intros (t & C & _). apply child_lt' in C; auto.
    unfold at_ in Ei. apply nth_error_None in Ei. lia.
Qed.

Lemma group_max_spec : forall s i g, good s -> g <> "" -> g <> builtin ->
  (in_group s i g = [] /\ group_max s i g = idx_none) \/
  ((exists k t, In k (in_group s i g) /\ nth_error s k = Some t /\ t_idx t = group_max s i g) /\
   (forall k t, In k (in_group s i g) -> nth_error s k = Some t -> (t_idx t <= group_max s i g)%N) /\
   group_max s i g <> idx_none).
Proof.
  intros s i g G NG NB.
  assert (MEM : forall k, In k (in_group s i g) -> exists t, nth_error s k = Some t /\ t_idx t <> idx_none).
  { intros k I0. apply group_members in I0 as (t & C & Ek & Q & _); auto. exists t. split; auto.
    destruct (g_valid s G k t Ek) as (_ & V & _). unfold valid_group in V.
    rewrite Q in V. apply andb_true_iff in V as [_ V].
    apply String.eqb_neq in NG, NB. rewrite NG, NB in V. cbn in V.
    intros Z. rewrite Z, N.eqb_refl in V. discriminate. }
  unfold group_max. pose proof NG as NG'. apply String.eqb_neq in NG'. rewrite NG'.
  set (f := fun (m : N) (k : nat) => match at_ s k with
     | Some c => if (m =? idx_none)%N then t_idx c else N.max m (t_idx c)
     | None => m end).
  destruct (in_group s i g) as [|k0 ks] eqn:Q; [left; auto|]. right.
  assert (GEN : forall ks m, (forall k, In k ks -> exists t, nth_error s k = Some t /\ t_idx t <> idx_none) ->
     m <> idx_none ->
     (fold_left f ks m = m \/ exists k t, In k ks /\ nth_error s k = Some t /\ t_idx t = fold_left f ks m) /\
     (m <= fold_left f ks m)%N /\
     (forall k t, In k ks -> nth_error s k = Some t -> (t_idx t <= fold_left f ks m)%N) /\
     fold_left f ks m <> idx_none).
  { clear - f. induction ks as [|k ks IH]; intros m H N0; cbn [fold_left].
    - split; [auto|]. split; [lia|]. split; [easy|exact N0].
    - destruct (H k (or_introl eq_refl)) as (t & Ek & Nk).
      assert (Fk : f m k = N.max m (t_idx t)).
      { unfold f, at_. rewrite Ek. apply N.eqb_neq in N0. now rewrite N0. }
      assert (N1 : N.max m (t_idx t) <> idx_none).
      { destruct (N.max_spec m (t_idx t)) as [[_ ->]|[_ ->]]; auto. }
      destruct (IH (f m k)) as (A & B & D & E); [intros; apply H; cbn; auto|rewrite Fk; exact N1|].
      rewrite Fk in *. split; [|split; [lia|split; [|exact E]]].
      + destruct A as [A|(k' & t' & I0 & X)]; [|right; exists k', t'; cbn; auto].
        rewrite A. destruct (N.max_spec m (t_idx t)) as [[_ ->]|[_ ->]]; auto.
        right. exists k, t. cbn; auto.
      + intros k' t' [<-|I0] E'; [|eauto]. assert (t' = t) by congruence. subst t'. lia. }
  destruct (MEM k0 (or_introl eq_refl)) as (t0 & E0 & N0).
  assert (F0 : f idx_none k0 = t_idx t0).
  { unfold f, at_. rewrite E0. now rewrite N.eqb_refl. }
  cbn [fold_left]. rewrite F0.
  destruct (GEN ks (t_idx t0)) as (A & B & D & E); [intros; apply MEM; cbn; auto|exact N0|].
  split; [|split; [|exact E]].
  - destruct A as [A|(k & t & I0 & X)]; [exists k0, t0; cbn; auto|exists k, t; cbn; tauto].
  - intros k t [<-|I0] Ek; [|eauto]. assert (t = t0) by congruence. subst. exact B.
Qed.
