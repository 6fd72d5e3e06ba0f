(** Privacy levels in the device tree. *)
From Coq Require Import NArith Bool String Ascii Arith Permutation List Lia.
From Verif Require Import ParamTreeModel ParamTreeSpec ParamTreeProofs TreeNameModel
  TreeNameSpec TreeNameProofs TreeNameInv TreeNameFacts.
Import ListNotations.
Open Scope string_scope.
Open Scope nat_scope.

Lemma chain_nth : forall s i l, chain s i l -> forall n k t,
  nth_error (i :: l) n = Some k -> at_ s k = Some t -> t_up t = nth_error l n.
Proof.
  intros s i l C. induction C as [i t E U|i t p l E U C IH]; intros [|n] k u N K; cbn in N.
  - injection N as <-. cbn. congruence.
  - destruct n; discriminate.
  - injection N as <-. cbn. congruence.
  - cbn. eapply IH; eauto.
Qed.

Definition more (b : N) (t : tn) : tn :=
  mkT (t_name t) (t_group t) (t_idx t) (t_ix t) (t_root t) (t_alias t)
      ((t_priv t + b) mod 2 ^ 32)%N (t_up t) (t_kids t) (t_names t).

Lemma in_firstn : forall (l : list nat) f x, In x (firstn f l) <->
  exists n, n < f /\ nth_error l n = Some x.
Proof.
  induction l as [|y l IH]; intros [|f] x; cbn [firstn].
  - split; [easy|]. intros (n & _ & E). destruct n; discriminate.
  - split; [easy|]. intros (n & _ & E). destruct n; discriminate.
  - split; [easy|]. intros (n & L & _). lia.
  - cbn [In]. rewrite IH. split.
    + intros [<-|(n & L & E)]; [exists 0; split; [lia|reflexivity]|].
      exists (S n). split; [lia|exact E].
    + intros ([|n] & L & E); [injection E; auto|]. right. exists n. split; [lia|exact E].
Qed.

Lemma existsb_eq : forall l x, existsb (Nat.eqb x) l = true <-> In x l.
Proof.
  intros l x. rewrite existsb_exists. split.
  - intros (y & I0 & E). apply Nat.eqb_eq in E. now subst.
  - intros I0. exists x. split; auto. apply Nat.eqb_refl.
Qed.

Section Deep.
Variables (s0 : st) (p : nat).
Hypothesis G : good s0.

Definition like (s : st) : Prop :=
  length s = length s0 /\
  forall j t, at_ s j = Some t -> exists t0, at_ s0 j = Some t0 /\
    (j <> p -> t_kids t = t_kids t0).

Lemma like_bare : forall s s', map bare s' = map bare s -> like s -> like s'.
Proof.
  intros s s' B [L F]. split.
  - apply (f_equal (@length tn)) in B. rewrite !map_length in B. lia.
  - intros j t E. destruct (bare_at _ _ _ _ B E) as (u & Eu & Q).
    destruct (F _ _ Eu) as (t0 & E0 & K). exists t0. split; auto. intros NE.
    rewrite <- K by exact NE. unfold bare in Q. injection Q. congruence.
Qed.

Lemma deepen_at : forall f b i s, like s ->
  (forall lp, chain s0 p lp -> ~ In i (p :: lp)) ->
  forall j l t, chain s0 j l -> at_ s j = Some t ->
  at_ (deepen f b i s) j =
  Some (if existsb (Nat.eqb i) (firstn f (j :: l)) then more b t else t).
Proof.
  induction f as [|f IH]; intros b i s K NP j l t C E; [exact E|].
  cbn [deepen]. destruct (at_ s i) as [ti|] eqn:Ei.
  2:{ rewrite E. destruct (existsb (Nat.eqb i) (firstn (S f) (j :: l))) eqn:X; [|reflexivity].
      apply existsb_eq in X. apply in_firstn in X as (n & _ & X).
      apply nth_error_In in X. pose proof (chain_range _ _ _ _ C X).
      unfold at_ in Ei. apply nth_error_None in Ei. destruct K as [K _]. lia. }
  pose proof K as [KL KF]. destruct (KF _ _ Ei) as (ti0 & Ei0 & Kk).
  destruct (g_chain s0 G i ti0 Ei0) as [li Ci].
  assert (NI : i <> p) by (intros ->; apply (NP li Ci); cbn; auto).
  specialize (Kk NI).
  (* two children of the node are not both on one way up *)
  assert (KID : forall k, In k (t_kids ti0) -> exists tk, at_ s0 k = Some tk /\ t_up tk = Some i).
  { intros k I0. exact (g_up s0 G i ti0 k Ei0 I0). }
  assert (POS : forall j l k n, chain s0 j l -> In k (t_kids ti0) ->
      nth_error (j :: l) n = Some k -> nth_error l n = Some i).
  { intros j1 l1 k n C1 I0 N1. destruct (KID k I0) as (tk & Ek & Uk).
    now rewrite <- (chain_nth _ _ _ C1 n k tk N1 Ek). }
  assert (ONE : forall j l k k', chain s0 j l -> In k (t_kids ti0) -> In k' (t_kids ti0) ->
      In k (j :: l) -> In k' (j :: l) -> k = k').
  { intros j1 l1 k k' C1 I1 I2 J1 J2.
    apply In_nth_error in J1 as [n1 J1]. apply In_nth_error in J2 as [n2 J2].
    pose proof (POS _ _ _ _ C1 I1 J1) as P1. pose proof (POS _ _ _ _ C1 I2 J2) as P2.
    pose proof (chain_nodup _ _ _ C1) as ND. inversion ND as [|? ? _ ND']; subst.
    assert (n1 = n2); [|congruence].
    apply (proj1 (NoDup_nth_error l1) ND'); [|congruence].
    apply nth_error_Some. congruence. }
  assert (FOLD : forall ks, incl ks (t_kids ti0) -> NoDup ks -> forall s1, like s1 ->
      forall j l t, chain s0 j l -> at_ s1 j = Some t ->
      at_ (fold_left (fun s' k => deepen f b k s') ks s1) j =
      Some (if existsb (fun k => existsb (Nat.eqb k) (firstn f (j :: l))) ks
            then more b t else t)).
  { induction ks as [|k ks IHk]; intros I0 ND s1 K1 j1 l1 t1 C1 E1; [exact E1|].
    inversion ND as [|? ? N1 N2]; subst. cbn [fold_left existsb].
    assert (Ik : In k (t_kids ti0)) by (apply I0; cbn; auto).
    assert (E2 : at_ (deepen f b k s1) j1 =
       Some (if existsb (Nat.eqb k) (firstn f (j1 :: l1)) then more b t1 else t1)).
    { apply IH; auto. intros lp Cp Z. apply (NP lp Cp).
      apply In_nth_error in Z as [n Z]. pose proof (POS _ _ _ _ Cp Ik Z) as Q.
      right. eapply nth_error_In; eauto. }
    rewrite (IHk) with (l := l1) (t := if existsb (Nat.eqb k) (firstn f (j1 :: l1)) then more b t1 else t1);
      auto.
    - destruct (existsb (Nat.eqb k) (firstn f (j1 :: l1))) eqn:X; cbn [orb]; [|reflexivity].
      destruct (existsb (fun k0 => existsb (Nat.eqb k0) (firstn f (j1 :: l1))) ks) eqn:Y; [|reflexivity].
      exfalso. apply existsb_exists in Y as (k' & I1 & Y). apply existsb_eq in X, Y.
      apply N1. replace k with k'; auto.
      apply (ONE j1 l1); auto; [apply I0; cbn; auto| |];
        (apply in_firstn in X as (? & _ & X); apply in_firstn in Y as (? & _ & Y);
         eapply nth_error_In; eauto).
    - intros z Z. apply I0. cbn; auto.
    - eapply like_bare; [|exact K1]. apply deepen_bare. }
  assert (K1 : like (upd s i (more b))).
  { eapply like_bare; [|exact K]. apply bare_upd. reflexivity. }
  change (upd s i (fun t0 => mkT (t_name t0) (t_group t0) (t_idx t0) (t_ix t0) (t_root t0)
     (t_alias t0) ((t_priv t0 + b) mod 2 ^ 32)%N (t_up t0) (t_kids t0) (t_names t0)))
    with (upd s i (more b)).
  rewrite Kk.
  assert (E1 : at_ (upd s i (more b)) j = Some (if i =? j then more b t else t)).
  { rewrite at_upd, E. destruct (i =? j); reflexivity. }
  rewrite (FOLD (t_kids ti0) (incl_refl _) (g_nodup s0 G i ti0 Ei0) _ K1 j l _ C E1).
  f_equal. cbn [firstn existsb]. destruct (Nat.eqb_spec i j) as [->|NJ].
  - cbn [orb].
    destruct (existsb (fun k => existsb (Nat.eqb k) (firstn f (j :: l))) (t_kids ti0)) eqn:X; [|reflexivity].
    exfalso. apply existsb_exists in X as (k & I1 & X). apply existsb_eq in X.
    apply in_firstn in X as (n & _ & X). pose proof (POS _ _ _ _ C I1 X) as Q.
    apply nth_error_In in Q. exact (chain_self _ _ _ C Q).
  - cbn [orb].
    assert (Q : existsb (fun k => existsb (Nat.eqb k) (firstn f (j :: l))) (t_kids ti0) =
                existsb (Nat.eqb i) (firstn f l)).
    { apply eq_true_iff_eq. rewrite existsb_eq, existsb_exists. split.
      - intros (k & I1 & X). apply existsb_eq in X. apply in_firstn in X as (n & Ln & X).
        apply in_firstn. exists n. split; [exact Ln|]. eapply POS; eauto.
      - intros X. apply in_firstn in X as (n & Ln & X).
        assert (NN : exists k, nth_error (j :: l) n = Some k).
        { destruct (nth_error (j :: l) n) as [k|] eqn:Z; [eauto|].
          apply nth_error_None in Z. assert (n < length l) by (apply nth_error_Some; congruence).
          cbn in Z. lia. }
        destruct NN as [k Nk]. exists k.
        assert (R : k < length s0) by (apply (chain_range _ _ _ k C); eapply nth_error_In; eauto).
        destruct (at_ s0 k) as [tk|] eqn:Ek; [|unfold at_ in Ek; apply nth_error_None in Ek; lia].
        pose proof (chain_nth _ _ _ C n k tk Nk Ek) as U. rewrite X in U.
        destruct (g_kid s0 G k tk i Ek U) as (t' & Et' & I1).
        assert (t' = ti0) by congruence. subst t'. split; [exact I1|].
        apply existsb_eq. apply in_firstn. eauto. }
    now rewrite Q.
Qed.
End Deep.

(** ** How often a node was made private *)

(** The nodes on which makeSubtreePrivate was called in a history. *)
Fixpoint marks (s : st) (h : list op) : list nat :=
  match h with
  | [] => []
  | o :: r =>
      match step s o with
      | Fine s' => (match o with Private i => [i] | _ => [] end ++ marks s' r)%list
      | No => marks s r
      | Broken _ => []
      end
  end.

(** How many entries of a list lie in another. *)
Definition hits (m l : list nat) : N :=
  N.of_nat (length (filter (fun x => existsb (Nat.eqb x) l) m)).

Lemma hits_app : forall m n l, hits (m ++ n)%list l = (hits m l + hits n l)%N.
Proof. intros. unfold hits. rewrite filter_app, app_length. lia. Qed.

Lemma hits_app_r : forall m a b, (forall x, In x a -> ~ In x b) ->
  hits m (a ++ b)%list = (hits m a + hits m b)%N.
Proof.
  intros m a b D. unfold hits. induction m as [|x m IH]; [reflexivity|]. cbn [filter].
  rewrite existsb_app.
  destruct (existsb (Nat.eqb x) a) eqn:A, (existsb (Nat.eqb x) b) eqn:B; cbn [orb length]; try lia.
  apply existsb_eq in A, B. exfalso. eapply D; eauto.
Qed.

Definition tally (s : st) (m : list nat) : Prop :=
  Forall (fun x => x < length s) m /\
  forall i t l, at_ s i = Some t -> chain s i l ->
    t_priv t = (hits m (i :: l) mod 2 ^ 32)%N.

Lemma hits_none : forall m l, (forall x, In x m -> ~ In x l) -> hits m l = 0%N.
Proof.
  intros m l D. unfold hits. induction m as [|x m IH]; [reflexivity|]. cbn [filter].
  destruct (existsb (Nat.eqb x) l) eqn:A.
  - exfalso. apply existsb_eq in A. apply (D x); cbn; auto.
  - apply IH. intros y Y. apply D. cbn; auto.
Qed.

Lemma firstn_full : forall (s : st) (j : nat) (l : list nat), length l < length s ->
  firstn (length s) (j :: l) = j :: l.
Proof. intros. apply firstn_all2. cbn. lia. Qed.

Lemma chain_same : forall s s' i l,
  (forall j, option_map t_up (at_ s' j) = option_map t_up (at_ s j)) ->
  chain s' i l -> chain s i l.
Proof.
  intros s s' i l H. apply chain_mono. intros j t E. specialize (H j). rewrite E in H.
  destruct (at_ s j) as [u|]; [|discriminate]. injection H as H. eauto.
Qed.

Lemma bare_ups : forall s s', map bare s' = map bare s ->
  forall j, option_map t_up (at_ s' j) = option_map t_up (at_ s j).
Proof.
  intros s s' B j. unfold at_.
  assert (X : nth_error (map bare s') j = nth_error (map bare s) j) by now rewrite B.
  destruct (nth_error s' j) as [t'|] eqn:E', (nth_error s j) as [t|] eqn:E; auto.
  - rewrite (map_nth_error bare _ _ E'), (map_nth_error bare _ _ E) in X.
    injection X. intros. cbn. congruence.
  - rewrite (map_nth_error bare _ _ E') in X. apply nth_error_None in E.
    assert (Z : nth_error (map bare s) j = None) by (apply nth_error_None; now rewrite map_length).
    congruence.
  - rewrite (map_nth_error bare _ _ E) in X. apply nth_error_None in E'.
    assert (Z : nth_error (map bare s') j = None) by (apply nth_error_None; now rewrite map_length).
    congruence.
Qed.

Lemma deepen_len : forall f b i s, length (deepen f b i s) = length s.
Proof.
  intros. pose proof (f_equal (@length tn) (deepen_bare f b i s)) as L.
  now rewrite !map_length in L.
Qed.

Lemma mod_add : forall a b : N, ((a mod 2 ^ 32 + b mod 2 ^ 32) mod 2 ^ 32 = (a + b) mod 2 ^ 32)%N.
Proof. intros. rewrite <- N.add_mod; [reflexivity|easy]. Qed.

Lemma mod_add1 : forall a : N, ((a mod 2 ^ 32 + 1) mod 2 ^ 32 = (a + 1) mod 2 ^ 32)%N.
Proof. intros. rewrite N.add_mod_idemp_l; [reflexivity|easy]. Qed.

Lemma tally_private : forall s m i t, good s -> tally s m -> at_ s i = Some t ->
  tally (deepen (length s) 1 i s) (m ++ [i]).
Proof.
  intros s m i t G [R T] Ei. split.
  - rewrite deepen_len. apply Forall_app. split; auto. repeat constructor. eapply at_lt; eauto.
  - intros j u l Ej Cj. pose proof (deepen_bare (length s) 1 i s) as B.
    apply (chain_same s) in Cj; [|now apply bare_ups].
    destruct (bare_at _ _ _ _ B Ej) as (u0 & E0 & _).
    rewrite (deepen_at s (length s) G (length s) 1 i s) with (l := l) (t := u0) in Ej; auto.
    + rewrite firstn_full in Ej by (eapply chain_len; eauto).
      rewrite hits_app. pose proof (T _ _ _ E0 Cj) as P.
      assert (X : hits [i] (j :: l) = if existsb (Nat.eqb i) (j :: l) then 1%N else 0%N).
      { unfold hits. cbn [filter]. destruct (existsb (Nat.eqb i) (j :: l)); reflexivity. }
      rewrite X. destruct (existsb (Nat.eqb i) (j :: l)); injection Ej as <-.
      * cbn [t_priv more]. rewrite P. apply mod_add1.
      * now rewrite N.add_0_r.
    + split; [reflexivity|]. eauto.
    + intros lp Cp. inversion Cp; subst; exfalso;
        match goal with Z : at_ s (length s) = Some _ |- _ => apply at_lt in Z; lia end.
Qed.

Lemma tally_kid : forall s m p c tp tc lp, good s -> tally s m ->
  at_ s p = Some tp -> at_ s c = Some tc -> p <> c -> chain s p lp -> ~ In c lp ->
  t_up tc = None -> 
  let s1 := upd s p (with_kid c tc) in
  tally (upd (deepen (length s) (t_priv tp) c s1) c (with_up p)) m.
Proof.
  intros s m p c tp tc lp G [R T] Ep Ec NE CP NL UC s1. split.
  - rewrite upd_len, deepen_len. unfold s1. rewrite upd_len. exact R.
  - intros j u l Ej Cj. set (s2 := deepen (length s) (t_priv tp) c s1) in *.
    assert (UP : forall k, option_map t_up (at_ s2 k) = option_map t_up (at_ s k)).
    { intros k. unfold s2. rewrite (bare_ups s1) by apply deepen_bare.
      unfold s1. rewrite at_upd. destruct (p =? k), (at_ s k); reflexivity. }
    (* the way up before the child was added *)
    assert (OLD : forall j l, chain (upd s2 c (with_up p)) j l ->
       (~ In c (j :: l) /\ chain s j l) \/
       (exists l0, chain s j l0 /\ In c (j :: l0) /\ l = (l0 ++ p :: lp)%list)).
    { assert (KEEP : forall j l, chain (upd s2 c (with_up p)) j l -> ~ In c (j :: l) -> chain s j l).
      { intros i0 l0 C0. induction C0 as [i0 t E U|i0 t q l0 E U C0 IH]; intros N0.
        - destruct (upd_case _ _ _ _ _ E) as (t0 & E0 & [(-> & _)|(_ & ->)]); [exfalso; apply N0; cbn; auto|].
          specialize (UP i0). rewrite E0 in UP. destruct (at_ s i0) as [v|] eqn:Ev; [|discriminate].
          injection UP as UP. apply ch_top with v; congruence.
        - destruct (upd_case _ _ _ _ _ E) as (t0 & E0 & [(-> & _)|(_ & ->)]); [exfalso; apply N0; cbn; auto|].
          specialize (UP i0). rewrite E0 in UP. destruct (at_ s i0) as [v|] eqn:Ev; [|discriminate].
          injection UP as UP. apply ch_up with v; [auto|congruence|]. apply IH. cbn in *. tauto. }
      intros i0 l0 C0. induction C0 as [i0 t E U|i0 t q l0 E U C0 IH].
      - left. destruct (upd_case _ _ _ _ _ E) as (t0 & E0 & [(-> & ->)|(N0 & ->)]); [discriminate|].
        split; [cbn; intuition congruence|]. apply KEEP; [apply ch_top with t0; auto|cbn; intuition congruence].
      - destruct (Nat.eq_dec i0 c) as [->|N0].
        + right. exists []. split; [apply ch_top with tc; auto|]. split; [cbn; auto|].
          cbn. destruct (upd_case _ _ _ _ _ E) as (t0 & E0 & [(_ & ->)|(N0 & _)]); [|easy].
          cbn in U. injection U as <-. f_equal.
          destruct IH as [[NC C1]|(l1 & C1 & I1 & ->)].
          * exact (chain_fun _ _ _ C1 _ CP).
          * exfalso. rewrite (chain_fun _ _ _ C1 _ CP) in I1. destruct I1 as [I1|I1]; [congruence|auto].
        + destruct (upd_case _ _ _ _ _ E) as (t0 & E0 & [(-> & _)|(_ & ->)]); [easy|].
          pose proof (UP i0) as V. rewrite E0 in V. destruct (at_ s i0) as [v|] eqn:Ev; [|discriminate].
          injection V as V.
          destruct IH as [[NC C1]|(l1 & C1 & I1 & ->)].
          * left. split; [cbn in *; intuition congruence|]. apply ch_up with v; auto. congruence.
          * right. exists (q :: l1). split; [apply ch_up with v; auto; congruence|].
            split; [cbn in *; tauto|reflexivity]. }
    assert (CL : forall j l u, chain s j l -> at_ s2 j = Some u -> exists u0,
      at_ s j = Some u0 /\
      t_priv u = t_priv (if existsb (Nat.eqb c) (j :: l) then more (t_priv tp) u0 else u0)).
    { intros j1 l1 u1 C1 E1.
      assert (LK : like s p s1).
      { split; [apply upd_len|]. intros k t E. unfold s1 in E.
        destruct (upd_case _ _ _ _ _ E) as (t0 & E0 & [(-> & ->)|(N0 & ->)]); exists t0; intuition. }
      assert (X : exists u0, at_ s j1 = Some u0) by (inversion C1; eauto).
      destruct X as [u0 E0]. exists u0. split; [exact E0|].
      assert (Y : exists v, at_ s1 j1 = Some v /\ t_priv v = t_priv u0).
      { unfold s1. rewrite at_upd, E0. destruct (p =? j1); cbn; eexists; split; reflexivity. }
      destruct Y as (v & Ev & Pv). unfold s2 in E1.
      rewrite (deepen_at s p G (length s) (t_priv tp) c s1 LK) with (l := l1) (t := v) in E1; auto.
      - rewrite firstn_full in E1 by (eapply chain_len; eauto).
        assert (Z : forall a b : tn, Some a = Some b -> a = b) by congruence. apply Z in E1. rewrite <- E1. clear E1 Z. destruct (existsb (Nat.eqb c) (j1 :: l1)); unfold more; cbn [t_priv]; rewrite Pv; reflexivity.
      - intros lp' CP'. rewrite <- (chain_fun _ _ _ CP _ CP'). cbn. intuition. }
    destruct (upd_case _ _ _ _ _ Ej) as (v & Ev & Q).
    assert (PV : t_priv u = t_priv v) by (destruct Q as [[_ ->]|[_ ->]]; reflexivity).
    destruct (OLD _ _ Cj) as [[NC C0]|(l0 & C0 & IC & ->)];
      destruct (CL _ _ _ C0 Ev) as (u0 & E0 & P0).
    + assert (X : existsb (Nat.eqb c) (j :: l) = false).
      { destruct (existsb (Nat.eqb c) (j :: l)) eqn:X; auto. apply existsb_eq in X. easy. }
      rewrite X in P0. rewrite PV, P0. apply T; auto.
    + apply existsb_eq in IC. rewrite IC in P0. rewrite PV, P0. cbn [t_priv more].
      rewrite (T _ _ _ E0 C0), (T _ _ _ Ep CP). rewrite mod_add. f_equal.
      change (j :: l0 ++ p :: lp)%list with ((j :: l0) ++ (p :: lp))%list.
      symmetry. apply hits_app_r.
      pose proof (chain_nodup _ _ _ Cj) as ND.
      change (j :: l0 ++ p :: lp)%list with ((j :: l0) ++ (p :: lp))%list in ND.
      apply SharedPtrSafety.NoDup_app_iff' in ND as (_ & _ & D). exact D.
Qed.

Lemma tally_step : forall s m o s', good s -> tally s m -> step s o = Fine s' ->
  tally s' (m ++ match o with Private i => [i] | _ => [] end).
Proof.
  intros s m [nm g ix i r|i a|i|p c] s' G TL E; cbn [step] in E; rewrite ?app_nil_r.
  - destruct (valid_name nm && valid_group nm g ix); [|discriminate]. injection E as <-.
    destruct TL as [R T]. split.
    + rewrite app_length. eapply Forall_impl; [|exact R]. cbn. intros. lia.
    + intros j t l Ej Cj. apply at_snoc in Ej as [Ej|[-> ->]].
      * apply T; auto. destruct (g_chain s G j t Ej) as [l' C'].
        replace l with l'; auto. 
        eapply chain_fun; [|exact Cj]. eapply chain_mono; [|exact C'].
        intros k u Ek. exists u. split; auto. now apply at_snoc_old.
      * cbn [t_priv]. inversion Cj as [z u Ez U|z u q l1 Ez U C1]; subst.
        -- rewrite hits_none; [reflexivity|].
           intros x X [<-|[]]. rewrite Forall_forall in R. specialize (R _ X). lia.
        -- exfalso. apply at_snoc in Ez as [Ez|[_ ->]]; [|discriminate].
           apply at_lt in Ez. lia.
  - destruct (at_ s i) as [t|] eqn:Ei; [|discriminate]. destruct (t_up t); [discriminate|].
    match type of E with (if ?b then _ else _) = _ => destruct b; [|discriminate] end.
    injection E as <-. destruct TL as [R T]. split; [now rewrite upd_len|].
    intros j u l Ej Cj. apply (chain_same s) in Cj.
    + destruct (upd_case _ _ _ _ _ Ej) as (u0 & E0 & [(-> & ->)|(_ & ->)]); cbn; apply T; auto.
    + intros k. rewrite at_upd. destruct (i =? k); [|reflexivity]. destruct (at_ s k); reflexivity.
  - destruct (at_ s i) as [t|] eqn:Ei; [|discriminate]. injection E as <-.
    eapply tally_private; eauto.
  - unfold add_child in E.
    destruct (at_ s p) as [tp|] eqn:Ep; [|discriminate].
    destruct (at_ s c) as [tc|] eqn:Ec; [|discriminate].
    destruct (Nat.eqb_spec p c) as [|NE]; [discriminate|].
    destruct (g_chain s G p tp Ep) as [lp CP]. rewrite (ups_chain _ _ _ CP) in E.
    destruct (existsb (Nat.eqb c) lp) eqn:X1; [discriminate|].
    match type of E with context [existsb ?f (t_kids tp)] =>
      destruct (existsb f (t_kids tp)) eqn:X2; [discriminate|] end.
    destruct (forallb (free_name tp) (t_name tc :: t_alias tc)) eqn:X3; [|discriminate].
    cbn [negb] in E. destruct (t_root tc) eqn:Rt; [discriminate|].
    unfold connect in E. destruct (t_up tc) eqn:U; [discriminate|]. injection E as <-.
    apply (tally_kid s m p c tp tc lp); auto.
    intros I0. apply existsb_eq in I0. congruence.
Qed.

Lemma tally_run : forall h s m s', good s -> tally s m -> run s h = Some s' ->
  tally s' (m ++ marks s h).
Proof.
  induction h as [|o h IH]; intros s m s' G T E; cbn in E |- *.
  - injection E as <-. now rewrite app_nil_r.
  - destruct (step s o) eqn:Q; [|eauto|discriminate].
    rewrite app_assoc. apply IH with (s := s0); auto.
    + eapply run_step_good; eauto.
    + eapply tally_step; eauto.
Qed.

Lemma tally_init : tally [] [].
Proof. split; [constructor|]. intros [|i] t l E; discriminate. Qed.
