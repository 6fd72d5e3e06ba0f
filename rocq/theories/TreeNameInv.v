(** The invariant of the device tree. *)
From Coq Require Import NArith Bool String Ascii Arith Permutation List Lia.
From Verif Require Import ParamTreeModel ParamTreeSpec ParamTreeProofs TreeNameModel
  TreeNameProofs SharedPtrSafety.
Import ListNotations.
Open Scope string_scope.
Open Scope nat_scope.

Record good (s : st) : Prop := {
  g_up : forall p tp k, at_ s p = Some tp -> In k (t_kids tp) ->
    exists t, at_ s k = Some t /\ t_up t = Some p;
  g_kid : forall k t p, at_ s k = Some t -> t_up t = Some p ->
    exists tp, at_ s p = Some tp /\ In k (t_kids tp);
  g_nodup : forall p tp, at_ s p = Some tp -> NoDup (t_kids tp);
  g_names : forall p tp, at_ s p = Some tp ->
    t_names tp = puts [] (entries s (t_kids tp));
  g_chain : forall i t, at_ s i = Some t -> exists l, chain s i l;
  g_root : forall i t, at_ s i = Some t -> t_root t = true -> t_up t = None;
  g_valid : forall i t, at_ s i = Some t ->
    valid_name (t_name t) = true /\
    valid_group (t_name t) (t_group t) (t_idx t) = true /\
    Forall (fun a => valid_name a = true /\ a <> "") (t_alias t);
  g_alias : forall i t, at_ s i = Some t -> NoDup (t_alias t);
  g_uniq : forall p tp a k b c x k' c', at_ s p = Some tp ->
    t_kids tp = (a ++ k :: b)%list -> at_ s k = Some c ->
    In x (t_name c :: t_alias c) -> In k' a -> at_ s k' = Some c' ->
    ~ In x (keys c');
  g_clash : forall p tp k k' c c', at_ s p = Some tp -> In k (t_kids tp) ->
    In k' (t_kids tp) -> k <> k' -> at_ s k = Some c -> at_ s k' = Some c' ->
    t_ix c = true -> t_ix c' = true -> t_group c = t_group c' ->
    t_idx c = t_idx c' -> t_idx c = idx_none
}.

Lemma good_init : good [].
Proof.
  assert (Z : forall i t, at_ [] i = Some t -> False) by (intros [|i] t E; discriminate).
  constructor; intros; exfalso; eauto.
Qed.

Lemma entries_same : forall s s' ks,
  (forall k, In k ks -> option_map keys (at_ s k) = option_map keys (at_ s' k)) ->
  entries s ks = entries s' ks.
Proof.
  intros s s' ks H. induction ks as [|k ks IH]; [reflexivity|].
  unfold entries in *. cbn [flat_map].
  rewrite IH by (intros; apply H; cbn; auto). f_equal.
  specialize (H k (or_introl eq_refl)).
  destruct (at_ s k), (at_ s' k); cbn in H; try discriminate; auto.
  injection H as ->. reflexivity.
Qed.

Lemma chain_mono : forall s s' i l,
  (forall j t, at_ s j = Some t -> exists t', at_ s' j = Some t' /\ t_up t' = t_up t) ->
  chain s i l -> chain s' i l.
Proof.
  intros s s' i l H C. induction C as [i t E U|i t p l E U C IH];
    destruct (H _ _ E) as (t' & E' & U').
  - apply ch_top with t'; congruence.
  - apply ch_up with t'; congruence.
Qed.

(** ** Privacy levels do not matter *)

Lemma keys_bare : forall t, keys (bare t) = keys t.
Proof. reflexivity. Qed.

Lemma good_bare : forall s s', map bare s' = map bare s -> good s -> good s'.
Proof.
  intros s s' B G.
  assert (F : forall i t', at_ s' i = Some t' -> exists t, at_ s i = Some t /\
     t_name t = t_name t' /\ t_group t = t_group t' /\ t_idx t = t_idx t' /\
     t_ix t = t_ix t' /\ t_root t = t_root t' /\ t_alias t = t_alias t' /\
     t_up t = t_up t' /\ t_kids t = t_kids t' /\ t_names t = t_names t' /\ keys t = keys t').
  { intros i t' E. destruct (bare_at _ _ _ _ B E) as (t & E' & Q).
    exists t. split; auto. rewrite <- (keys_bare t), <- (keys_bare t'), Q.
    unfold bare in Q. injection Q. intuition. }
  assert (F' : forall i t', at_ s i = Some t' -> exists t, at_ s' i = Some t /\
     t_up t = t_up t' /\ t_kids t = t_kids t' /\ keys t = keys t').
  { intros i t' E. destruct (bare_at _ _ _ _ (eq_sym B) E) as (t & E' & Q).
    exists t. split; auto. rewrite <- (keys_bare t), <- (keys_bare t'), Q.
    unfold bare in Q. injection Q. intuition. }
  constructor.
  - intros p tp k E I. destruct (F _ _ E) as (t & Et & F0). decompose [and] F0.
    destruct (g_up s G p t k Et) as (c & Ec & Uc); [congruence|].
    destruct (F' _ _ Ec) as (c' & ? & ? & ? & ?). exists c'. split; congruence.
  - intros k t p E U. destruct (F _ _ E) as (t0 & Et & F0). decompose [and] F0.
    destruct (g_kid s G k t0 p Et) as (tp & Ep & I); [congruence|].
    destruct (F' _ _ Ep) as (tp' & ? & ? & K & ?). exists tp'. split; [auto|].
    now rewrite K.
  - intros p tp E. destruct (F _ _ E) as (t & Et & F0). decompose [and] F0.
    pose proof (g_nodup s G p t Et). congruence.
  - intros p tp E. destruct (F _ _ E) as (t & Et & F0). decompose [and] F0.
    pose proof (g_names s G p t Et) as Q.
    assert (X : entries s (t_kids t) = entries s' (t_kids tp)).
    { assert (Y : t_kids t = t_kids tp) by assumption. rewrite Y.
      apply entries_same. intros k _. destruct (at_ s k) as [c|] eqn:Ek.
      - destruct (F' _ _ Ek) as (c' & -> & ? & ? & ?). cbn. congruence.
      - destruct (at_ s' k) as [c'|] eqn:Ek'; auto.
        destruct (F _ _ Ek') as (? & ? & ?). congruence. }
    congruence.
  - intros i t E. destruct (F _ _ E) as (t0 & Et & F0).
    destruct (g_chain s G i t0 Et) as [l C]. exists l. eapply chain_mono; [|exact C].
    intros j u Ej. destruct (F' _ _ Ej) as (u' & ? & ? & ? & ?). eauto.
  - intros i t E R. destruct (F _ _ E) as (t0 & Et & F0). decompose [and] F0.
    assert (t_up t0 = None); [|congruence]. apply (g_root s G i t0 Et). congruence.
  - intros i t E. destruct (F _ _ E) as (t0 & Et & F0). decompose [and] F0.
    pose proof (g_valid s G i t0 Et) as (V1 & V2 & V3).
    repeat match goal with Q : _ t0 = _ t |- _ => rewrite <- Q; clear Q end. auto.
  - intros i t E. destruct (F _ _ E) as (t0 & Et & F0). decompose [and] F0.
    pose proof (g_alias s G i t0 Et). congruence.
  - intros p tp a k b c x k' c' E K Ek X I Ek' Z.
    destruct (F _ _ E) as (t & Et & F0). decompose [and] F0.
    destruct (F _ _ Ek) as (d & Ed & F1). decompose [and] F1.
    destruct (F _ _ Ek') as (d' & Ed' & F2). decompose [and] F2.
    apply (g_uniq s G p t a k b d x k' d'); congruence.
  - intros p tp k k' c c' E I I' NE Ek Ek' X X' GG II.
    destruct (F _ _ E) as (t & Et & F0). decompose [and] F0.
    destruct (F _ _ Ek) as (d & Ed & F1). decompose [and] F1.
    destruct (F _ _ Ek') as (d' & Ed' & F2). decompose [and] F2.
    assert (t_idx d = idx_none); [|congruence].
    apply (g_clash s G p t k k' d d'); congruence.
Qed.

(** ** A new node *)

Lemma good_new : forall s nm g ix i r, good s -> valid_name nm = true ->
  valid_group nm g i = true ->
  good (s ++ [mkT nm g i ix r [] 0 None [] []])%list.
Proof.
  intros s nm g ix i r G V1 V2. set (x := mkT nm g i ix r [] 0 None [] []).
  assert (KI : forall p tp k, at_ s p = Some tp -> In k (t_kids tp) -> k < length s).
  { intros p tp k E I. destruct (g_up s G p tp k E I) as (t & Et & _). eapply at_lt; eauto. }
  constructor.
  - intros p tp k E I. apply at_snoc in E as [E|[-> ->]]; [|easy].
    destruct (g_up s G p tp k E I) as (t & Et & U). exists t.
    split; auto. now apply at_snoc_old.
  - intros k t p E U. apply at_snoc in E as [E|[-> ->]]; [|easy].
    destruct (g_kid s G k t p E U) as (tp & Et & I). exists tp.
    split; auto. now apply at_snoc_old.
  - intros p tp E. apply at_snoc in E as [E|[-> ->]]; [|constructor].
    eapply g_nodup; eauto.
  - intros p tp E. apply at_snoc in E as [E|[-> ->]]; [|reflexivity].
    rewrite (g_names s G p tp E). f_equal. apply entries_same. intros k I.
    destruct (g_up s G p tp k E I) as (t & Et & _).
    now rewrite Et, (at_snoc_old _ x _ _ Et).
  - intros j t E. apply at_snoc in E as [E|[-> ->]].
    + destruct (g_chain s G j t E) as [l C]. exists l. eapply chain_mono; [|exact C].
      intros k u Ek. exists u. split; auto. now apply at_snoc_old.
    + exists []. apply ch_top with x; auto. unfold at_.
      rewrite nth_error_app2, Nat.sub_diag by lia. reflexivity.
  - intros j t E R. apply at_snoc in E as [E|[-> ->]]; [|reflexivity].
    eapply g_root; eauto.
  - intros j t E. apply at_snoc in E as [E|[-> ->]]; [eapply g_valid; eauto|].
    split; [exact V1|split; [exact V2|constructor]].
  - intros j t E. apply at_snoc in E as [E|[-> ->]]; [eapply g_alias; eauto|].
    constructor.
  - intros p tp a k b c y k' c' E K Ek X I Ek'.
    apply at_snoc in E as [E|[-> ->]]; [|destruct a; discriminate].
    assert (k < length s) by (apply (KI p tp); auto; rewrite K; apply in_elt).
    assert (k' < length s) by (apply (KI p tp); auto; rewrite K; apply in_app_iff; auto).
    apply at_snoc in Ek as [Ek|[Z _]]; [|lia].
    apply at_snoc in Ek' as [Ek'|[Z _]]; [|lia].
    exact (g_uniq s G p tp a k b c y k' c' E K Ek X I Ek').
  - intros p tp k k' c c' E I1 I2 NE Ek Ek'.
    apply at_snoc in E as [E|[-> ->]]; [|easy].
    pose proof (KI _ _ _ E I1). pose proof (KI _ _ _ E I2).
    apply at_snoc in Ek as [Ek|[Z _]]; [|lia].
    apply at_snoc in Ek' as [Ek'|[Z _]]; [|lia].
    intros. eapply (g_clash s G p tp k k'); eauto.
Qed.

(** ** An alias *)

Definition with_alias (a : string) (t : tn) : tn :=
  mkT (t_name t) (t_group t) (t_idx t) (t_ix t) (t_root t) (t_alias t ++ [a])%list
      (t_priv t) (t_up t) (t_kids t) (t_names t).

Lemma upd_case : forall s i f j t, at_ (upd s i f) j = Some t ->
  exists t0, at_ s j = Some t0 /\ (j = i /\ t = f t0 \/ j <> i /\ t = t0).
Proof.
  intros s i f j t E. rewrite at_upd in E. destruct (Nat.eqb_spec i j) as [->|NE].
  - destruct (at_ s j) as [t0|]; [|discriminate]. injection E as <-. eauto.
  - eauto.
Qed.

Lemma good_alias : forall s i a t, good s -> at_ s i = Some t -> t_up t = None ->
  valid_name a = true -> a <> "" -> ~ In a (t_alias t) ->
  good (upd s i (with_alias a)).
Proof.
  intros s i a t G Ei U V NA NI.
  assert (F : forall j u, at_ (upd s i (with_alias a)) j = Some u ->
     exists u0, at_ s j = Some u0 /\ t_name u = t_name u0 /\ t_group u = t_group u0 /\
       t_idx u = t_idx u0 /\ t_ix u = t_ix u0 /\ t_root u = t_root u0 /\ t_up u = t_up u0 /\
       t_kids u = t_kids u0 /\ t_names u = t_names u0 /\
       (t_up u <> None -> u = u0)).
  { intros j u E. destruct (upd_case _ _ _ _ _ E) as (u0 & E0 & [(-> & ->)|(NE & ->)]);
      exists u0; cbn; intuition congruence. }
  assert (F' : forall j u, at_ s j = Some u -> exists u',
     at_ (upd s i (with_alias a)) j = Some u' /\ t_up u' = t_up u /\ t_kids u' = t_kids u /\
     (t_up u <> None -> u' = u)).
  { intros j u E. rewrite at_upd, E. destruct (Nat.eqb_spec i j) as [->|]; cbn; eexists;
      (split; [reflexivity|]); cbn; intuition congruence. }
  assert (KF : forall p tp k, at_ (upd s i (with_alias a)) p = Some tp -> In k (t_kids tp) ->
     at_ (upd s i (with_alias a)) k = at_ s k /\ k <> i).
  { intros p tp k E I0. destruct (F _ _ E) as (u0 & E0 & F0). decompose [and] F0.
    destruct (g_up s G p u0 k) as (c & Ec & Uc); [auto|congruence|].
    rewrite at_upd. destruct (Nat.eqb_spec i k) as [->|NE]; [congruence|auto]. }
  constructor.
  - intros p tp k E I0. destruct (F _ _ E) as (u0 & E0 & F0). decompose [and] F0.
    destruct (KF _ _ _ E I0) as [Q _]. rewrite Q.
    apply (g_up s G p u0 k); congruence.
  - intros k u p E Uk. destruct (F _ _ E) as (u0 & E0 & F0). decompose [and] F0.
    destruct (g_kid s G k u0 p) as (tp & Ep & I0); [auto|congruence|].
    destruct (F' _ _ Ep) as (tp' & ? & ? & K & ?). exists tp'. rewrite K. auto.
  - intros p tp E. destruct (F _ _ E) as (u0 & E0 & F0). decompose [and] F0.
    pose proof (g_nodup s G p u0 E0). congruence.
  - intros p tp E. destruct (F _ _ E) as (u0 & E0 & F0). decompose [and] F0.
    pose proof (g_names s G p u0 E0) as Q.
    assert (Y : t_kids tp = t_kids u0) by assumption.
    rewrite (entries_same (upd s i (with_alias a)) s); [congruence|].
    intros k I0. destruct (KF _ _ _ E I0) as [-> _]. reflexivity.
  - intros j u E. destruct (F _ _ E) as (u0 & E0 & F0).
    destruct (g_chain s G j u0 E0) as [l C]. exists l. eapply chain_mono; [|exact C].
    intros k v Ek. destruct (F' _ _ Ek) as (v' & ? & ? & ? & ?). eauto.
  - intros j u E R. destruct (F _ _ E) as (u0 & E0 & F0). decompose [and] F0.
    assert (t_up u0 = None); [|congruence]. apply (g_root s G j u0 E0). congruence.
  - intros j u E. destruct (upd_case _ _ _ _ _ E) as (u0 & E0 & [(-> & ->)|(NE & ->)]);
      destruct (g_valid s G _ _ E0) as (V1 & V2 & V3); (split; [exact V1|split; [exact V2|]]).
    + apply Forall_app. auto.
    + exact V3.
  - intros j u E. destruct (upd_case _ _ _ _ _ E) as (u0 & E0 & [(-> & ->)|(NE & ->)]);
      pose proof (g_alias s G _ _ E0) as ND; cbn; auto.
    assert (u0 = t) by congruence. subst. apply NoDup_app_iff'. 
    split; [auto|split; [repeat constructor; easy|]].
    intros z Z [<-|[]]. now apply NI.
  - intros p tp aa k b c x k' c' E K Ek X I0 Ek'.
    destruct (F _ _ E) as (u0 & E0 & F0). decompose [and] F0.
    assert (J1 : In k (t_kids tp)) by (rewrite K; apply in_elt).
    assert (J2 : In k' (t_kids tp)) by (rewrite K; apply in_app_iff; auto).
    destruct (KF _ _ _ E J1) as [Q1 _]. destruct (KF _ _ _ E J2) as [Q2 _].
    apply (g_uniq s G p u0 aa k b c x k' c'); congruence.
  - intros p tp k k' c c' E I1 I2 NE Ek Ek'.
    destruct (F _ _ E) as (u0 & E0 & F0). decompose [and] F0.
    destruct (KF _ _ _ E I1) as [Q1 _]. destruct (KF _ _ _ E I2) as [Q2 _].
    apply (g_clash s G p u0 k k' c c'); congruence.
Qed.

(** ** A child *)

Definition with_kid (c : nat) (tc t : tn) : tn :=
  mkT (t_name t) (t_group t) (t_idx t) (t_ix t) (t_root t) (t_alias t)
      (t_priv t) (t_up t) (t_kids t ++ [c])%list
      (fold_left (fun l k => put_name k c l) (keys tc) (t_names t)).

Definition with_up (p : nat) (t : tn) : tn :=
  mkT (t_name t) (t_group t) (t_idx t) (t_ix t) (t_root t) (t_alias t)
      (t_priv t) (Some p) (t_kids t) (t_names t).

Lemma cons_eq : forall (A : Type) (x y : A) l m, x :: l = y :: m -> x = y /\ l = m.
Proof. intros A x y l m E. injection E. auto. Qed.

Lemma upd_bare : forall a b i f,
  (forall t t', bare t = bare t' -> bare (f t) = bare (f t')) ->
  map bare a = map bare b -> map bare (upd a i f) = map bare (upd b i f).
Proof.
  induction a as [|x a IH]; intros [|y b] i f Hf E; try discriminate; [reflexivity|].
  cbn [map] in E. apply cons_eq in E as [E1 E2]. destruct i; cbn [upd map].
  - f_equal; auto.
  - f_equal; auto.
Qed.

Lemma keys_alias : forall t x, t_name t <> "" \/ x <> "" ->
  In x (t_name t :: t_alias t) -> x <> "" -> In x (keys t).
Proof.
  intros t x _ I0 NE. unfold keys, idents. apply in_app_iff. left.
  apply in_app_iff. destruct I0 as [<-|I0]; [left|right; auto].
  destruct (String.eqb_spec (t_name t) ""); [easy|cbn; auto].
Qed.

Section Child.
Variables (s : st) (p c : nat) (tp tc : tn) (lp : list nat).
Hypotheses (G : good s) (Ep : at_ s p = Some tp) (Ec : at_ s c = Some tc).
Hypotheses (NE : p <> c) (CP : chain s p lp) (NL : ~ In c lp).
Hypothesis NK : forall k t, In k (t_kids tp) -> at_ s k = Some t ->
  k <> c /\ group_clash t tc = false.
Hypothesis FR : forall x, In x (t_name tc :: t_alias tc) -> free_name tp x = true.
Hypotheses (NR : t_root tc = false) (UC : t_up tc = None).

Let s' := upd (upd s p (with_kid c tc)) c (with_up p).

Lemma kid_at : forall j, at_ s' j =
  if c =? j then option_map (with_up p) (at_ s j)
  else if p =? j then option_map (with_kid c tc) (at_ s j) else at_ s j.
Proof.
  intros j. unfold s'. rewrite !at_upd. destruct (Nat.eqb_spec c j) as [<-|]; auto.
  destruct (Nat.eqb_spec p c); [easy|reflexivity].
Qed.

Lemma kid_case : forall j t, at_ s' j = Some t -> exists t0, at_ s j = Some t0 /\
  t_name t = t_name t0 /\ t_group t = t_group t0 /\ t_idx t = t_idx t0 /\
  t_ix t = t_ix t0 /\ t_root t = t_root t0 /\ t_alias t = t_alias t0 /\ keys t = keys t0 /\
  (j = c /\ t0 = tc /\ t_up t = Some p \/ j <> c /\ t_up t = t_up t0) /\
  (j = p /\ t0 = tp /\ t_kids t = (t_kids tp ++ [c])%list /\
     t_names t = puts (t_names tp) (map (fun x => (x, c)) (keys tc)) \/
   j <> p /\ t_kids t = t_kids t0 /\ t_names t = t_names t0).
Proof.
  intros j t E. rewrite kid_at in E. destruct (Nat.eqb_spec c j) as [<-|Nc].
  - rewrite Ec in E. injection E as <-. exists tc. cbn. intuition congruence.
  - destruct (Nat.eqb_spec p j) as [<-|Np].
    + rewrite Ep in E. injection E as <-. exists tp. cbn.
      rewrite puts_keys. intuition congruence.
    + exists t. intuition congruence.
Qed.

Lemma kid_back : forall j t0, at_ s j = Some t0 -> exists t, at_ s' j = Some t.
Proof.
  intros j t0 E. rewrite kid_at, E. destruct (c =? j), (p =? j); cbn; eauto.
Qed.

Lemma kid_keys : forall k, option_map keys (at_ s k) = option_map keys (at_ s' k).
Proof.
  intros k. rewrite kid_at. destruct (c =? k), (p =? k); auto; destruct (at_ s k); reflexivity.
Qed.

Lemma kid_free : forall x k' c', In x (t_name tc :: t_alias tc) -> In k' (t_kids tp) ->
  at_ s k' = Some c' -> ~ In x (keys c').
Proof.
  intros x k' c' I0 I1 E Z. specialize (FR x I0). unfold free_name in FR.
  destruct (first_name x (t_names tp)) eqn:Q; [discriminate|].
  rewrite first_none in Q. apply (Q k'). rewrite (g_names s G p tp Ep).
  apply puts_in. right. unfold entries. apply in_flat_map. exists k'. split; auto.
  rewrite E. apply in_map_iff. eauto.
Qed.

Lemma chain_keep : forall i l, chain s i l -> ~ In c (i :: l) -> chain s' i l.
Proof.
  intros i l C. induction C as [i t E U|i t q l E U C IH]; intros N0;
    destruct (kid_back _ _ E) as [t' E']; destruct (kid_case _ _ E') as (t0 & E0 & F);
    decompose [and] F; cbn in N0.
  - apply ch_top with t'; auto. intuition congruence.
  - apply ch_up with t'; [exact E'|intuition congruence|apply IH; cbn; tauto].
Qed.

Lemma chain_new : chain s' c (p :: lp).
Proof.
  destruct (kid_back _ _ Ec) as [t' E'].
  apply ch_up with t'; auto.
  - destruct (kid_case _ _ E') as (t0 & E0 & F). decompose [and] F. intuition congruence.
  - apply chain_keep; auto. cbn. intros [->|]; tauto.
Qed.

Lemma chain_any : forall i l, chain s i l -> exists l', chain s' i l'.
Proof.
  intros i l C. induction C as [i t E U|i t q l E U C IH].
  - destruct (Nat.eq_dec i c) as [->|Ni]; [eauto using chain_new|].
    exists []. apply chain_keep; [apply ch_top with t; auto|]. cbn. intuition.
  - destruct IH as [l' C']. exists (q :: l').
    destruct (kid_back _ _ E) as [t' E']. apply ch_up with t'; auto.
    destruct (kid_case _ _ E') as (t0 & E0 & F). decompose [and] F.
    intuition congruence.
Qed.

Lemma good_kid : good s'.
Proof.
  constructor.
  - intros q tq k E I0. destruct (kid_case _ _ E) as (t0 & E0 & Fn & Fg & Fi & Fx & Fr & Fa & Fk & Fu & Fc).
    assert (X : k = c /\ q = p \/ (In k (t_kids t0))).
    { destruct Fc as [(-> & -> & K & _)|(_ & K & _)]; rewrite K in I0; auto.
      apply in_app_iff in I0 as [I0|[<-|[]]]; auto. }
    destruct X as [[-> ->]|X].
    + destruct (kid_back _ _ Ec) as [t' E']. exists t'. split; auto.
      destruct (kid_case _ _ E') as (t1 & E1 & Fn1 & Fg1 & Fi1 & Fx1 & Fr1 & Fa1 & Fk1 & Fu1 & Fc1). intuition congruence.
    + destruct (g_up s G q t0 k E0 X) as (u & Eu & Uu).
      destruct (kid_back _ _ Eu) as [t' E']. exists t'. split; auto.
      destruct (kid_case _ _ E') as (t1 & E1 & Fn2 & Fg2 & Fi2 & Fx2 & Fr2 & Fa2 & Fk2 & Fu2 & Fc2). intuition congruence.
  - intros k t q E U. destruct (kid_case _ _ E) as (t0 & E0 & Fn & Fg & Fi & Fx & Fr & Fa & Fk & Fu & Fc).
    assert (X : k = c /\ q = p \/ t_up t0 = Some q) by intuition congruence.
    destruct X as [[-> ->]|X].
    + destruct (kid_back _ _ Ep) as [t' E']. exists t'. split; auto.
      destruct (kid_case _ _ E') as (t1 & E1 & Fn1 & Fg1 & Fi1 & Fx1 & Fr1 & Fa1 & Fk1 & Fu1 & Fc1).
      destruct Fc1 as [(_ & _ & -> & _)|(? & _)]; [apply in_elt|easy].
    + destruct (g_kid s G k t0 q E0 X) as (u & Eu & Iu).
      destruct (kid_back _ _ Eu) as [t' E']. exists t'. split; auto.
      destruct (kid_case _ _ E') as (t1 & E1 & Fn2 & Fg2 & Fi2 & Fx2 & Fr2 & Fa2 & Fk2 & Fu2 & Fc2).
      destruct Fc2 as [(-> & -> & -> & _)|(? & -> & _)]; [|congruence].
      apply in_app_iff. left. congruence.
  - intros q tq E. destruct (kid_case _ _ E) as (t0 & E0 & Fn & Fg & Fi & Fx & Fr & Fa & Fk & Fu & Fc).
    pose proof (g_nodup s G q t0 E0) as ND.
    destruct Fc as [(-> & -> & -> & _)|(? & -> & _)]; auto.
    apply NoDup_app_iff'. split; [auto|split; [repeat constructor; easy|]].
    intros z Z [<-|[]]. destruct (NK c tc Z Ec). easy.
  - intros q tq E. destruct (kid_case _ _ E) as (t0 & E0 & Fn & Fg & Fi & Fx & Fr & Fa & Fk & Fu & Fc).
    pose proof (g_names s G q t0 E0) as Q.
    rewrite <- (entries_same s s') by (intros; apply kid_keys).
    destruct Fc as [(-> & -> & -> & ->)|(? & -> & ->)]; auto.
    unfold entries. rewrite flat_map_app, puts_app.
    fold (entries s (t_kids tp)). rewrite <- Q. cbn. now rewrite Ec, app_nil_r.
  - intros i t E. destruct (kid_case _ _ E) as (t0 & E0 & F).
    destruct (g_chain s G i t0 E0) as [l C]. eapply chain_any; eauto.
  - intros i t E R. destruct (kid_case _ _ E) as (t0 & E0 & Fn & Fg & Fi & Fx & Fr & Fa & Fk & Fu & Fc).
    destruct Fu as [(-> & -> & _)|(_ & ->)]; [congruence|].
    apply (g_root s G i t0 E0). congruence.
  - intros i t E. destruct (kid_case _ _ E) as (t0 & E0 & Fn & Fg & Fi & Fx & Fr & Fa & Fk & Fu & Fc).
    rewrite Fn, Fg, Fi, Fa. apply (g_valid s G i t0 E0).
  - intros i t E. destruct (kid_case _ _ E) as (t0 & E0 & Fn & Fg & Fi & Fx & Fr & Fa & Fk & Fu & Fc).
    rewrite Fa. apply (g_alias s G i t0 E0).
  - intros q tq a k b d x k' d' E K Ek X I0 Ek' Z.
    destruct (kid_case _ _ E) as (t0 & E0 & Fn & Fg & Fi & Fx & Fr & Fa & Fk & Fu & Fc).
    destruct (kid_case _ _ Ek) as (u & Eu & Fn1 & Fg1 & Fi1 & Fx1 & Fr1 & Fa1 & Fk1 & Fu1 & Fc1).
    destruct (kid_case _ _ Ek') as (u' & Eu' & Fn2 & Fg2 & Fi2 & Fx2 & Fr2 & Fa2 & Fk2 & Fu2 & Fc2).
    rewrite Fn1, Fa1 in X. rewrite Fk2 in Z.
    destruct Fc as [(-> & -> & K' & _)|(_ & K' & _)].
    + rewrite K' in K. destruct b as [|b0 b] using rev_ind.
      * apply app_inj_tail in K as [K ->]. assert (u = tc) by congruence. subst u.
        apply (kid_free x k' u'); auto. congruence.
      * rewrite app_comm_cons, app_assoc in K. apply app_inj_tail in K as [K _].
        apply (g_uniq s G p tp a k b u x k' u'); auto.
    + apply (g_uniq s G q t0 a k b u x k' u'); auto. congruence.
  - intros q tq k k' d d' E I1 I2 Nk Ek Ek' X1 X2 GG II.
    destruct (kid_case _ _ E) as (t0 & E0 & Fn & Fg & Fi & Fx & Fr & Fa & Fk & Fu & Fc).
    destruct (kid_case _ _ Ek) as (u & Eu & Fn1 & Fg1 & Fi1 & Fx1 & Fr1 & Fa1 & Fk1 & Fu1 & Fc1).
    destruct (kid_case _ _ Ek') as (u' & Eu' & Fn2 & Fg2 & Fi2 & Fx2 & Fr2 & Fa2 & Fk2 & Fu2 & Fc2).
    assert (W : forall k1 u1 k2, In k1 (t_kids tp) -> k2 = c -> at_ s k1 = Some u1 ->
              t_ix u1 = true -> t_ix tc = true -> t_group u1 = t_group tc ->
              t_idx u1 = t_idx tc -> t_idx u1 = idx_none).
    { intros k1 u1 k2 J1 -> J2 J3 J4 J5 J6. destruct (NK k1 u1 J1 J2) as [_ Q].
      unfold group_clash in Q. rewrite J3, J4, J5, J6, String.eqb_refl, N.eqb_refl in Q.
      rewrite !andb_true_r, andb_true_l in Q. apply negb_false_iff, N.eqb_eq in Q. congruence. }
    assert (OLD : In k (t_kids t0) -> In k' (t_kids t0) -> t_idx d = idx_none).
    { intros J1 J2. assert (t_idx u = idx_none); [|congruence].
      apply (g_clash s G q t0 k k' u u'); congruence. }
    destruct Fc as [(-> & -> & K' & _)|(_ & K' & _)]; rewrite K' in I1, I2; auto.
    apply in_app_iff in I1 as [I1|[<-|[]]]; apply in_app_iff in I2 as [I2|[<-|[]]]; auto.
    + assert (t_idx u = idx_none); [|congruence]. assert (u' = tc) by congruence. subst u'.
      apply (W k u c); congruence.
    + assert (t_idx u' = idx_none); [|congruence]. assert (u = tc) by congruence. subst u.
      apply (W k' u' c); congruence.
    + congruence.
Qed.
End Child.

(** ** Every operation *)

Lemma run_step_good : forall s o s', good s -> step s o = Fine s' -> good s'.
Proof.
  intros s [nm g ix i r|i a|i|p c] s' G E; cbn [step] in E.
  - destruct (valid_name nm) eqn:V1; [|discriminate].
    destruct (valid_group nm g ix) eqn:V2; [|discriminate].
    injection E as <-. now apply good_new.
  - destruct (at_ s i) as [t|] eqn:Ei; [|discriminate].
    destruct (t_up t) eqn:U; [discriminate|].
    destruct (valid_name a) eqn:V; [|discriminate]. cbn [andb] in E.
    destruct (String.eqb_spec a "") as [->|NE]; [discriminate|]. cbn [andb negb] in E.
    destruct (existsb (String.eqb a) (t_alias t)) eqn:X; [discriminate|].
    injection E as <-. apply (good_alias s i a t); auto.
    intros I0. assert (existsb (String.eqb a) (t_alias t) = true); [|congruence].
    apply existsb_exists. exists a. split; auto. apply String.eqb_refl.
  - destruct (at_ s i) eqn:Ei; [|discriminate]. injection E as <-.
    apply good_bare with s; auto. apply deepen_bare.
  - unfold add_child in E.
    destruct (at_ s p) as [tp|] eqn:Ep; [|discriminate].
    destruct (at_ s c) as [tc|] eqn:Ec; [|discriminate].
    destruct (Nat.eqb_spec p c) as [|NE]; [discriminate|].
    destruct (g_chain s G p tp Ep) as [lp CP]. rewrite (ups_chain _ _ _ CP) in E.
    destruct (existsb (Nat.eqb c) lp) eqn:X1; [discriminate|].
    match type of E with context [existsb ?f (t_kids tp)] =>
      destruct (existsb f (t_kids tp)) eqn:X2; [discriminate|] end.
    destruct (forallb (free_name tp) (t_name tc :: t_alias tc)) eqn:X3; [|discriminate].
    cbn [negb] in E. destruct (t_root tc) eqn:R; [discriminate|].
    unfold connect in E. destruct (t_up tc) eqn:U; [discriminate|]. injection E as <-.
    apply good_bare with (upd (upd s p (with_kid c tc)) c (with_up p)).
    + apply upd_bare.
      * intros t t' Q. unfold bare in *. cbn. injection Q. intros. congruence.
      * apply deepen_bare.
    + apply good_kid with tp lp; auto.
      * intros I0. assert (existsb (Nat.eqb c) lp = true); [|congruence].
        apply existsb_exists. exists c. split; auto. apply Nat.eqb_refl.
      * intros k t I0 Ek.
        assert (Z : (k =? c) || group_clash t tc = false).
        { destruct ((k =? c) || group_clash t tc) eqn:Z; auto.
          rewrite <- X2. symmetry. apply existsb_exists. exists k. rewrite Ek. auto. }
        apply orb_false_iff in Z as [Z1 Z2]. split; auto. now apply Nat.eqb_neq.
      * rewrite forallb_forall in X3. exact X3.
Qed.

Lemma run_good : forall h s s', good s -> run s h = Some s' -> good s'.
Proof.
  induction h as [|o h IH]; intros s s' G E; cbn in E.
  - injection E as <-. auto.
  - destruct (step s o) eqn:Q; [|eauto|discriminate].
    eapply IH; [|exact E]. eapply run_step_good; eauto.
Qed.
