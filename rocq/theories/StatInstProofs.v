(** Lemmas about statistic instances. *)
From Coq Require Import ZArith Bool List Lia Floats.SpecFloat.
From Verif Require Import StatInstModel.
Import ListNotations.
Open Scope Z_scope.

(** What an expression is meant to report for the window from w0 to w1, whatever the states of its instances. *)
Fixpoint delta (w0 w1 : world) (e : expr) : dbl :=
  match e with
  | EConst d => d
  | ESim n => sim w1 n
  | EUn f a => f (delta w0 w1 a)
  | EBin f a b => f (delta w0 w1 a) (delta w0 w1 b)
  | ETern f a b c => f (delta w0 w1 a) (delta w0 w1 b) (delta w0 w1 c)
  | ECtr c true _ => of_u64 (ctr w1 c)
  | ECtr c false _ => dsub (of_u64 (ctr w1 c)) (of_u64 (ctr w0 c))
  | EPar p _ => par w1 p
  | EDef _ b _ => delta w0 w1 b
  | EFree _ b _ => delta w0 w1 b
  end.

(** Every node an expression refers to exists, and its free expressions were given a scheduler. *)
Fixpoint up (w : world) (e : expr) : Prop :=
  match e with
  | EConst _ | ESim _ => True
  | EUn _ a => up w a
  | EBin _ a b => up w a /\ up w b
  | ETern _ a b c => up w a /\ up w b /\ up w c
  | ECtr c _ _ => c_up w c = true
  | EPar p _ => p_up w p = true
  | EDef d b _ => d_up w d = true /\ up w b
  | EFree x b _ => x = true /\ up w b
  end.

(** No instance in the expression accumulates. *)
Fixpoint windowed (e : expr) : Prop :=
  match e with
  | EConst _ | ESim _ => True
  | EUn _ a => windowed a
  | EBin _ a b => windowed a /\ windowed b
  | ETern _ a b c => windowed a /\ windowed b /\ windowed c
  | ECtr _ _ s | EPar _ s => s_cum s = false
  | EDef _ b s | EFree _ b s => s_cum s = false /\ windowed b
  end.

(** The root is an instance, not a bare operator. *)
Definition instance (e : expr) : Prop :=
  match e with ECtr _ _ _ | EPar _ _ | EDef _ _ _ | EFree _ _ _ => True | _ => False end.

(** The same expression but for the states of the instances. *)
Fixpoint same (a b : expr) : Prop :=
  match a, b with
  | EConst x, EConst y => x = y
  | ESim x, ESim y => x = y
  | EUn f a, EUn g b => f = g /\ same a b
  | EBin f a1 a2, EBin g b1 b2 => f = g /\ same a1 b1 /\ same a2 b2
  | ETern f a1 a2 a3, ETern g b1 b2 b3 => f = g /\ same a1 b1 /\ same a2 b2 /\ same a3 b3
  | ECtr c l _, ECtr c' l' _ => c = c' /\ l = l'
  | EPar p _, EPar p' _ => p = p'
  | EDef d b _, EDef d' b' _ => d = d' /\ same b b'
  | EFree x b _, EFree x' b' _ => x = x' /\ same b b'
  | _, _ => False
  end.

Lemma bind_ok : forall A B (x : res A) (f : A -> res B) b, bind x f = Ok b -> exists a, x = Ok a /\ f a = Ok b.
Proof. intros A B [a| | | |] f b H; try discriminate H; eauto. Qed.

Ltac opens :=
  repeat match goal with
  | H : bind _ _ = Ok _ |- _ => apply bind_ok in H; destruct H as [? [? H]]
  | H : (if ?b then _ else _) = Ok _ |- _ => destruct b eqn:?; try discriminate H
  | H : Ok _ = Ok _ |- _ => inversion H; clear H; subst
  end.

Lemma same_delta : forall a b w0 w1, same a b -> delta w0 w1 a = delta w0 w1 b.
Proof.
  induction a; destruct b; cbn; intros w0 w1 H; try contradiction; intuition; subst; auto;
  repeat match goal with IH : forall _ _ _, same ?a _ -> _, H : same ?a _ |- _ => rewrite (IH _ w0 w1 H); clear IH end; auto.
Qed.

Lemma same_up : forall a b w, same a b -> up w a -> up w b.
Proof.
  induction a; destruct b; cbn; intros w H U; try contradiction; intuition; subst; auto; eauto.
Qed.

Lemma same_refl : forall a, same a a.
Proof. induction a; cbn; auto. Qed.

Lemma same_sym : forall a b, same a b -> same b a.
Proof. induction a; destruct b; cbn; intuition. Qed.

Lemma same_trans : forall a b c, same a b -> same b c -> same a c.
Proof.
  induction a; destruct b; cbn; try tauto; destruct c0 || destruct c; cbn; intuition; subst; auto; eauto.
Qed.

Lemma start_same : forall w e e', start w e = Ok e' -> same e e'.
Proof. induction e; cbn; intros e' H; opens; cbn; auto. Qed.

Lemma finish_same : forall w e e', finish w e = Ok e' -> same e e'.
Proof. induction e; cbn; intros e' H; opens; cbn; auto. Qed.

Lemma accumulate_same : forall e, same e (accumulate e).
Proof. induction e; cbn; auto. Qed.

Lemma start_windowed : forall w e e', start w e = Ok e' -> windowed e -> windowed e'.
Proof. induction e; cbn; intros e' H U; opens; cbn; intuition. Qed.

Lemma finish_windowed : forall w e e', finish w e = Ok e' -> windowed e -> windowed e'.
Proof. induction e; cbn; intros e' H U; opens; cbn; intuition. Qed.

Lemma start_ok : forall w e, up w e -> exists e', start w e = Ok e'.
Proof.
  induction e; cbn; intros U; eauto.
  - destruct (IHe U) as [a E]. rewrite E. cbn. eauto.
  - destruct U as [U1 U2]. destruct (IHe1 U1) as [a E]. destruct (IHe2 U2) as [b F]. rewrite E, F. cbn. eauto.
  - destruct U as [U1 [U2 U3]]. destruct (IHe1 U1) as [a E]. destruct (IHe2 U2) as [b F]. destruct (IHe3 U3) as [c G].
    rewrite E, F, G. cbn. eauto.
  - rewrite U. eauto.
  - rewrite U. eauto.
  - destruct U as [U1 U2]. destruct (IHe U2) as [b E]. rewrite U1, E. cbn. eauto.
  - destruct U as [U1 U2]. destruct (IHe U2) as [b E]. rewrite U1, E. cbn. eauto.
Qed.

(** [from b w0 e]: every instance is open since tick b, and every counter counts from its value in w0. *)
Fixpoint from (b : Z) (w0 : world) (e : expr) : Prop :=
  match e with
  | EConst _ | ESim _ => True
  | EUn _ x => from b w0 x
  | EBin _ x y => from b w0 x /\ from b w0 y
  | ETern _ x y z => from b w0 x /\ from b w0 y /\ from b w0 z
  | ECtr c l s => s_start s = b /\ s_end s = INDEF /\ s_init s = Some (of_u64 (ctr w0 c))
  | EPar _ s => s_start s = b /\ s_end s = INDEF
  | EDef _ x s | EFree _ x s => s_start s = b /\ s_end s = INDEF /\ from b w0 x
  end.

Lemma start_from : forall w e e', windowed e -> start w e = Ok e' -> from (now w) w e'.
Proof.
  induction e; cbn; intros e' U H; opens; cbn; intuition; cbn; auto.
  unfold reset. rewrite U. reflexivity.
Qed.

(** The counters count from w0 and accumulate. *)
Fixpoint based (w0 : world) (e : expr) : Prop :=
  match e with
  | EConst _ | ESim _ => True
  | EUn _ x => based w0 x
  | EBin _ x y => based w0 x /\ based w0 y
  | ETern _ x y z => based w0 x /\ based w0 y /\ based w0 z
  | ECtr c l s => s_cum s = true /\ s_init s = Some (of_u64 (ctr w0 c))
  | EPar _ s => True
  | EDef _ x s | EFree _ x s => based w0 x
  end.

Lemma accumulate_based : forall b w0 e, from b w0 e -> based w0 (accumulate e).
Proof. induction e; cbn; intuition. Qed.

Lemma start_based : forall w w0 e e', based w0 e -> start w e = Ok e' -> based w0 e' /\ from (now w) w0 e'.
Proof.
  induction e; cbn; intros e' U H; opens; cbn; auto;
  try (repeat match goal with IH : forall _, based _ ?a -> start _ ?a = Ok _ -> _, E : start _ ?a = Ok _ |- _ =>
         specialize (IH _ ltac:(tauto) E) end; tauto).
  destruct U as [U1 U2]. unfold reset. rewrite U1, U2. auto.
Qed.

Lemma finish_based : forall w w0 e e', based w0 e -> finish w e = Ok e' -> based w0 e'.
Proof.
  induction e; cbn; intros e' U H; opens; cbn; auto;
  repeat match goal with IH : forall _, based _ ?a -> finish _ ?a = Ok _ -> _, E : finish _ ?a = Ok _ |- _ =>
         specialize (IH _ ltac:(tauto) E) end; tauto.
Qed.

Lemma open_range : forall w s v b,
  s_start s = b -> s_end s = INDEF -> b <= now w -> b <= INDEF -> in_range w s v = v.
Proof.
  intros w s v b A B C D. unfold in_range. rewrite A, B.
  destruct (INDEF <? b) eqn:X; [apply Z.ltb_lt in X; lia|].
  destruct (now w <? b) eqn:Y; [apply Z.ltb_lt in Y; lia|].
  rewrite Z.eqb_refl. reflexivity.
Qed.

Lemma closed_range : forall w s v,
  s_start s <= s_end s -> s_end s < INDEF -> s_end s <= now w -> in_range w s v = Ok (s_result s).
Proof.
  intros w s v A B C. unfold in_range.
  destruct (s_end s <? s_start s) eqn:X; [apply Z.ltb_lt in X; lia|].
  destruct (now w <? s_start s) eqn:Y; [apply Z.ltb_lt in Y; lia|].
  destruct (s_end s =? INDEF) eqn:Z0; [apply Z.eqb_eq in Z0; lia|].
  destruct (now w <? s_end s) eqn:Z1; [apply Z.ltb_lt in Z1; lia|]. reflexivity.
Qed.

Lemma from_value : forall b w0 w1 e,
  from b w0 e -> up w1 e -> b <= now w1 -> b <= INDEF -> value w1 e = Ok (delta w0 w1 e).
Proof.
  intros b w0 w1 e F U L M. revert F U. induction e; cbn [from up value delta]; intros F U; auto.
  - rewrite (IHe F U). reflexivity.
  - rewrite IHe1, IHe2 by tauto. reflexivity.
  - rewrite IHe1, IHe2, IHe3 by tauto. reflexivity.
  - destruct F as [F1 [F2 F3]]. rewrite (open_range _ _ _ b F1 F2 L M), U. destruct latest; auto.
    unfold initial. rewrite F3. reflexivity.
  - destruct F as [F1 F2]. rewrite (open_range _ _ _ b F1 F2 L M), U. reflexivity.
  - destruct F as [F1 [F2 F3]]. destruct U as [U1 U2]. rewrite (open_range _ _ _ b F1 F2 L M), U1. auto.
  - destruct F as [F1 [F2 F3]]. destruct U as [U1 U2]. rewrite (open_range _ _ _ b F1 F2 L M), U1. auto.
Qed.

(** Ending at w1 an expression open since b: it succeeds, reads the window at w1, and its root keeps it. *)
Lemma from_finish : forall b w0 w1 e,
  from b w0 e -> up w1 e -> b <= now w1 -> now w1 < INDEF ->
  exists e', finish w1 e = Ok e' /\ value w1 e' = Ok (delta w0 w1 e) /\
    (instance e -> forall w2, now w1 <= now w2 -> value w2 e' = Ok (delta w0 w1 e)).
Proof.
  intros b w0 w1 e F U L M. revert F U.
  induction e; cbn [from up finish delta instance]; intros F U;
    try (eexists; split; [reflexivity|split; [reflexivity|tauto]]).
  - destruct (IHe F U) as [a [E [V _]]]. rewrite E. cbn. eexists; split; [reflexivity|]. cbn. rewrite V. cbn. tauto.
  - destruct F as [F1 F2]. destruct U as [U1 U2].
    destruct (IHe1 F1 U1) as [a [E [V _]]]. destruct (IHe2 F2 U2) as [a2 [E2 [V2 _]]].
    rewrite E. cbn. rewrite E2. cbn. eexists; split; [reflexivity|]. cbn. rewrite V. cbn. rewrite V2. cbn. tauto.
  - destruct F as [F1 [F2 F3]]. destruct U as [U1 [U2 U3]].
    destruct (IHe1 F1 U1) as [a [E [V _]]]. destruct (IHe2 F2 U2) as [a2 [E2 [V2 _]]].
    destruct (IHe3 F3 U3) as [a3 [E3 [V3 _]]].
    rewrite E. cbn. rewrite E2. cbn. rewrite E3. cbn. eexists; split; [reflexivity|].
    cbn. rewrite V. cbn. rewrite V2. cbn. rewrite V3. cbn. tauto.
  - destruct F as [F1 [F2 F3]]. rewrite U. cbn [compute bind]. rewrite U.
    assert (Q : (if latest then of_u64 (ctr w1 c) else dsub (of_u64 (ctr w1 c)) (initial s))
                = (if latest then of_u64 (ctr w1 c) else dsub (of_u64 (ctr w1 c)) (of_u64 (ctr w0 c)))).
    { unfold initial. rewrite F3. reflexivity. }
    rewrite Q. eexists; split; [reflexivity|]. cbn [value].
    split; [|intros _ w2 K]; rewrite closed_range; cbn [ended s_start s_end s_result]; try lia; destruct latest; reflexivity.
  - destruct F as [F1 F2]. rewrite U. cbn [compute bind]. rewrite U. eexists; split; [reflexivity|]. cbn [value].
    split; [|intros _ w2 K]; rewrite closed_range; cbn [ended s_start s_end s_result]; try lia; reflexivity.
  - destruct F as [F1 [F2 F3]]. destruct U as [U1 U2]. destruct (IHe F3 U2) as [a [E [V _]]].
    rewrite U1, E. cbn [bind compute]. rewrite U1, V. cbn [bind]. eexists; split; [reflexivity|]. cbn [value].
    split; [|intros _ w2 K]; rewrite closed_range; cbn [ended s_start s_end s_result]; try lia; reflexivity.
  - destruct F as [F1 [F2 F3]]. destruct U as [U1 U2]. destruct (IHe F3 U2) as [a [E [V _]]].
    rewrite U1, E. cbn [bind compute]. rewrite V. cbn [bind]. eexists; split; [reflexivity|]. cbn [value].
    split; [|intros _ w2 K]; rewrite closed_range; cbn [ended s_start s_end s_result]; try lia; reflexivity.
Qed.

Lemma acts_same : forall cs e e', acts cs e = Ok e' -> same e e'.
Proof.
  induction cs as [|c r IH]; cbn; intros e e' H; [inversion H; apply same_refl|].
  apply bind_ok in H. destruct H as [a [A B]]. apply same_trans with a; [|eauto].
  destruct c; cbn in A; [eapply start_same|eapply finish_same]; eauto.
Qed.

Lemma acts_windowed : forall cs e e', acts cs e = Ok e' -> windowed e -> windowed e'.
Proof.
  induction cs as [|c r IH]; cbn; intros e e' H K; [inversion H; subst; auto|].
  apply bind_ok in H. destruct H as [a [A B]]. eapply IH; eauto.
  destruct c; cbn in A; [eapply start_windowed|eapply finish_windowed]; eauto.
Qed.

Lemma acts_based : forall cs w0 e e', acts cs e = Ok e' -> based w0 e -> based w0 e'.
Proof.
  induction cs as [|c r IH]; cbn; intros w0 e e' H K; [inversion H; subst; auto|].
  apply bind_ok in H. destruct H as [a [A B]]. eapply IH; eauto.
  destruct c; cbn in A; [eapply start_based|eapply finish_based]; eauto.
Qed.
