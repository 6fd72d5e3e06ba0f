(** Lemmas on the device tree. *)
From Coq Require Import NArith Bool String Ascii Arith Permutation List Lia.
From Verif Require Import ParamTreeModel ParamTreeSpec ParamTreeProofs TreeNameModel.
Import ListNotations.
Open Scope string_scope.
Open Scope nat_scope.

(** ** Nodes by number *)

Lemma at_upd : forall s i f j,
  at_ (upd s i f) j = if i =? j then option_map f (at_ s j) else at_ s j.
Proof.
  unfold at_. induction s as [|x s IH]; intros i f j; cbn.
  - destruct (i =? j); destruct j; reflexivity.
  - destruct i, j; cbn; auto.
Qed.

Lemma upd_len : forall s i f, length (upd s i f) = length s.
Proof. induction s as [|x s IH]; intros [|i] f; cbn; auto. Qed.

Lemma at_lt : forall s i t, at_ s i = Some t -> i < length s.
Proof. intros s i t E. apply nth_error_Some. unfold at_ in E. congruence. Qed.

Lemma at_snoc : forall s x i t, at_ (s ++ [x])%list i = Some t ->
  at_ s i = Some t \/ (i = length s /\ t = x).
Proof.
  unfold at_. intros s x i t E. destruct (lt_dec i (length s)).
  - rewrite nth_error_app1 in E by assumption. auto.
  - rewrite nth_error_app2 in E by lia. destruct (i - length s) as [|n0] eqn:Q.
    + cbn in E. injection E as <-. right. split; [lia|auto].
    + cbn in E. destruct n0; discriminate.
Qed.

Lemma at_snoc_old : forall s x i t, at_ s i = Some t ->
  at_ (s ++ [x])%list i = Some t.
Proof.
  intros s x i t E. unfold at_ in *. rewrite nth_error_app1; auto.
  apply nth_error_Some. congruence.
Qed.

(** ** Everything but the privacy level *)

Definition bare (t : tn) : tn :=
  mkT (t_name t) (t_group t) (t_idx t) (t_ix t) (t_root t) (t_alias t) 0
      (t_up t) (t_kids t) (t_names t).

Lemma bare_upd : forall s i f, (forall t, bare (f t) = bare t) ->
  map bare (upd s i f) = map bare s.
Proof.
  induction s as [|x s IH]; intros [|i] f H; cbn; auto; now rewrite ?H, ?IH.
Qed.

Lemma deepen_bare : forall fuel b i s, map bare (deepen fuel b i s) = map bare s.
Proof.
  induction fuel as [|fuel IH]; intros b i s; cbn; [reflexivity|].
  destruct (at_ s i) as [t|]; [|reflexivity].
  assert (G : forall ks s0, map bare (fold_left (fun s' k => deepen fuel b k s') ks s0) = map bare s0).
  { induction ks as [|k ks IHk]; intros s0; cbn; [reflexivity|].
    rewrite IHk. apply IH. }
  rewrite G. now apply bare_upd.
Qed.

Lemma bare_at : forall s s' i t', map bare s' = map bare s -> at_ s' i = Some t' ->
  exists t, at_ s i = Some t /\ bare t = bare t'.
Proof.
  unfold at_. intros s s' i t' E Q.
  assert (X : nth_error (map bare s') i = Some (bare t')) by now apply map_nth_error.
  rewrite E in X. destruct (nth_error s i) as [t|] eqn:Z.
  - exists t. split; auto. apply (map_nth_error bare) in Z. congruence.
  - exfalso. apply nth_error_None in Z.
    assert (nth_error (map bare s) i = None)
      by (apply nth_error_None; now rewrite map_length).
    congruence.
Qed.

(** ** Ancestors *)

Inductive chain (s : st) : nat -> list nat -> Prop :=
| ch_top i t : at_ s i = Some t -> t_up t = None -> chain s i []
| ch_up i t p l : at_ s i = Some t -> t_up t = Some p -> chain s p l ->
    chain s i (p :: l).

Lemma chain_fun : forall s i l, chain s i l -> forall l', chain s i l' -> l = l'.
Proof.
  intros s i l H. induction H as [i t E U|i t p l E U H IH]; intros l' H';
    inversion H' as [j t' E' U'|j t' p' l2 E' U' C']; subst; rewrite E in E';
    injection E' as <-; try congruence.
  rewrite U in U'. injection U' as <-. f_equal. now apply IH.
Qed.

Lemma chain_in : forall s i l j, chain s i l -> In j l ->
  exists l1 l2, l = (l1 ++ j :: l2)%list /\ chain s j l2.
Proof.
  intros s i l j H. induction H as [i t E U|i t p l E U H IH]; intros I; [easy|].
  destruct I as [->|I].
  - exists [], l. auto.
  - destruct (IH I) as (l1 & l2 & -> & C). exists (p :: l1), l2. auto.
Qed.

Lemma chain_self : forall s i l, chain s i l -> ~ In i l.
Proof.
  intros s i l H I. destruct (chain_in _ _ _ _ H I) as (l1 & l2 & E & C).
  pose proof (chain_fun _ _ _ H _ C) as X. subst l.
  apply (f_equal (@length nat)) in X. rewrite app_length in X. cbn in X. lia.
Qed.

Lemma chain_nodup : forall s i l, chain s i l -> NoDup (i :: l).
Proof.
  intros s i l H. induction H as [i t E U|i t p l E U H IH].
  - repeat constructor. easy.
  - constructor; [|exact IH]. apply chain_self with s. econstructor; eauto.
Qed.

Lemma chain_range : forall s i l j, chain s i l -> In j (i :: l) -> j < length s.
Proof.
  intros s i l j H. induction H as [i t E U|i t p l E U H IH]; intros [<-|I].
  - eapply at_lt; eauto.
  - destruct I.
  - eapply at_lt; eauto.
  - auto.
Qed.

Lemma chain_len : forall s i l, chain s i l -> length l < length s.
Proof.
  intros s i l H. pose proof (chain_nodup _ _ _ H) as ND.
  assert (I : incl (i :: l) (seq 0 (length s))).
  { intros j J. apply in_seq. pose proof (chain_range _ _ _ _ H J). lia. }
  pose proof (NoDup_incl_length ND I) as L. rewrite seq_length in L. cbn in L. lia.
Qed.

Lemma ups_chain_ : forall s i l, chain s i l -> forall f, length l < f ->
  ups_ f s i = Some l.
Proof.
  intros s i l H. induction H as [i t E U|i t p l E U H IH]; intros f L;
    (destruct f as [|f]; [lia|]); cbn [ups_]; rewrite E, U; auto.
  rewrite IH; [reflexivity|cbn in L; lia].
Qed.

Lemma ups_chain : forall s i l, chain s i l -> ups s i = Some l.
Proof. intros s i l H. eapply ups_chain_; eauto. eapply chain_len; eauto. Qed.

(** ** The map of names *)

Definition entries (s : st) (ks : list nat) : list (string * nat) :=
  flat_map (fun k => match at_ s k with
                     | Some c => map (fun x => (x, k)) (keys c)
                     | None => []
                     end) ks.

Definition puts (l es : list (string * nat)) : list (string * nat) :=
  fold_left (fun l e => put_name (fst e) (snd e) l) es l.

Lemma puts_app : forall a b l, puts l (a ++ b)%list = puts (puts l a) b.
Proof. intros. apply fold_left_app. Qed.

Lemma puts_keys : forall ks c l,
  fold_left (fun l k => put_name k c l) ks l = puts l (map (fun x => (x, c)) ks).
Proof. induction ks as [|k ks IH]; intros c l; cbn; [reflexivity|apply IH]. Qed.

Lemma put_in : forall k v l e, In e (put_name k v l) <-> e = (k, v) \/ In e l.
Proof.
  intros k v l e. induction l as [|[k' v'] l IH]; cbn.
  - intuition congruence.
  - destruct (String.ltb k k'); cbn; [intuition congruence|]. rewrite IH. tauto.
Qed.

Lemma puts_in : forall es l e, In e (puts l es) <-> In e l \/ In e es.
Proof.
  induction es as [|[k v] es IH]; intros l e; [cbn; tauto|].
  change (puts l ((k, v) :: es)) with (puts (put_name k v l) es).
  rewrite IH, put_in. cbn. intuition congruence.
Qed.

(** Sorted by key. *)
Definition sle (a b : string) : Prop := String.ltb b a = false.

Fixpoint sorted (l : list (string * nat)) : Prop :=
  match l with
  | [] => True
  | e :: r => Forall (fun x => sle (fst e) (fst x)) r /\ sorted r
  end.

Lemma ltb_lt : forall a b, String.ltb a b = true <-> String.compare a b = Lt.
Proof.
  intros. unfold String.ltb. destruct (String.compare a b); split; congruence.
Qed.

Lemma ascii_cmp_trans : forall a b c x, Ascii.compare a b = x -> Ascii.compare b c = x ->
  Ascii.compare a c = x.
Proof.
  unfold Ascii.compare. intros a b c x. 
  destruct x; rewrite ?N.compare_eq_iff, ?N.compare_lt_iff, ?N.compare_gt_iff; intros; congruence || lia.
Qed.

Lemma ascii_cmp_eq : forall a b, Ascii.compare a b = Eq <-> a = b.
Proof.
  unfold Ascii.compare. intros a b. rewrite N.compare_eq_iff. split.
  - intros H. rewrite <- (ascii_N_embedding a), H. apply ascii_N_embedding.
  - now intros ->.
Qed.

Lemma cmp_eq : forall a b, String.compare a b = Eq <-> a = b.
Proof.
  induction a as [|x a IH]; intros [|y b]; cbn; try (split; congruence).
  destruct (Ascii.compare x y) eqn:C.
  - apply ascii_cmp_eq in C. subst. rewrite IH. split; congruence.
  - split; [discriminate|]. intros E. injection E as <- <-.
    assert (Ascii.compare x x = Eq) by now apply ascii_cmp_eq. congruence.
  - split; [discriminate|]. intros E. injection E as <- <-.
    assert (Ascii.compare x x = Eq) by now apply ascii_cmp_eq. congruence.
Qed.

Lemma cmp_trans : forall a b c, String.compare a b = Lt -> String.compare b c = Lt ->
  String.compare a c = Lt.
Proof.
  induction a as [|x a IH]; intros [|y b] [|z c]; cbn; try congruence.
  destruct (Ascii.compare x y) eqn:C1; try discriminate;
  destruct (Ascii.compare y z) eqn:C2; try discriminate; intros L1 L2.
  - apply ascii_cmp_eq in C1. subst. rewrite C2. eauto.
  - apply ascii_cmp_eq in C1. subst. rewrite C2. auto.
  - apply ascii_cmp_eq in C2. subst. rewrite C1. auto.
  - now rewrite (ascii_cmp_trans _ _ _ _ C1 C2).
Qed.

Lemma lt_neq : forall a b, String.ltb a b = true -> a <> b.
Proof.
  intros a b L ->. apply ltb_lt in L.
  assert (String.compare b b = Eq) by now apply cmp_eq. congruence.
Qed.

Lemma lt_sle : forall a b c, String.ltb a b = true -> sle b c -> String.ltb a c = true.
Proof.
  unfold sle. intros a b c L S. apply ltb_lt in L. apply ltb_lt.
  destruct (String.compare c b) eqn:Q.
  - apply cmp_eq in Q. congruence.
  - exfalso. assert (String.ltb c b = true) by now apply ltb_lt. congruence.
  - assert (String.compare b c = Lt).
    { rewrite String.compare_antisym, Q. reflexivity. }
    eauto using cmp_trans.
Qed.

Lemma put_sorted : forall k v l, sorted l -> sorted (put_name k v l).
Proof.
  intros k v l. induction l as [|[k' v'] l IH]; cbn; [repeat constructor|].
  intros [F S]. destruct (String.ltb k k') eqn:L; cbn.
  - split; [|split; auto]. constructor; cbn.
    + unfold sle. unfold String.ltb in *. rewrite String.compare_antisym.
      destruct (String.compare k k'); cbn; congruence.
    + rewrite Forall_forall in F |- *. intros x X. apply F in X.
      pose proof (lt_sle _ _ _ L X) as Y. unfold sle.
      unfold String.ltb in *. rewrite String.compare_antisym.
      destruct (String.compare k (fst x)); cbn; congruence.
  - split; [|auto]. rewrite Forall_forall in *. intros x X. apply put_in in X.
    destruct X as [->|X]; [exact L|auto].
Qed.

Lemma puts_sorted : forall es l, sorted l -> sorted (puts l es).
Proof.
  induction es as [|e es IH]; intros l S; [exact S|].
  apply (IH (put_name (fst e) (snd e) l)). now apply put_sorted.
Qed.

Lemma first_none : forall k l, first_name k l = None <-> forall v, ~ In (k, v) l.
Proof.
  intros k l. induction l as [|[k' v'] l IH]; cbn; [intuition|].
  destruct (String.eqb_spec k' k) as [->|NE].
  - split; [discriminate|]. intros H. exfalso. apply (H v'). auto.
  - rewrite IH. split; intros H v; [intros [E|E]; [congruence|now apply (H v)]|].
    intros E. apply (H v). auto.
Qed.

Lemma first_put : forall k v l q, sorted l ->
  first_name q (put_name k v l) =
  match first_name q l with
  | Some x => Some x
  | None => if String.eqb k q then Some v else None
  end.
Proof.
  intros k v l q. induction l as [|[k' v'] l IH]; cbn; [reflexivity|].
  intros [F S]. destruct (String.ltb k k') eqn:L; cbn.
  - destruct (String.eqb_spec k q) as [->|NE].
    + assert (X : first_name q ((k', v') :: l) = None).
      { apply first_none. intros w [E|E].
        - injection E as -> _. now apply (lt_neq _ _ L).
        - rewrite Forall_forall in F. specialize (F _ E). cbn in F.
          pose proof (lt_sle _ _ _ L F) as Y. now apply (lt_neq _ _ Y). }
      cbn in X. now rewrite X.
    + destruct (String.eqb k' q); auto. destruct (first_name q l); auto.
  - destruct (String.eqb k' q); auto.
Qed.

Lemma first_puts : forall es l q, sorted l ->
  first_name q (puts l es) =
  match first_name q l with Some x => Some x | None => first_name q es end.
Proof.
  induction es as [|[k v] es IH]; intros l q S.
  - cbn. now destruct (first_name q l).
  - change (puts l ((k, v) :: es)) with (puts (put_name k v l) es). cbn [first_name].
    rewrite IH by now apply put_sorted. rewrite first_put by assumption.
    destruct (first_name q l); auto. destruct (String.eqb k q); auto.
Qed.

Lemma first_app : forall a b q, first_name q (a ++ b)%list =
  match first_name q a with Some x => Some x | None => first_name q b end.
Proof.
  induction a as [|[k v] a IH]; intros b q; cbn; auto.
  destruct (String.eqb k q); auto.
Qed.

Lemma first_keys : forall ks k q,
  first_name q (map (fun x => (x, k)) ks) =
  if existsb (fun x => String.eqb x q) ks then Some k else None.
Proof.
  induction ks as [|x ks IH]; intros k q; cbn; auto.
  destruct (String.eqb x q); cbn; auto.
Qed.
