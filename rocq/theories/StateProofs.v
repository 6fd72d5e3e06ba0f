From Coq Require Import List NArith Bool Arith Lia.
From Verif Require Import StateModel StateSpec.
Import ListNotations.

Lemma fset_eq {A} (f : nat -> A) i x : fset f i x i = x.
Proof. unfold fset. rewrite Nat.eqb_refl. reflexivity. Qed.
Lemma fset_ne {A} (f : nat -> A) i j x : j <> i -> fset f i x j = f j.
Proof. intros. unfold fset. destruct (Nat.eqb_spec j i); congruence. Qed.
Lemma same_spec x y : reflect (x = y) (same x y).
Proof.
  destruct x as [a b], y as [c d]. unfold same. cbn.
  destruct (Nat.eqb_spec a c), (Nat.eqb_spec b d); cbn; constructor; congruence.
Qed.
Lemma lset_length {A} (l : list A) i x : length (lset l i x) = length l.
Proof. revert i. induction l; destruct i; cbn; auto. Qed.
Lemma lset_nth (l : list bool) i x j : i < length l -> nth j (lset l i x) false = if Nat.eqb j i then x else nth j l false.
Proof.
  revert i j. induction l as [|y l IH]; intros i j H; cbn in H; [lia|].
  destruct i, j; cbn; auto. apply IH. lia.
Qed.

Lemma hm_S f n : howmany f (S n) = howmany f n + (if f n then 1 else 0).
Proof.
  unfold howmany. rewrite seq_S, filter_app, app_length. cbn. destruct (f n); reflexivity.
Qed.
Lemma hm_ext f g n : (forall i, i < n -> f i = g i) -> howmany f n = howmany g n.
Proof.
  induction n; intros H; [reflexivity|]. rewrite !hm_S, (H n), IHn; auto.
Qed.
Lemma hm_le f n : howmany f n <= n.
Proof. induction n; [cbn; lia|]. rewrite hm_S. destruct (f n); lia. Qed.
Lemma hm_neg f n : howmany f n + howmany (fun i => negb (f i)) n = n.
Proof. induction n; [reflexivity|]. rewrite !hm_S. destruct (f n); cbn; lia. Qed.
Lemma hm_add f g i n : i < n -> f i = false -> (forall j, g j = if Nat.eqb j i then true else f j) -> howmany g n = S (howmany f n).
Proof.
  intros Hi Hf Hg. induction n; [lia|]. rewrite !hm_S, (Hg n). destruct (Nat.eqb_spec n i) as [->|NE].
  - rewrite Hf, (hm_ext g f i); [lia|]. intros j Hj. rewrite Hg. destruct (Nat.eqb_spec j i); [lia|reflexivity].
  - rewrite IHn by lia. lia.
Qed.

Lemma forv_notv v w l : forv w (notv v l) = if Nat.eqb w v then [] else forv w l.
Proof.
  unfold forv, notv. induction l as [|[a b] l IH]; cbn; [destruct (Nat.eqb w v); reflexivity|].
  destruct (Nat.eqb_spec a v), (Nat.eqb_spec w v); subst; cbn.
  - apply IH.
  - destruct (Nat.eqb_spec v w); [congruence|]. apply IH.
  - destruct (Nat.eqb_spec a v); [congruence|]. apply IH.
  - destruct (Nat.eqb_spec a w); cbn; rewrite IH; reflexivity.
Qed.
Lemma forv_app v l x : forv v (l ++ [x]) = if Nat.eqb (fst x) v then forv v l ++ [snd x] else forv v l.
Proof.
  unfold forv. rewrite filter_app, map_app. cbn. destruct (Nat.eqb (fst x) v); cbn; [reflexivity|apply app_nil_r].
Qed.
Lemma forv_rm v w h l : forv w (rm (v, h) l) = if Nat.eqb v w then drop h (forv w l) else forv w l.
Proof.
  unfold forv. induction l as [|[a b] l IH]; cbn; [destruct (Nat.eqb v w); reflexivity|].
  destruct (same_spec (v, h) (a, b)) as [E|NE].
  - injection E as <- <-. destruct (Nat.eqb_spec v w); cbn; [rewrite Nat.eqb_refl|]; reflexivity.
  - cbn. destruct (Nat.eqb_spec a w); cbn; [|apply IH]. rewrite IH. destruct (Nat.eqb_spec v w); [|reflexivity].
    subst. cbn. destruct (Nat.eqb_spec b h); [congruence|reflexivity].
Qed.

Lemma inb_filter x y l : inb x (filter (fun p => negb (same y p)) l) = inb x l && negb (same x y).
Proof.
  unfold inb. induction l as [|z l IH]; cbn; [reflexivity|].
  destruct (same_spec y z), (same_spec x z), (same_spec x y); subst; cbn; rewrite ?IH; try congruence; auto;
    repeat (match goal with |- context [same ?p ?q] => destruct (same_spec p q) end; cbn); try congruence; rewrite ?andb_true_r, ?andb_false_r; auto.
Qed.

Arguments forv : simpl never.
Arguments notv : simpl never.
Arguments inb : simpl never.
Arguments howmany : simpl never.
Arguments told : simpl never.
Arguments enrolled : simpl never.

(* The relation; [p] is a marker that counts already and is not marked yet. *)
Definition pend (p : option (nat * nat)) (x : nat * nat) : bool := match p with Some y => same y x | None => false end.
Record RV (c : cfg) (p : option (nat * nat)) (m : mset) (a : ab) (v : nat) : Prop := mkRV {
  v_len : length (m_marks m) = b_markers a v;
  v_marks : forall i, nth i (m_marks m) false = inb (v, i) (b_marked a) && negb (pend p (v, i));
  v_count : m_count m = N.of_nat (howmany (fun i => inb (v, i) (b_marked a)) (b_markers a v));
  v_max : (N.of_nat (b_markers a v) <= c_max c)%N;
  v_thr : m_thresh m = b_miss a v;
  v_aud : m_aud m = forv v (b_wait a);
  v_set : m_set m = existsb (Nat.eqb v) (b_reached a);
  v_mons : m_mons m = forv v (b_mons a) }.
Record R (c : cfg) (p : option (nat * nat)) (s : st) (a : ab) : Prop := mkR {
  r_val : s_cur s = b_val a;
  r_log : s_log s = b_calls a;
  r_v : forall v, RV c p (s_sets s v) a v }.

Lemma say_all (f : nat -> call) l : forall s, fold_left (fun s h => say s (f h)) l s =
  mkS (s_cur s) (s_sets s) (rev (map f l) ++ s_log s) (s_now s) (s_act s) (s_start s) (s_delta s).
Proof.
  induction l as [|h l IH]; intros s; cbn; [destruct s; reflexivity|]. rewrite IH. cbn. rewrite <- app_assoc. reflexivity.
Qed.

Lemma notify_R c p s a v : R c p s a -> R c p (notify (set_cur s v) v) (reach a v).
Proof.
  intros [V L H]. unfold notify. rewrite say_all. pose proof (H v) as Hv. constructor; cbn.
  - reflexivity.
  - rewrite L, (v_aud _ _ _ _ _ Hv). reflexivity.
  - intros w. destruct (Nat.eq_dec w v) as [->|NE].
    + rewrite fset_eq. destruct Hv. constructor; cbn; auto.
      * rewrite forv_notv, Nat.eqb_refl. reflexivity.
      * rewrite Nat.eqb_refl. reflexivity.
    + rewrite fset_ne by auto. destruct (H w). constructor; cbn; auto.
      * rewrite forv_notv. destruct (Nat.eqb_spec w v); [congruence|auto].
      * destruct (Nat.eqb_spec w v); [congruence|auto].
Qed.
Lemma start_R c p s a v : R c p s a -> R c p (start_state s v) a.
Proof. intros [V L H]. unfold start_state. destruct (Nat.eqb (s_act s) v); constructor; cbn; auto. Qed.
Lemma set_value_R c p s a v : R c p s a ->
  match set_value c s v with Some s' => v < c_n c /\ R c p s' (reach a v) | None => ~ v < c_n c end.
Proof.
  intros H. unfold set_value. destruct (Nat.ltb_spec v (c_n c)); [|lia]. split; auto.
  apply notify_R, start_R, H.
Qed.
Lemma say_R c p s a k : R c p s a ->
  R c p (say s k) (mkA (b_val a) (b_markers a) (b_marked a) (b_miss a) (b_wait a) (b_mons a) (b_reached a) (k :: b_calls a)).
Proof. intros [V L H]. constructor; cbn; auto; [congruence|]. intros w. destruct (H w). constructor; cbn; auto. Qed.

Lemma signal_R c p v ms : (forall m, c_mon c m <> Clean) -> forall s a, R c p s a ->
  match signal c s v ms, ask c a v ms with Some s', Some a' => R c p s' a' | None, None => True | _, _ => False end.
Proof.
  intros NC. induction ms as [|m ms IH]; intros s a H; cbn [signal ask]; auto.
  apply (say_R _ _ _ _ (Signal v m)) in H. unfold mon_act. specialize (NC m). destruct (c_mon c m) as [|w|]; [|..]; try congruence.
  - apply IH, H.
  - pose proof (set_value_R _ _ _ _ w H) as K. destruct (set_value c (say s (Signal v m)) w).
    + destruct K as [K1 K2]. apply Nat.ltb_lt in K1. rewrite K1. apply IH, K2.
    + destruct (Nat.ltb_spec w (c_n c)); [contradiction|auto].
Qed.

Lemma ask_marked c v ms : forall a a', ask c a v ms = Some a' -> b_marked a' = b_marked a /\ b_markers a' = b_markers a.
Proof.
  induction ms as [|m ms IH]; intros a a' E; cbn [ask] in E; [inversion E; subst; auto|].
  destruct (c_mon c m) as [|w|]; try (apply IH in E; cbn in E; exact E).
  destruct (Nat.ltb w (c_n c)); [|discriminate]. apply IH in E. cbn in E. exact E.
Qed.

Lemma unpend c s a v i : i < b_markers a v -> inb (v, i) (b_marked a) = true -> R c (Some (v, i)) s a -> R c None (put_mark s v i true) a.
Proof.
  intros Hi Hin [V L H]. pose proof (H v) as Hv. constructor; cbn; auto. intros w. destruct (Nat.eq_dec w v) as [->|NE].
  - rewrite fset_eq. destruct Hv. constructor; cbn; auto.
    + rewrite lset_length. auto.
    + intros j. rewrite lset_nth by lia. rewrite v_marks0. cbn. destruct (Nat.eqb_spec j i) as [->|NE].
      * rewrite Hin. reflexivity.
      * destruct (same_spec (v, i) (v, j)); [congruence|]. reflexivity.
  - rewrite fset_ne by auto. destruct (H w). constructor; cbn; auto. intros j. rewrite v_marks0. cbn.
    destruct (same_spec (v, i) (w, j)); [congruence|]. reflexivity.
Qed.

Lemma small (x k : N) : (k <= x < 2 ^ 32)%N -> w32 (x + 2 ^ 32 - k) = (x - k)%N.
Proof.
  intros H. unfold w32. replace (x + 2 ^ 32 - k)%N with ((x - k) + 1 * 2 ^ 32)%N by lia.
  rewrite N.mod_add by discriminate. apply N.mod_small. lia.
Qed.

Lemma nth_err {A} (l : list A) i d : nth_error l i = if Nat.ltb i (length l) then Some (nth i l d) else None.
Proof.
  destruct (Nat.ltb_spec i (length l)); [apply nth_error_nth'; auto|apply nth_error_None; auto].
Qed.

Definition marked_now (a : ab) (v i : nat) : ab :=
  mkA (b_val a) (b_markers a) ((v, i) :: b_marked a) (b_miss a) (b_wait a) (b_mons a) (b_reached a) (b_calls a).

Lemma mark_count c s a v i : usual c -> R c None s a -> i < b_markers a v -> inb (v, i) (b_marked a) = false ->
  let m := s_sets s v in
  w32 (m_count m + 1) = N.of_nat (howmany (fun j => inb (v, j) (b_marked (marked_now a v i))) (b_markers a v)) /\
  w32 (m_cnt m + 2 ^ 32 - w32 (m_count m + 1)) = N.of_nat (missing (marked_now a v i) v).
Proof.
  intros (_ & HM & _) [V L H] Hi Hn m. subst m. pose proof (H v) as Hv.
  assert (K : howmany (fun j => inb (v, j) (b_marked (marked_now a v i))) (b_markers a v)
              = S (howmany (fun j => inb (v, j) (b_marked a)) (b_markers a v))).
  { apply hm_add with (i := i); auto. intros j. cbn. unfold inb. cbn. unfold same. cbn. rewrite Nat.eqb_refl. cbn.
    destruct (Nat.eqb j i); reflexivity. }
  pose proof (hm_le (fun j => inb (v, j) (b_marked (marked_now a v i))) (b_markers a v)) as KL.
  pose proof (hm_neg (fun j => inb (v, j) (b_marked (marked_now a v i))) (b_markers a v)) as KN.
  destruct Hv. rewrite v_count0. unfold m_cnt. rewrite v_len0.
  assert (E : w32 (N.of_nat (howmany (fun j => inb (v, j) (b_marked a)) (b_markers a v)) + 1)
              = N.of_nat (howmany (fun j => inb (v, j) (b_marked (marked_now a v i))) (b_markers a v))).
  { unfold w32. rewrite N.mod_small by lia. lia. }
  split; [exact E|]. rewrite E, small by lia. unfold missing. cbn [marked_now b_markers]. fold (marked_now a v i). lia.
Qed.

Lemma joint_R c s a v i : usual c -> R c None s a -> i < b_markers a v -> inb (v, i) (b_marked a) = false ->
  let a1 := marked_now a v i in
  match joint_set c s v, (match forv v (b_mons a1) with
            | [] => Some (if (N.of_nat (missing a1 v) <=? b_miss a1 v)%N then reach a1 v else a1)
            | ms => ask c a1 v ms
            end) with Some s', Some a' => R c (Some (v, i)) s' a' | None, None => True | _, _ => False end.
Proof.
  intros U HR Hi Hn a1. destruct (mark_count _ _ _ _ _ U HR Hi Hn) as [E1 E2]. fold a1 in E1, E2.
  unfold joint_set.
  assert (K : R c (Some (v, i)) (upd s v (mkM (w32 (m_count (s_sets s v) + 1)) (m_thresh (s_sets s v)) (m_marks (s_sets s v))
                 (m_aud (s_sets s v)) (m_set (s_sets s v)) (m_mons (s_sets s v)))) a1).
  { destruct HR as [V L H]. constructor; cbn; auto. intros w. destruct (Nat.eq_dec w v) as [->|NE].
    - rewrite fset_eq. destruct (H v). constructor; cbn [m_count m_thresh m_marks m_aud m_set m_mons a1 marked_now b_markers b_miss b_wait b_reached b_mons]; auto.
      intros j. rewrite v_marks0. cbn. unfold inb at 2. cbn.
      change (existsb (same (v, j)) (b_marked a)) with (inb (v, j) (b_marked a)).
      destruct (same_spec (v, j) (v, i)) as [Q|Q], (same_spec (v, i) (v, j)) as [Q'|Q']; try congruence; cbn.
      + injection Q as ->. rewrite Hn. reflexivity.
      + reflexivity.
    - rewrite fset_ne by auto. destruct (H w). constructor; cbn [a1 marked_now b_markers b_miss b_wait b_reached b_mons]; auto.
      + intros j. rewrite v_marks0. cbn. unfold inb at 2. cbn.
        change (existsb (same (w, j)) (b_marked a)) with (inb (w, j) (b_marked a)).
        destruct (same_spec (w, j) (v, i)) as [Q|Q], (same_spec (v, i) (w, j)) as [Q'|Q']; try congruence. reflexivity.
      + rewrite v_count0. f_equal. apply hm_ext. intros j _. cbn. unfold inb. cbn.
        destruct (same_spec (w, j) (v, i)); [congruence|]. reflexivity. }
  pose proof (r_v _ _ _ _ HR v) as Hv. rewrite (v_mons _ _ _ _ _ Hv) in *.
  change (forv v (b_mons a1)) with (forv v (b_mons a)).
  destruct (forv v (b_mons a)) as [|m ms] eqn:EM.
  - cbn zeta. rewrite E2. rewrite (v_thr _ _ _ _ _ Hv). change (b_miss a1 v) with (b_miss a v).
    rewrite (v_thr _ _ _ _ _ Hv) in K.
    destruct (N.of_nat (missing a1 v) <=? b_miss a v)%N; [apply notify_R, K|exact K].
  - apply signal_R; [apply U|exact K].
Qed.

Lemma R_eta c s a m v : R c None s a -> RV c None m a v -> R c None (upd s v m) a.
Proof.
  intros [V L H] K. constructor; cbn; auto. intros w. destruct (Nat.eq_dec w v) as [->|NE]; [rewrite fset_eq|rewrite fset_ne by auto]; auto.
Qed.

Lemma reset_R c s a v : R c None s a -> R c None (reset_sets (set_cur s v)) (forget a v).
Proof.
  intros [V L H]. constructor; cbn; auto. intros w. destruct (H w). constructor; cbn; auto.
  - rewrite map_length. auto.
  - intros i. change (inb (w, i) []) with false. cbn [andb]. clear. revert i. induction (m_marks (s_sets s w)); destruct i; cbn; auto.
  - enough (Q : forall n, howmany (fun i => inb (w, i) []) n = 0) by (rewrite Q; reflexivity).
    induction n; [reflexivity|]. rewrite hm_S, IHn. reflexivity.
Qed.
Lemma attempt_R c s a : 0 < c_n c -> R c None s a -> exists s', attempt c s = Some s' /\ R c None s' (begin c a).
Proof.
  intros H0 H. unfold attempt, begin. destruct (c_bool c); [|eauto].
  pose proof (set_value_R _ _ _ _ 0 H) as K. destruct (set_value c s 0); [destruct K; eauto|contradiction].
Qed.

Lemma step_R c s a o : usual c -> R c None s a ->
  match step c s o, sstep c a o with Some s', Some a' => R c None s' a' | None, None => True | _, _ => False end.
Proof.
  intros U HR. unfold step, sstep. destruct (match arg o with Some v => Nat.ltb v (c_n c) | None => true end) eqn:EA; [|exact I].
  assert (C0 : 0 < c_n c) by (destruct U; lia).
  destruct o as [v| |v|v|v i|v i|v t|v h|v h|v|v m|v m|d]; cbn [arg] in EA.
  - pose proof (set_value_R _ _ _ _ v HR) as K. destruct (set_value c s v); [apply K|]. apply Nat.ltb_lt in EA. contradiction.
  - destruct (attempt_R c _ _ C0 (reset_R _ _ _ (c_init c) HR)) as (s' & E & K). unfold reset. rewrite E. exact K.
  - apply reset_R, HR.
  - unfold new_marker, m_cnt. pose proof (r_v _ _ _ _ HR v) as Hv. rewrite (v_len _ _ _ _ _ Hv).
    destruct (N.eqb_spec (N.of_nat (b_markers a v)) (c_max c)) as [E|NE]; [exact I|].
    assert (NB : inb (v, b_markers a v) (b_marked a) = false).
    { pose proof (v_marks _ _ _ _ _ Hv (b_markers a v)) as K. cbn in K. rewrite andb_true_r in K. rewrite <- K.
      apply nth_overflow. rewrite (v_len _ _ _ _ _ Hv). lia. }
    destruct HR as [V L H]. constructor; cbn [upd s_cur s_log s_sets b_val b_calls]; auto. intros w. destruct (Nat.eq_dec w v) as [->|NW].
    + rewrite fset_eq. destruct (H v). constructor; cbn [m_count m_thresh m_marks m_aud m_set m_mons b_markers b_miss b_wait b_reached b_mons b_marked]; rewrite ?fset_eq; auto.
      * rewrite app_length. cbn. lia.
      * intros j. destruct (Nat.lt_ge_cases j (length (m_marks (s_sets s v)))) as [G|G].
        -- rewrite app_nth1 by auto. auto.
        -- rewrite app_nth2 by auto. pose proof (v_marks0 j) as Q. rewrite (nth_overflow (m_marks (s_sets s v)) _ G) in Q. rewrite <- Q.
           destruct (j - length (m_marks (s_sets s v))) as [|[|]]; reflexivity.
      * rewrite v_count0, hm_S, NB. f_equal. lia.
      * lia.
    + rewrite fset_ne by auto. destruct (H w). constructor; cbn [b_markers b_miss b_wait b_reached b_mons b_marked]; rewrite ?fset_ne by auto; auto.
  - unfold mark. pose proof (r_v _ _ _ _ HR v) as Hv. rewrite (nth_err _ _ false), (v_len _ _ _ _ _ Hv), (v_marks _ _ _ _ _ Hv).
    cbn [pend negb]. rewrite andb_true_r. destruct (Nat.ltb_spec i (b_markers a v)) as [G|G]; [|exact I].
    destruct (inb (v, i) (b_marked a)) eqn:EI; [exact HR|].
    pose proof (joint_R c s a v i U HR G EI) as K. cbn zeta in K. fold (marked_now a v i).
    assert (INB : forall a', b_marked a' = (v, i) :: b_marked a -> inb (v, i) (b_marked a') = true).
    { intros a' ->. unfold inb. cbn. destruct (same_spec (v, i) (v, i)); [reflexivity|congruence]. }
    assert (BM : b_mons (marked_now a v i) = b_mons a) by reflexivity. rewrite BM in K |- *.
    destruct (forv v (b_mons a)) as [|m ms].
    + destruct (joint_set c s v); [|contradiction]. apply unpend; auto.
      * destruct (_ <=? _)%N; auto.
      * apply INB. destruct (_ <=? _)%N; auto.
    + destruct (joint_set c s v); destruct (ask c _ v (m :: ms)) as [a'|] eqn:EK; auto.
      apply ask_marked in EK. destruct EK as [E1 E2]. apply unpend; auto. rewrite E2. exact G.
  - unfold clear. pose proof (r_v _ _ _ _ HR v) as Hv. rewrite (nth_err _ _ false), (v_len _ _ _ _ _ Hv), (v_marks _ _ _ _ _ Hv).
    cbn [pend negb]. rewrite andb_true_r. destruct (Nat.ltb_spec i (b_markers a v)) as [G|G]; [|exact I].
    set (a1 := mkA _ _ _ _ _ _ _ _).
    assert (HM : forall w j, inb (w, j) (b_marked a1) = inb (w, j) (b_marked a) && negb (same (w, j) (v, i))) by (intros; apply inb_filter).
    destruct (inb (v, i) (b_marked a)) eqn:EI.
    + assert (KC : howmany (fun j => inb (v, j) (b_marked a)) (b_markers a v) = S (howmany (fun j => inb (v, j) (b_marked a1)) (b_markers a v))).
      { apply hm_add with (i := i); auto.
        - rewrite HM. destruct (same_spec (v, i) (v, i)); [|congruence]. cbn. apply andb_false_r.
        - intros j. rewrite HM. destruct (Nat.eqb_spec j i) as [->|NE]; [auto|].
          destruct (same_spec (v, j) (v, i)); [congruence|]. cbn. rewrite andb_true_r. reflexivity. }
      pose proof (v_count _ _ _ _ _ Hv) as EC. destruct (N.eqb_spec (m_count (s_sets s v)) 0) as [Z|Z]; [rewrite EC, KC in Z; lia|].
      unfold put_mark. destruct HR as [V L H]. constructor; cbn [upd s_cur s_log s_sets]; auto. intros w. destruct (Nat.eq_dec w v) as [->|NW].
      * rewrite !fset_eq. cbn [m_count m_thresh m_marks m_aud m_set m_mons]. destruct Hv.
        constructor; cbn [m_count m_thresh m_marks m_aud m_set m_mons]; auto.
        -- rewrite lset_length. auto.
        -- intros j. rewrite lset_nth by lia. rewrite HM, v_marks0. cbn. destruct (Nat.eqb_spec j i) as [->|NE].
           ++ destruct (same_spec (v, i) (v, i)); [|congruence]. cbn. rewrite andb_false_r. reflexivity.
           ++ destruct (same_spec (v, j) (v, i)); [congruence|]. cbn. rewrite !andb_true_r. reflexivity.
        -- change (b_markers a1 v) with (b_markers a v). rewrite EC, KC. lia.
      * rewrite !fset_ne by auto. destruct (H w). constructor; auto.
        -- intros j. rewrite HM, v_marks0. cbn. destruct (same_spec (w, j) (v, i)); [congruence|]. cbn. rewrite !andb_true_r. reflexivity.
        -- rewrite v_count0. f_equal. apply hm_ext. intros j _. rewrite HM. destruct (same_spec (w, j) (v, i)); [congruence|]. cbn. rewrite andb_true_r. reflexivity.
    + assert (HM' : forall w j, inb (w, j) (b_marked a1) = inb (w, j) (b_marked a)).
      { intros. rewrite HM. destruct (same_spec (w, j) (v, i)) as [Q|]; cbn; [injection Q as -> ->; rewrite EI; reflexivity|apply andb_true_r]. }
      destruct HR as [V L H]. constructor; auto. intros w. destruct (H w). constructor; auto.
      * intros j. rewrite HM'. auto.
      * rewrite v_count0. f_equal. apply hm_ext. intros. rewrite HM'. reflexivity.
  - destruct HR as [V L H]. constructor; cbn; auto. intros w. destruct (Nat.eq_dec w v) as [->|NW].
    + rewrite fset_eq. destruct (H v). constructor; cbn [m_count m_thresh m_marks m_aud m_set m_mons b_markers b_miss b_wait b_reached b_mons b_marked]; rewrite ?fset_eq; auto.
    + rewrite fset_ne by auto. destruct (H w). constructor; cbn [b_markers b_miss b_wait b_reached b_mons b_marked]; rewrite ?fset_ne by auto; auto.
  - destruct HR as [V L H]. constructor; cbn; auto. intros w. destruct (Nat.eq_dec w v) as [->|NW].
    + rewrite fset_eq. destruct (H v). constructor; cbn [m_count m_thresh m_marks m_aud m_set m_mons b_markers b_miss b_wait b_reached b_mons b_marked]; auto.
      rewrite forv_app. cbn. rewrite Nat.eqb_refl, v_aud0. reflexivity.
    + rewrite fset_ne by auto. destruct (H w). constructor; cbn [b_markers b_miss b_wait b_reached b_mons b_marked]; auto.
      rewrite forv_app. cbn. destruct (Nat.eqb_spec v w); [congruence|auto].
  - destruct HR as [V L H]. constructor; cbn; auto. intros w. destruct (Nat.eq_dec w v) as [->|NW].
    + rewrite fset_eq. destruct (H v). constructor; cbn [m_count m_thresh m_marks m_aud m_set m_mons b_markers b_miss b_wait b_reached b_mons b_marked]; auto.
      rewrite forv_rm, Nat.eqb_refl, v_aud0. reflexivity.
    + rewrite fset_ne by auto. destruct (H w). constructor; cbn [b_markers b_miss b_wait b_reached b_mons b_marked]; auto.
      rewrite forv_rm. destruct (Nat.eqb_spec v w); [congruence|auto].
  - unfold release. rewrite say_all. destruct HR as [V L H]. constructor; cbn; auto.
    + rewrite L, (v_aud _ _ _ _ _ (H v)). reflexivity.
    + intros w. destruct (Nat.eq_dec w v) as [->|NW].
      * rewrite fset_eq. destruct (H v). constructor; cbn [m_count m_thresh m_marks m_aud m_set m_mons b_markers b_miss b_wait b_reached b_mons b_marked]; auto.
        rewrite forv_notv, Nat.eqb_refl. reflexivity.
      * rewrite fset_ne by auto. destruct (H w). constructor; cbn [b_markers b_miss b_wait b_reached b_mons b_marked]; auto.
        rewrite forv_notv. destruct (Nat.eqb_spec w v); [congruence|auto].
  - destruct HR as [V L H]. constructor; cbn; auto. intros w. destruct (Nat.eq_dec w v) as [->|NW].
    + rewrite fset_eq. destruct (H v). constructor; cbn [m_count m_thresh m_marks m_aud m_set m_mons b_markers b_miss b_wait b_reached b_mons b_marked]; auto.
      rewrite forv_app. cbn. rewrite Nat.eqb_refl, v_mons0. reflexivity.
    + rewrite fset_ne by auto. destruct (H w). constructor; cbn [b_markers b_miss b_wait b_reached b_mons b_marked]; auto.
      rewrite forv_app. cbn. destruct (Nat.eqb_spec v w); [congruence|auto].
  - destruct HR as [V L H]. constructor; cbn; auto. intros w. destruct (Nat.eq_dec w v) as [->|NW].
    + rewrite fset_eq. destruct (H v). constructor; cbn [m_count m_thresh m_marks m_aud m_set m_mons b_markers b_miss b_wait b_reached b_mons b_marked]; auto.
      rewrite forv_rm, Nat.eqb_refl, v_mons0. reflexivity.
    + rewrite fset_ne by auto. destruct (H w). constructor; cbn [b_markers b_miss b_wait b_reached b_mons b_marked]; auto.
      rewrite forv_rm. destruct (Nat.eqb_spec v w); [congruence|auto].
  - destruct HR as [V L H]. constructor; cbn; auto.
Qed.

Lemma run_from_R c l : usual c -> forall s a, R c None s a ->
  match run_from c s l, srun_from c a l with Some s', Some a' => R c None s' a' | None, None => True | _, _ => False end.
Proof.
  intros U. induction l as [|o l IH]; intros s a H; cbn [run_from srun_from]; auto.
  pose proof (step_R c s a o U H) as K. destruct (step c s o), (sstep c a o); try contradiction; [apply IH, K|exact I].
Qed.
Lemma run_R c l : usual c ->
  match run c l, srun c l with Some s', Some a' => R c None s' a' | None, None => True | _, _ => False end.
Proof.
  intros U. unfold run, srun, construct, afresh. pose proof U as (UI & UM & _). destruct (Nat.ltb_spec (c_init c) (c_n c)); [|lia].
  destruct (attempt_R c (mkS (c_init c) (fun _ => mkM 0 0 [] [] false []) [] 0 (c_init c) 0 (fun _ => 0%N))
             (mkA (c_init c) (fun _ => 0) [] (fun _ => 0%N) [] [] [] []) ltac:(lia)) as (s' & E & K).
  { constructor; cbn; auto. intros v. constructor; cbn; auto. intros i. destruct i; reflexivity. lia. }
  rewrite E. apply run_from_R; auto.
Qed.

(* Marks. *)
Lemma marks_R c s a v : R c None s a ->
  num_markers s v = N.of_nat (b_markers a v) /\
  (forall i, is_marked s v i = inb (v, i) (b_marked a)) /\
  num_marks s v = N.of_nat (howmany (is_marked s v) (b_markers a v)).
Proof.
  intros H. destruct (r_v _ _ _ _ H v).
  assert (K : forall i, is_marked s v i = inb (v, i) (b_marked a)).
  { intros i. unfold is_marked. rewrite v_marks0. cbn. apply andb_true_r. }
  unfold num_markers, m_cnt, num_marks. rewrite v_len0. split; auto. split; auto.
  rewrite v_count0. f_equal. apply hm_ext. intros. symmetry. apply K.
Qed.
Lemma hm_all f n : howmany f n = n <-> forall i, i < n -> f i = true.
Proof.
  induction n; [split; [lia|reflexivity]|]. rewrite hm_S. pose proof (hm_le f n). split.
  - intros E i Hi. destruct (f n) eqn:EF; [|lia]. destruct (Nat.eq_dec i n); [congruence|]. apply IHn; lia.
  - intros Q. rewrite (Q n) by lia. assert (howmany f n = n) by (apply IHn; intros; apply Q; lia). lia.
Qed.

(* Observers. *)
Lemma told_app l k v h : told (l ++ k) v h = told l v h + told k v h.
Proof. unfold told. rewrite filter_app, app_length. reflexivity. Qed.
Lemma told_rev l v h : told (rev l) v h = told l v h.
Proof. induction l as [|x l IH]; [reflexivity|]. cbn [rev]. rewrite told_app, IH. change (x :: l) with ([x] ++ l). rewrite told_app. lia. Qed.
Lemma told_map (f : nat -> call) w l v h : (forall k, f k = Sched w k) \/ (forall k, f k = Cancel w k) ->
  told (map f l) v h = if Nat.eqb w v then count_occ Nat.eq_dec l h else 0.
Proof.
  intros F. induction l as [|k l IH]; [destruct (Nat.eqb w v); reflexivity|]. cbn [map]. change (f k :: map f l) with ([f k] ++ map f l).
  rewrite told_app, IH. cbn [count_occ].
  assert (E : told [f k] v h = if same (v, h) (w, k) then 1 else 0).
  { unfold told. cbn. destruct F as [F|F]; rewrite F; destruct (same (v, h) (w, k)); reflexivity. }
  rewrite E. destruct (same_spec (v, h) (w, k)) as [Q|Q].
  - injection Q as -> ->. rewrite Nat.eqb_refl. destruct (Nat.eq_dec k k); [reflexivity|congruence].
  - destruct (Nat.eqb_spec w v); [|reflexivity]. destruct (Nat.eq_dec k h); [congruence|reflexivity].
Qed.

Definition due (a : ab) (v h : nat) : nat := told (b_calls a) v h + count_occ Nat.eq_dec (forv v (b_wait a)) h.
Lemma reach_due a w v h : due (reach a w) v h = due a v h.
Proof.
  unfold due. cbn. rewrite told_app, told_rev, (told_map _ w) by auto. rewrite forv_notv, (Nat.eqb_sym v w).
  destruct (Nat.eqb_spec w v) as [->|]; cbn; lia.
Qed.
Lemma ask_due c u ms v h : forall a a', ask c a u ms = Some a' -> due a' v h = due a v h.
Proof.
  induction ms as [|m ms IH]; intros a a' E; cbn [ask] in E; [inversion E; subst; auto|].
  destruct (c_mon c m) as [|w|]; try (apply IH in E; exact E).
  destruct (Nat.ltb w (c_n c)); [|discriminate]. apply IH in E. rewrite E, reach_due. reflexivity.
Qed.
Lemma occ_drop k l h : count_occ Nat.eq_dec (drop k l) h <= count_occ Nat.eq_dec l h /\
  (k <> h -> count_occ Nat.eq_dec (drop k l) h = count_occ Nat.eq_dec l h).
Proof.
  induction l as [|x l IH]; [auto|]. cbn [drop]. destruct (Nat.eqb_spec x k) as [->|NE].
  - cbn [count_occ]. destruct (Nat.eq_dec k h); split; intros; try lia; congruence.
  - cbn [count_occ]. destruct IH as [I1 I2]. destruct (Nat.eq_dec x h); split; intros; try lia; rewrite I2; auto.
Qed.
Lemma step_due c a o a' v h : sstep c a o = Some a' ->
  due a' v h <= due a v h + enrolled [o] v h /\ (withdrawn [o] v h = false -> due a' v h = due a v h + enrolled [o] v h).
Proof.
  assert (G : forall n m : nat, n = m + 0 -> n <= m + 0 /\ (withdrawn [o] v h = false -> n = m + 0)) by (intros; split; [lia|auto]).
  unfold sstep. destruct (match arg o with Some v => Nat.ltb v (c_n c) | None => true end); [|discriminate].
  destruct o as [w| |w|w|w i|w i|w t|w k|w k|w|w m|w m|d]; intros E.
  - inversion E; subst. apply G. rewrite reach_due. lia.
  - inversion E; subst. apply G. unfold begin. destruct (c_bool c); rewrite ?reach_due; unfold due; cbn; lia.
  - inversion E; subst. apply G. unfold due; cbn; lia.
  - destruct (_ =? _)%N; inversion E; subst. apply G. unfold due; cbn; lia.
  - apply G. destruct (Nat.ltb i (b_markers a w)); [|discriminate]. destruct (inb _ _); [inversion E; lia|].
    fold (marked_now a w i) in E. assert (due (marked_now a w i) v h = due a v h) by reflexivity.
    destruct (forv w (b_mons (marked_now a w i))).
    + inversion E; subst. destruct (_ <=? _)%N; rewrite ?reach_due; lia.
    + apply ask_due with (v := v) (h := h) in E. lia.
  - destruct (Nat.ltb i (b_markers a w)); inversion E; subst. apply G. unfold due; cbn; lia.
  - inversion E; subst. apply G. unfold due; cbn; lia.
  - inversion E; subst. assert (Q : enrolled [Observe w k] v h = if same (v, h) (w, k) then 1 else 0)
      by (unfold enrolled; cbn; destruct (same (v, h) (w, k)); reflexivity).
    assert (K : due (mkA (b_val a) (b_markers a) (b_marked a) (b_miss a) (b_wait a ++ [(w, k)]) (b_mons a) (b_reached a) (b_calls a)) v h
                = due a v h + enrolled [Observe w k] v h); [|split; [rewrite K; lia|auto]].
    rewrite Q. unfold due. cbn. rewrite forv_app. cbn. destruct (same_spec (v, h) (w, k)) as [W|W].
    + injection W as -> ->. rewrite Nat.eqb_refl, count_occ_app. cbn. destruct (Nat.eq_dec k k); [lia|congruence].
    + destruct (Nat.eqb_spec w v) as [->|]; [|lia]. rewrite count_occ_app. cbn. destruct (Nat.eq_dec k h); [congruence|lia].
  - inversion E; subst. unfold due. cbn. rewrite forv_rm.
    destruct (Nat.eqb_spec w v) as [->|NE].
    + pose proof (occ_drop k (forv v (b_wait a)) h) as [O1 O2]. unfold withdrawn, enrolled. cbn. split; [lia|]. intros W.
      destruct (same_spec (v, h) (v, k)); [discriminate|]. rewrite O2 by congruence. lia.
    + split; intros; unfold enrolled; cbn; lia.
  - inversion E; subst. apply G. unfold due. cbn. rewrite told_app, told_rev, (told_map _ w) by auto. rewrite forv_notv, (Nat.eqb_sym v w).
    destruct (Nat.eqb_spec w v) as [->|]; cbn; lia.
  - inversion E; subst. apply G. unfold due; cbn; lia.
  - inversion E; subst. apply G. unfold due; cbn; lia.
  - inversion E; subst. apply G. lia.
Qed.
Lemma run_due c l v h : forall a a', srun_from c a l = Some a' ->
  due a' v h <= due a v h + enrolled l v h /\ (withdrawn l v h = false -> due a' v h = due a v h + enrolled l v h).
Proof.
  induction l as [|o l IH]; intros a a' E; cbn [srun_from] in E.
  - inversion E; subst. unfold enrolled. cbn. split; intros; lia.
  - destruct (sstep c a o) as [a1|] eqn:ES; [|discriminate]. apply step_due with (v := v) (h := h) in ES as [A1 A2]. apply IH in E as [B1 B2].
    assert (Q : enrolled (o :: l) v h = enrolled [o] v h + enrolled l v h).
    { unfold enrolled. change (o :: l) with ([o] ++ l). rewrite filter_app, app_length. reflexivity. }
    rewrite Q. split; [lia|]. intros W. change (o :: l) with ([o] ++ l) in W. unfold withdrawn in W. rewrite existsb_app in W.
    apply orb_false_iff in W as [W1 W2]. rewrite B2 by auto. rewrite A2 by auto. lia.
Qed.

(* Values that were reached. *)
Lemma ask_reached c u ms : forall a a', ask c a u ms = Some a' ->
  incl (b_reached a) (b_reached a') /\ (b_val a' = b_val a \/ In (b_val a') (b_reached a')).
Proof.
  induction ms as [|m ms IH]; intros a a' E; cbn [ask] in E; [inversion E; subst; split; [apply incl_refl|auto]|].
  destruct (c_mon c m) as [|w|]; try (apply IH in E; exact E).
  destruct (Nat.ltb w (c_n c)); [|discriminate]. apply IH in E as [I1 I2]. cbn in I1, I2. split.
  - intros x Hx. apply I1. right. exact Hx.
  - right. destruct I2 as [-> |I2]; [apply I1; left; reflexivity|exact I2].
Qed.
Lemma step_reached c a o a' : sstep c a o = Some a' -> resets o = false ->
  incl (b_reached a) (b_reached a') /\ (b_val a' = b_val a \/ In (b_val a') (b_reached a')).
Proof.
  assert (RI : forall b w, incl (b_reached b) (b_reached (reach b w)) /\ (b_val (reach b w) = b_val b \/ In (b_val (reach b w)) (b_reached (reach b w)))).
  { intros. cbn. split; [intros x Hx; right; auto|auto]. }
  assert (TR : forall b, b_reached b = b_reached a -> b_val b = b_val a -> incl (b_reached a) (b_reached b) /\ (b_val b = b_val a \/ In (b_val b) (b_reached b))).
  { intros b -> ->. split; [apply incl_refl|auto]. }
  unfold sstep. destruct (match arg o with Some v => Nat.ltb v (c_n c) | None => true end); [|discriminate].
  destruct o as [w| |w|w|w i|w i|w t|w k|w k|w|w m|w m|d]; intros E NR; cbn in NR; try discriminate; try (inversion E; subst; auto; apply TR; reflexivity).
  - destruct (_ =? _)%N; inversion E; subst. apply TR; reflexivity.
  - destruct (Nat.ltb i (b_markers a w)); [|discriminate]. destruct (inb _ _); [inversion E; subst; apply TR; reflexivity|].
    fold (marked_now a w i) in E. destruct (forv w (b_mons (marked_now a w i))).
    + inversion E; subst. destruct (_ <=? _)%N; [apply (RI (marked_now a w i) w)|apply TR; reflexivity].
    + apply ask_reached in E. exact E.
  - destruct (Nat.ltb i (b_markers a w)); inversion E; subst. apply TR; reflexivity.
Qed.
Lemma run_reached c l : forall a a', srun_from c a l = Some a' -> forallb (fun o => negb (resets o)) l = true -> incl (b_reached a) (b_reached a').
Proof.
  induction l as [|o l IH]; intros a a' E F; cbn in E, F; [inversion E; subst; apply incl_refl|].
  apply andb_true_iff in F as [F1 F2]. destruct (sstep c a o) as [a1|] eqn:ES; [|discriminate].
  apply negb_true_iff in F1. apply step_reached in ES as [I _]; auto. eapply incl_tran; eauto.
Qed.
Lemma ask_idle c u ms : (forall m, c_mon c m = Nothing) -> forall a a', ask c a u ms = Some a' ->
  b_reached a' = b_reached a /\ b_val a' = b_val a.
Proof.
  intros N. induction ms as [|m ms IH]; intros a a' E; cbn [ask] in E; [inversion E; subst; auto|].
  rewrite N in E. apply IH in E. exact E.
Qed.
Lemma step_reached_only c a o a' v : (forall m, c_mon c m = Nothing) -> sstep c a o = Some a' ->
  In v (b_reached a') -> In v (b_reached a) \/ b_val a' = v.
Proof.
  intros N. unfold sstep. destruct (match arg o with Some v => Nat.ltb v (c_n c) | None => true end); [|discriminate].
  destruct o as [w| |w|w|w i|w i|w t|w k|w k|w|w m|w m|d]; intros E H; try (inversion E; subst; cbn in *; tauto).
  - inversion E; subst. unfold begin in *. destruct (c_bool c); cbn in *; tauto.
  - destruct (_ =? _)%N; inversion E; subst. auto.
  - destruct (Nat.ltb i (b_markers a w)); [|discriminate]. destruct (inb _ _); [inversion E; subst; auto|].
    fold (marked_now a w i) in E. destruct (forv w (b_mons (marked_now a w i))).
    + inversion E; subst. destruct (_ <=? _)%N; cbn in *; tauto.
    + apply ask_idle in E as [E1 E2]; auto. rewrite E1 in H. auto.
  - destruct (Nat.ltb i (b_markers a w)); inversion E; subst. auto.
Qed.
Lemma run_reached_only c l v : (forall m, c_mon c m = Nothing) -> forall a a', srun_from c a l = Some a' ->
  In v (b_reached a') -> In v (b_reached a) \/ exists l1 l2 a1, l = l1 ++ l2 /\ srun_from c a l1 = Some a1 /\ b_val a1 = v.
Proof.
  intros N. induction l as [|o l IH]; intros a a' E H; cbn [srun_from] in E; [inversion E; subst; auto|].
  destruct (sstep c a o) as [a1|] eqn:ES; [|discriminate]. apply IH in E as [E|(l1 & l2 & a2 & -> & E1 & E2)]; auto.
  - apply step_reached_only with (v := v) in ES as K; auto. destruct K as [K|K]; auto. right. exists [o], l, a1. cbn. rewrite ES. auto.
  - right. exists (o :: l1), l2, a2. cbn. rewrite ES. auto.
Qed.

Lemma srun_app c l1 l2 : forall a, srun_from c a (l1 ++ l2) = match srun_from c a l1 with Some a => srun_from c a l2 | None => None end.
Proof. induction l1 as [|o l1 IH]; intros a; cbn; auto. destruct (sstep c a o); auto. Qed.
Lemma in_eqb v l : existsb (Nat.eqb v) l = true <-> In v l.
Proof.
  rewrite existsb_exists. split; [intros (x & H & E); apply Nat.eqb_eq in E; congruence|].
  intros H. exists v. split; auto. apply Nat.eqb_refl.
Qed.

(* Time. *)
Definition told_all (s : st) : Prop := s_act s = s_cur s /\ (s_start s <= s_now s)%N.
Definition shown (s : st) (v : nat) : N := (s_delta s v + if Nat.eqb (s_act s) v then s_now s - s_start s else 0)%N.

Lemma set_value_time c s w s' : set_value c s w = Some s' -> told_all s ->
  told_all s' /\ s_cur s' = w /\ s_now s' = s_now s /\ (forall v, shown s' v = shown s v) /\
  time_in_state s' = if Nat.eqb (s_cur s) w then time_in_state s else 0%N.
Proof.
  intros E [T1 T2]. unfold set_value in E. destruct (Nat.ltb w (c_n c)); [|discriminate]. inversion E; subst. clear E.
  unfold notify. rewrite say_all. unfold told_all, shown, time_in_state, upd, set_cur. cbn.
  unfold start_state. rewrite T1. destruct (Nat.eqb_spec (s_cur s) w) as [<-|NE]; cbn.
  - rewrite T1. auto 10.
  - split; [split; [reflexivity|lia]|]. split; [reflexivity|]. split; [reflexivity|]. split; [|lia]. intros v. unfold fset. rewrite (Nat.eqb_sym v (s_cur s)).
    destruct (Nat.eqb_spec (s_cur s) v) as [Q1|Q1], (Nat.eqb_spec w v) as [Q2|Q2]; try congruence; rewrite <- ?Q1; lia.
Qed.
Lemma step_time c s o s' : step c s o = Some s' -> untold o = false -> told_all s ->
  told_all s' /\ (forall v, shown s' v = shown s v + match o with Pass d => if Nat.eqb (value s) v then d else 0 | _ => 0 end)%N /\
  time_in_state s' = match o with Pass d => (time_in_state s + d)%N | _ => if Nat.eqb (value s) (value s') then time_in_state s else 0%N end.
Proof.
  intros E U T. unfold step in E. destruct (match arg o with Some v => Nat.ltb v (c_n c) | None => true end); [|discriminate].
  assert (G : forall s', s_cur s' = s_cur s -> s_now s' = s_now s -> s_act s' = s_act s -> s_start s' = s_start s -> s_delta s' = s_delta s ->
     told_all s' /\ (forall v, shown s' v = shown s v + 0)%N /\ time_in_state s' = if Nat.eqb (value s) (value s') then time_in_state s else 0%N).
  { intros t E1 E2 E3 E4 E5. unfold told_all, shown, time_in_state, value. rewrite E1, E2, E3, E4, E5, Nat.eqb_refl. split; [exact T|]. split; [intros; lia|reflexivity]. }
  destruct o as [w| |w|w|w i|w i|w t|w k|w k|w|w m|w m|d]; cbn in U; try discriminate; try (inversion E; subst; apply G; reflexivity).
  - apply set_value_time in E as (A & B & _ & C & D); auto. split; auto. split; [intros; rewrite C; lia|]. unfold value. rewrite D, B. reflexivity.
  - unfold new_marker in E. destruct (_ =? _)%N; inversion E; subst. apply G; reflexivity.
  - unfold clear in E. destruct (nth_error _ _) as [[]|]; try discriminate; [destruct (_ =? _)%N; [discriminate|]|]; inversion E; subst; apply G; reflexivity.
  - inversion E; subst. unfold release. rewrite say_all. apply G; reflexivity.
  - inversion E; subst. destruct T as [T1 T2]. unfold told_all, shown, time_in_state, value. cbn. split; [split; [auto|lia]|]. rewrite T1. split; [|lia].
    intros v. destruct (Nat.eqb_spec (s_cur s) v); lia.
Qed.
Lemma run_time c l : forall s s', run_from c s l = Some s' -> forallb (fun o => negb (untold o)) l = true -> told_all s ->
  told_all s' /\ (forall v, shown s' v = shown s v + spent c s l v)%N /\ time_in_state s' = since c s l (time_in_state s).
Proof.
  induction l as [|o l IH]; intros s s' E F T; cbn [run_from spent since forallb] in *.
  - inversion E; subst. split; [exact T|]. split; [intros; lia|reflexivity].
  - apply andb_true_iff in F as [F1 F2]. apply negb_true_iff in F1. destruct (step c s o) as [s1|] eqn:ES; [|discriminate].
    pose proof (step_time _ _ _ _ ES F1 T) as (T1 & H1 & D1). destruct (IH _ _ E F2 T1) as (T2 & H2 & D2). split; [exact T2|]. split.
    + intros v. rewrite H2, H1. destruct o; lia.
    + rewrite D2, D1. reflexivity.
Qed.
Lemma construct_time c s : construct c = Some s -> told_all s /\ (forall v, shown s v = 0%N) /\ time_in_state s = 0%N.
Proof.
  unfold construct. destruct (Nat.ltb (c_init c) (c_n c)); [|discriminate].
  set (s0 := mkS _ _ _ _ _ _ _). assert (T0 : told_all s0) by (split; cbn; [reflexivity|lia]).
  assert (Z : forall v, shown s0 v = 0%N) by (intros v; unfold shown; cbn; destruct (Nat.eqb (c_init c) v); reflexivity).
  unfold attempt. destruct (c_bool c).
  - intros E. apply set_value_time in E as (A & _ & _ & C & D); auto. split; auto. split; [intros; rewrite C; auto|].
    rewrite D. destruct (Nat.eqb _ _); reflexivity.
  - intros E. inversion E; subst. auto.
Qed.
